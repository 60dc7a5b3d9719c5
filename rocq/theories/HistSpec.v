(** * HistSpec: vocabulary for the residual history (C117). *)
From Verif Require Import Base Scalar SolverModel SolverSpec.
Set Implicit Arguments.

Section HistSpec.
Context {F : Type} {SF : Scalar F}.

(** a printed line with number k and value v ends the run *)
Definition below (c : cfg (F:=F)) (l : nat * F) : bool := fltb (snd l) (s_tol c) && (s_miniter c <=? fst l).
(** The history is consistent with the return code and get_final_iter:
    - the lines are numbered 1, 2, 3, ...;
    - no line but the last is below the tolerance (from miniter on) or NaN;
    - SUCCESS: final_iter lines, the last one below the tolerance; RESIDUAL_NAN: final_iter lines, the last one NaN;
      MAXITER: maxiter lines, none of which ends the run; BREAKDOWN: one line less than final_iter, none of which ends the run. *)
Definition quiet (c : cfg (F:=F)) (h : list (nat * F)) : Prop := forall l, In l h -> below c l = false /\ fnan (snd l) = false.
Definition history_ok (c : cfg (F:=F)) (o : outcome (F:=F)) (h : list (nat * F)) : Prop :=
  map fst h = seq 1 (length h) /\
  ((o_code o = SUCCESS /\ o_iter o = length h /\ exists h' l, h = h' ++ [l] /\ quiet c h' /\ below c l = true) \/
   (o_code o = RESIDUAL_NAN /\ o_iter o = length h /\ exists h' l, h = h' ++ [l] /\ quiet c h' /\ below c l = false /\ fnan (snd l) = true) \/
   (o_code o = MAXITER /\ o_iter o = s_maxiter c /\ length h = s_maxiter c /\ quiet c h) \/
   (o_code o = BREAKDOWN /\ o_iter o = length h + 1 /\ length h < s_maxiter c /\ quiet c h)).
(** h1 is how h2 begins *)
Definition begins {A} (h1 h2 : list A) : Prop := exists t, h2 = h1 ++ t.
End HistSpec.

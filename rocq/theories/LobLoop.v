(** * LobLoop: starting vectors for which LOBPCG never returns (proof support for C76). *)
From Coq Require Import Ring.
From Verif Require Import Base Scalar Spec SumFacts SolverModel SolverSpec SolverProof LobModel LobSpec LobProof LobProof2 LobProof3 LobGen LobProof4.
Set Implicit Arguments.

Section Never.
Context {F : Type} {SF : Scalar F}.
Local Open Scope F_scope.
Hypothesis Ho : ordered_field (F:=F).
Hypothesis Hroot : forall a : F, leq 0 a -> root_of a.
Let Hex : exact SF := of_ring Ho.
Let Hrt : ring_theory f0 f1 fadd fmul fsub fopp (@eq F) := Hex.
Add Ring FringNever : Hrt.

Lemma mul_nz (a b : F) : a <> 0 -> b <> 0 -> a * b <> 0.
Proof.
  intros Ha Hb E. pose proof (proj1 (of_field Ho) (1 : F) b Hb) as G. apply Ha.
  transitivity (a * (1 / b * b)); [rewrite G; ring|]. transitivity (1 / b * (a * b)); [ring|]. rewrite E. ring.
Qed.
(** the normalised multiple of a vector that is not 0 *)
Lemma scaled n (v w : list F) c0 : length v = n -> length w = n -> dotp n (fn v) (fn v) <> 0 -> c0 <> 0 ->
  (forall k, (k < n)%nat -> fn w k = c0 * fn v k) ->
  exists c, c <> 0 /\ v_nrm2 w = Ok (norm2 n (fn w)) /\ length (v_scal (1 / norm2 n (fn w)) w) = n /\
    forall k, (k < n)%nat -> fn (v_scal (1 / norm2 n (fn w)) w) k = c * fn v k.
Proof.
  intros Lv Lw Hv Hc Hw. exists ((1 / norm2 n (fn w)) * c0). split; [|split; [|split]].
  - apply mul_nz; auto. intros E.
    assert (Hn : norm2 n (fn w) <> 0).
    { unfold norm2. intros Z. destruct (@Hroot (sum_n n (fun i => fn w i * fn w i))) as (R1 & _).
      - apply sumF_nonneg; auto. intros; apply sq_nonneg; auto.
      - rewrite Z in R1. apply (mul_nz (mul_nz Hc Hc) Hv). transitivity (sum_n n (fun i => fn w i * fn w i)); [|rewrite <- R1; ring].
        unfold dotp. rewrite <- (sum_scal Hex). apply sum_ext. intros i Hi. rewrite Hw by auto. ring. }
    pose proof (proj1 (of_field Ho) (1 : F) _ Hn) as G. rewrite E in G. apply (one_zero Ho). rewrite <- G. ring.
  - now apply v_nrm2_exact.
  - now rewrite v_scal_length.
  - intros k Hk. rewrite v_scal_fn by lia. rewrite Hw by auto. ring.
Qed.

Lemma two_shape (p q r s : F) : shaped 2 2 [[p; q]; [r; s]].
Proof. split; auto. intros [|[|i]] Hi; auto. lia. Qed.
Lemma two_sym (p q r s : F) : q = r -> sym_rows 2 [[p; q]; [r; s]].
Proof. intros ->. split; [apply two_shape|]. intros [|[|i]] [|[|j]] Hi Hj; auto; lia. Qed.

(** the 2 x 2 Gram matrix of w and x, in the scalar product s *)
Lemma singular_info a (Ha : a <> 0) (sygvd : sygvd_t (F:=F)) call Sa s : lapack_minors sygvd -> sym_rows 2 Sa -> fltb 0 s = true ->
  fst (fst (sygvd call Sa [[a * a * s; a * s]; [a * s; s]])) = 4%Z.
Proof.
  intros Hm Hs Hp. rewrite (Hm call 2%nat Sa [[a * a * s; a * s]; [a * s; s]] 2%nat); auto.
  - now apply two_sym.
  - intros i Hi. assert (i = 1)%nat by lia. subst i.
    assert (E : det 1 (rowf [[a * a * s; a * s]; [a * s; s]]) = a * a * s) by (unfold rowf, fn; cbn; ring). rewrite E.
    apply (of_mul Ho); auto. now apply sq_pos.
  - assert (E : det 2 (rowf [[a * a * s; a * s]; [a * s; s]]) = 0) by (unfold rowf, fn; cbn; ring). rewrite E. apply (of_irr Ho).
Qed.

Section Sing.
Variables (c : cfg (F:=F)) (n : nat) (x w X W BX BW : list F) (K KB : nat -> nat -> F) (a : F).
Hypotheses (Lx : length x = n) (Lw : length w = n) (LX : length X = n) (LW : length W = n).
Hypothesis (Ha : a <> 0) (Hx : dotp n (fn x) (fn x) <> 0).
Hypothesis Ew : forall k, (k < n)%nat -> fn w k = a * fn x k.
Hypothesis EX : forall k, (k < n)%nat -> fn X k = mv n K (fn x) k.
Hypothesis EW : forall k, (k < n)%nat -> fn W k = mv n K (fn w) k.

Lemma gram_two (Y V y v : list F) : length Y = n -> length V = n -> length y = n -> length v = n ->
  gram ([V] ++ [Y]) ([v] ++ [y]) = Ok [[dotp n (fn V) (fn v); dotp n (fn V) (fn y)]; [dotp n (fn Y) (fn v); dotp n (fn Y) (fn y)]].
Proof.
  intros H1 H2 H3 H4. unfold gram. cbn [app traverse].
  rewrite (v_dot_exact Hex V v H2 H4). cbn [bind]. rewrite (v_dot_exact Hex V y H2 H3). cbn [bind].
  rewrite (v_dot_exact Hex Y v H1 H4). cbn [bind]. rewrite (v_dot_exact Hex Y y H1 H3). cbn [bind]. reflexivity.
Qed.

(** W = a X *)
Lemma EWX k : (k < n)%nat -> fn W k = a * fn X k.
Proof. intros Hk. rewrite EW, EX by auto. rewrite <- (mv_scal Hex). now apply mv_ext. Qed.

Lemma dot_wl (Y y : list F) b (z : nat -> F) : (forall k, (k < n)%nat -> fn Y k = b * fn y k) -> dotp n (fn Y) z = b * dotp n (fn y) z.
Proof. intros H. unfold dotp. rewrite <- (sum_scal Hex). apply sum_ext. intros i Hi. rewrite H by auto. ring. Qed.
Lemma dot_wr (z : nat -> F) (Y y : list F) b : (forall k, (k < n)%nat -> fn Y k = b * fn y k) -> dotp n z (fn Y) = b * dotp n z (fn y).
Proof. intros H. unfold dotp. rewrite <- (sum_scal Hex). apply sum_ext. intros i Hi. rewrite H by auto. ring. Qed.

Lemma norm_pos : fltb 0 (dotp n (fn x) (fn x)) = true.
Proof using Ho Hx.
  destruct (of_tri Ho 0 (dotp n (fn x) (fn x))) as [H|[H|H]]; [auto|congruence|].
  exfalso. assert (G : leq 0 (dotp n (fn x) (fn x))) by (unfold dotp; apply sumF_nonneg; auto; intros; apply sq_nonneg; auto).
  exact (lt_not_le H G).
Qed.
End Sing.

(** standard problem: x an eigenvector that is not normalised *)
Lemma never_standard (A : matif (F:=F)) n M sygvd fuel c x lam l0 li lr :
  represents A n M -> lapack_minors sygvd -> s_lib c = 0%nat -> (0 < s_maxiter c)%nat -> length x = n ->
  (forall k, (k < n)%nat -> mv n M (fn x) k = lam * fn x k) -> lam <> 0 ->
  dotp n (fn x) (fn x) <> 0 -> dotp n (fn x) (fn x) <> 1 ->
  lobpcg_solve fuel c USER A pc_none sygvd [l0] n [x] li lr = NoFuel.
Proof.
  intros HA Hm Hlib Hmx Lx Hl Hlam Hs0 Hs1. unfold lobpcg_solve. rewrite Hlib. unfold lobpcg, require_.
  assert (En : mi_col A = n) by apply HA. rewrite En, Nat.eqb_refl. cbn [length Nat.eqb bind pc_none start_rows traverse].
  rewrite (@v_copy_ok F n x (repeat 0 n)) by (auto; apply repeat_length). cbn [bind].
  cbn [traverse]. unfold lob_init_row. destruct HA as (_ & _ & Hmv).
  destruct (Hmv x (repeat 0 n) Lx (repeat_length _ _)) as (X & EX & LX & VX). rewrite EX. cbn [bind].
  rewrite (v_dot_exact Hex _ _ Lx LX). cbn [bind].
  rewrite (@v_axpyz_ok F SF n _ x X (repeat 0 n)) by (auto; apply repeat_length). cbn [bind].
  set (w0 := zipw _ _ _). assert (Lw0 : length w0 = n) by (unfold w0; rewrite zipw_length; auto).
  set (s := dotp n (fn x) (fn x)) in *.
  assert (Emu : dotp n (fn x) (fn X) = lam * s).
  { unfold s, dotp. rewrite <- (sum_scal Hex). apply sum_ext. intros i Hi. rewrite VX, Hl by auto. ring. }
  destruct (@scaled n x w0 (lam * (1 - s)) Lx Lw0 Hs0) as (a & Ha & Enw & Lw & Vw).
  { apply mul_nz; auto. intros E. apply Hs1. transitivity (1 - (1 - s)); [ring|rewrite E; ring]. }
  { intros k Hk. unfold w0. rewrite zipw_fn by lia. rewrite Emu, VX, Hl by auto. ring. }
  rewrite Enw. cbn [bind]. set (w := v_scal _ w0) in *.
  destruct (Hmv w (repeat 0 n) Lw (repeat_length _ _)) as (W & EW & LW & VW). rewrite EW. cbn [bind map fst snd].
  match goal with |- lob_loop _ _ _ _ _ _ _ _ _ _ ?st0 _ _ = _ => set (st := st0) end.
  assert (Pass : forall sg call, lob_pass c A (fun r z => v_copy r z) sygvd 1 n 0 sg call st = Ok (Restart 4)).
  { intros sg call. unfold lob_pass. cbn [Nat.eqb orb].
    change (g_w st) with [w]. change (g_x st) with [x]. change (g_W st) with [W]. change (g_X st) with [X].
    rewrite (@gram_two n X W x w LX LW Lx Lw). cbn [bind]. rewrite (@gram_two n x w x w Lx Lw Lx Lw). cbn [bind].
    assert (EWX' : forall k, (k < n)%nat -> fn W k = a * fn X k) by (intros k Hk; exact (@EWX n x w X W M a Vw VX VW k Hk)).
    rewrite !(@dot_wl n w x a _ Vw), !(@dot_wr n _ w x a Vw), !(@dot_wl n W X a _ EWX').
    fold s. replace (a * (a * s)) with (a * a * s) by ring.
    set (Sa := [[_; _]; [_; _]]).
    pose proof (@singular_info a Ha sygvd call Sa s Hm) as HI.
    destruct (sygvd call Sa [[a * a * s; a * s]; [a * s; s]]) as [[info lv] V] eqn:Es. cbn [fst] in HI.
    rewrite HI; [reflexivity| |exact (@norm_pos n x Hs0)].
    unfold Sa. apply two_sym. ring. }
  assert (Loop : forall fuel sg call r i, lob_loop c A (fun r z => v_copy r z) sygvd 1 n fuel 0 sg call st r i = NoFuel).
  { clear fuel. induction fuel as [|fuel IH]; intros sg call r i; cbn [lob_loop]; auto.
    rewrite (proj2 (Nat.ltb_lt 0 (s_maxiter c))) by auto. rewrite Pass. cbn [bind]. apply IH. }
  apply Loop.
Qed.

(** generalized problem with B = beta I: every starting vector *)
Lemma never_general (A B : matif (F:=F)) n M N sygvd fuel c x beta l0 li lr :
  represents A n M -> represents B n N -> lapack_minors sygvd -> s_lib c = 0%nat -> (0 < s_maxiter c)%nat -> length x = n ->
  (forall k, (k < n)%nat -> mv n N (fn x) k = beta * fn x k) -> fltb 0 beta = true ->
  dotp n (fn x) (fn x) <> 0 ->
  dotp n (fn x) (mv n M (fn x)) <> beta * (beta * dotp n (fn x) (fn x)) ->
  globpcg_solve fuel c USER A B pc_none sygvd [l0] n [x] 1 li lr = NoFuel.
Proof.
  intros HA HB Hm Hlib Hmx Lx Hl Hb Hs0 Hs1. unfold globpcg_solve. rewrite Hlib. unfold globpcg, require_, assert_.
  assert (En : mi_col A = n) by apply HA. assert (En' : mi_col B = n) by apply HB.
  assert (Er : mi_row A = n) by apply HA. assert (Er' : mi_row B = n) by apply HB.
  rewrite En, En', Er, Er', Nat.eqb_refl. cbn [length Nat.eqb bind pc_none start_rows traverse andb Z.eqb Pos.eqb].
  rewrite (@v_copy_ok F n x (repeat 0 n)) by (auto; apply repeat_length). cbn [bind].
  cbn [traverse]. unfold glob_init_row. destruct HA as (_ & _ & Hmv). destruct HB as (_ & _ & Hmb).
  destruct (Hmv x (repeat 0 n) Lx (repeat_length _ _)) as (X & EX & LX & VX). rewrite EX. cbn [bind].
  destruct (Hmb x (repeat 0 n) Lx (repeat_length _ _)) as (BX & EBX & LBX & VBX). rewrite EBX. cbn [bind].
  rewrite (v_dot_exact Hex _ _ Lx LX). cbn [bind]. rewrite (v_dot_exact Hex _ _ Lx LBX). cbn [bind].
  rewrite (@v_axpyz_ok F SF n _ x BX (repeat 0 n)) by (auto; apply repeat_length). cbn [bind].
  set (w0 := zipw _ _ _). assert (Lw0 : length w0 = n) by (unfold w0; rewrite zipw_length; auto).
  set (s := dotp n (fn x) (fn x)) in *.
  assert (Hbeta : beta <> 0) by (intros ->; now rewrite (of_irr Ho) in Hb).
  assert (EB : dotp n (fn x) (fn BX) = beta * s).
  { unfold s, dotp. rewrite <- (sum_scal Hex). apply sum_ext. intros i Hi. rewrite VBX, Hl by auto. ring. }
  assert (EA : dotp n (fn x) (fn X) = dotp n (fn x) (mv n M (fn x))) by (apply dotp_ext'; auto).
  set (mu := dotp n (fn x) (fn X) / dotp n (fn x) (fn BX)) in *.
  assert (Emu : mu * (beta * s) = dotp n (fn x) (mv n M (fn x))).
  { unfold mu. rewrite EB, EA. apply (proj1 (of_field Ho)). now apply mul_nz. }
  destruct (@scaled n x w0 (beta - mu) Lx Lw0 Hs0) as (a & Ha & Enw & Lw & Vw).
  { intros E. apply Hs1. rewrite <- Emu. replace mu with beta; auto. transitivity (beta - (beta - mu)); [rewrite E|]; ring. }
  { intros k Hk. unfold w0. rewrite zipw_fn by lia. rewrite VBX, Hl by auto. ring. }
  rewrite Enw. cbn [bind]. set (w := v_scal _ w0) in *.
  destruct (Hmv w (repeat 0 n) Lw (repeat_length _ _)) as (W & EW & LW & VW). rewrite EW. cbn [bind map fst snd].
  destruct (Hmb w (repeat 0 n) Lw (repeat_length _ _)) as (BW & EBW & LBW & VBW). rewrite EBW. cbn [bind map fst snd].
  match goal with |- glob_loop _ _ _ _ _ _ _ _ _ _ _ ?st0 _ _ = _ => set (st := st0) end.
  assert (Pass : forall sg call, glob_pass c A B (fun r z => v_copy r z) sygvd 1 n 0 sg call st = Ok (GRestart 4)).
  { intros sg call. unfold glob_pass. cbn [Nat.eqb orb].
    change (g_w (h_a st)) with [w]. change (g_x (h_a st)) with [x]. change (g_W (h_a st)) with [W]. change (g_X (h_a st)) with [X].
    change (h_BW st) with [BW]. change (h_BX st) with [BX].
    rewrite (@gram_two n X W x w LX LW Lx Lw). cbn [bind]. rewrite (@gram_two n BX BW x w LBX LBW Lx Lw). cbn [bind].
    assert (EWX' : forall k, (k < n)%nat -> fn W k = a * fn X k) by (intros k Hk; exact (@EWX n x w X W M a Vw VX VW k Hk)).
    assert (EBWX' : forall k, (k < n)%nat -> fn BW k = a * fn BX k) by (intros k Hk; exact (@EWX n x w BX BW N a Vw VBX VBW k Hk)).
    rewrite !(@dot_wl n W X a _ EWX'), !(@dot_wl n BW BX a _ EBWX'), !(@dot_wr n _ w x a Vw).
    rewrite (dotp_comm' Hex n (fn BX) (fn x)), EB. replace (a * (a * (beta * s))) with (a * a * (beta * s)) by ring.
    set (Sa := [[_; _]; [_; _]]).
    pose proof (@singular_info a Ha sygvd call Sa (beta * s) Hm) as HI.
    destruct (sygvd call Sa [[a * a * (beta * s); a * (beta * s)]; [a * (beta * s); beta * s]]) as [[info lv] V] eqn:Es. cbn [fst] in HI.
    rewrite HI; [reflexivity| |].
    - unfold Sa. apply two_sym. ring.
    - apply (of_mul Ho); auto. exact (@norm_pos n x Hs0). }
  assert (Loop : forall fuel sg call r i, glob_loop c A B (fun r z => v_copy r z) sygvd 1 n fuel 0 sg call st r i = NoFuel).
  { clear fuel. induction fuel as [|fuel IH]; intros sg call r i; cbn [glob_loop]; auto.
    rewrite (proj2 (Nat.ltb_lt 0 (s_maxiter c))) by auto. rewrite Pass. cbn [bind]. apply IH. }
  apply Loop.
Qed.
End Never.

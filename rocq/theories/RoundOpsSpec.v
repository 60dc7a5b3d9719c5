(** * RoundOpsSpec: vocabulary for C109. *)
From Coq Require Import ZArith Reals Floats.SpecFloat List.
From Verif Require Import Base Scalar Spec Mem VecModel VecSpec Observe DenseModel CrsModel CrsObserve RoundSpec.
Set Implicit Arguments.

(** A floating-point result: within [err] of [exact] when finite, and then its inputs were finite ([ok]); finite when
    the inputs are and [lim] is below the overflow threshold. *)
Definition near (prec emax : Z) (r : spec_float) (ok : Prop) (exact err lim : R) : Prop :=
  num prec emax r /\ (finite r -> ok /\ (Rabs (val r - exact) <= err)%R) /\ (ok -> (lim < huge emax)%R -> finite r).

(** The element-wise call runs under every schedule, touches only y, and element i of y is [near] the exact value. *)
Definition rounds (prec emax : Z) (k : kernel) (m : mem spec_float) (y : arg) (ok : nat -> Prop) (exact err lim : nat -> R) : Prop :=
  exists f, @computes _ (ieee prec emax) k m y f /\ forall i, i < a_len y -> near prec emax (f i) (ok i) (exact i) (err i) (lim i).

(** one rounding; one rounding that can underflow *)
Definition err1 (prec : Z) (r : R) : R := (uro prec * Rabs r)%R.
Definition lim1 (prec : Z) (r : R) : R := ((1 + uro prec) * Rabs r)%R.
Definition err1u (prec emax : Z) (r : R) : R := (uro prec * Rabs r + tiny prec emax)%R.
Definition lim1u (prec emax : Z) (r : R) : R := ((1 + uro prec) * Rabs r + tiny prec emax)%R.
(** b + a*x: one rounding of b, two of a*x *)
Definition err_ax (prec emax : Z) (b ax : R) : R := (gam prec 1 * Rabs b + gam prec 2 * Rabs ax + (1 + uro prec) * tiny prec emax)%R.
Definition lim_ax (prec emax : Z) (b ax : R) : R :=
  ((1 + uro prec) * Rabs b + (1 + uro prec) * (1 + uro prec) * Rabs ax + (1 + uro prec) * tiny prec emax)%R.

(** element (i,j) of a Dense matrix as a real number *)
Definition dval (B : dense spec_float) (i j : nat) : R := val (@dense_fn _ b64scalar B i j).
(** row i of |A| times column j of |B|; the absolute values of B that meet stored entries of row i *)
Definition abs_prod (A : crs spec_float) (B : dense spec_float) (i j : nat) : R :=
  rmv (m_col A) (abs_mat A) (fun k => Rabs (dval B k j)) i.
Definition met (A : crs spec_float) (B : dense spec_float) (i j : nat) : R :=
  rsum (fun p => Rabs (dval B (fst p) j)) (@crs_row _ b64scalar A i).
(** error of a*A*B + b*C at (i,j), without and with AVX; k stored entries in row i, t = (|A||B|)(i,j), c = C(i,j) *)
Definition mm_err (prec emax : Z) (k : nat) (a b t c : R) : R :=
  (gam prec (k + 2) * (Rabs a * t) + gam prec 2 * Rabs (b * c)
   + (1 + uro prec) * ((1 + uro prec) * (1 + uro prec) ^ Nat.pred k * (INR k * Rabs a) + 2) * tiny prec emax)%R.
Definition mm_err_avx (prec emax : Z) (k : nat) (a b t c mt : R) : R :=
  (gam prec (k + 2) * (Rabs a * t + Rabs (b * c)) + (1 + uro prec) ^ k * ((1 + uro prec) * mt + INR k + 1) * tiny prec emax)%R.
(** the stored values of row i *)
Definition row_abs (A : crs spec_float) (i : nat) : R := rsum (fun p => Rabs (val (snd p))) (@crs_row _ b64scalar A i).
(** bounds of everything that can overflow on the way *)
Definition mm_lim (prec emax : Z) (k : nat) (a b t c : R) : R :=
  (prod_lim prec emax k t
   + (1 + uro prec) * ((1 + uro prec) * (Rabs a * prod_lim prec emax k t + Rabs (b * c)) + 2 * tiny prec emax))%R.
Definition mm_lim_avx (prec emax : Z) (k : nat) (a b t c mt vt : R) : R :=
  ((1 + uro prec) * (Rabs a * vt) + INR k * tiny prec emax
   + (1 + uro prec) ^ k * ((1 + uro prec) * ((1 + uro prec) * (Rabs a * t)) + (1 + uro prec) * Rabs (b * c)
                           + ((1 + uro prec) * mt + INR k + 1) * tiny prec emax))%R.

(** * RoundSpec: vocabulary for the properties about floating-point arithmetic.

    A [float] or [double] is a [spec_float] of the standard library (sign, mantissa, exponent; zeros, infinities, NaN)
    that fits the format: [prec] bits of mantissa, exponents below [emax].  binary64: 53, 1024; binary32: 24, 128. *)
From Coq Require Import ZArith Reals Floats.SpecFloat List.
From Verif Require Import Base Scalar Spec Mem ReduceModel CrsModel CrsObserve EigModel.
Set Implicit Arguments.

(** IEEE-754 arithmetic, round to nearest even *)
Definition ieee (prec emax : Z) : Scalar spec_float := {|
  f0 := S754_zero false; f1 := binary_normalize prec emax 1 0 false;
  fadd := SFadd prec emax; fsub := SFsub prec emax; fmul := SFmul prec emax; fdiv := SFdiv prec emax;
  fopp := SFopp; fabs := SFabs; fsqrt := SFsqrt prec emax; feqb := SFeqb; fltb := SFltb;
  fnan := fun x => match x with S754_nan => true | _ => false end |}.
Lemma double_ieee : b64scalar = ieee 53 1024.
Proof. reflexivity. Qed.
(** binary32, the C type float *)
Definition b32scalar : Scalar spec_float := ieee 24 128.

(** a bit pattern of the format *)
Definition num (prec emax : Z) (x : spec_float) : Prop := valid_binary prec emax x = true.
(** neither infinite nor NaN *)
Definition finite (x : spec_float) : Prop :=
  match x with S754_zero _ | S754_finite _ _ _ => True | _ => False end.
(** its value *)
Definition val (x : spec_float) : R :=
  match x with
  | S754_finite s m e => (if s then -1 else 1) * IZR (Zpos m) * powerRZ 2 e
  | _ => 0
  end.

(** unit roundoff, half the smallest positive number, bound of the finite numbers *)
Definition uro (prec : Z) : R := powerRZ 2 (- prec).
Definition tiny (prec emax : Z) : R := powerRZ 2 (2 - emax - prec).
Definition huge (emax : Z) : R := powerRZ 2 emax.

(** sum of f over a list, sum of f(0..n-1) *)
Definition rsum {A : Type} (f : A -> R) (l : list A) : R := fold_right (fun a s => f a + s)%R 0%R l.
Definition rsum_n (n : nat) (f : nat -> R) : R := rsum f (seq 0 n).

(** relative error after k roundings: (1+u)^k - 1, about k*u *)
Definition gam (prec : Z) (k : nat) : R := ((1 + uro prec) ^ k - 1)%R.

(** The call returns something, cannot go wrong, and under every schedule: a finite result differs from [exact] by at most [err], and
    its inputs were finite ([ok]); if the inputs are finite and [lim] is below the overflow threshold the result is finite. *)
Definition fl_returns (prec emax : Z) (k : reduction) (m : mem spec_float) (ok : Prop) (exact err lim : R) : Prop :=
  (exists v, red_val k m v) /\ ~ red_fault k m /\
  forall v, red_val k m v ->
    num prec emax v /\ (finite v -> ok /\ (Rabs (val v - exact) <= err)%R) /\ (ok -> (lim < huge emax)%R -> finite v).

(** The call cannot go wrong and returns exactly [exact], under every schedule. *)
Definition fl_exact (prec emax : Z) (k : reduction) (m : mem spec_float) (exact : R) : Prop :=
  (exists v, red_val k m v) /\ ~ red_fault k m /\ forall v, red_val k m v -> num prec emax v /\ finite v /\ val v = exact.

(** x holds an integer; the integers up to 2^prec are all representable *)
Definition is_int (x : spec_float) : Prop := finite x /\ exists z, val x = IZR z.
Definition int_max (prec : Z) : R := powerRZ 2 prec.

(** stored entries (the zero that pads reads outside the buffer is the same in every format) *)
Definition crs_ents (A : crs spec_float) : list (nat * nat * spec_float) := @crs_entries _ b64scalar A.
(** the real matrix a sparse matrix of floating-point numbers represents (repeated positions added), and that of the absolute values *)
Definition real_entries (g : R -> R) (ts : list (nat * nat * spec_float)) : list (nat * nat * R) :=
  map (fun t => (fst t, g (val (snd t)))) ts.
Definition real_mat (A : crs spec_float) : nat -> nat -> R := @summed R Rscalar (real_entries (fun r => r) (crs_ents A)).
Definition abs_mat (A : crs spec_float) : nat -> nat -> R := @summed R Rscalar (real_entries Rabs (crs_ents A)).
(** number of stored entries of row i / column j *)
Definition row_cnt (A : crs spec_float) (i : nat) : nat := length (@crs_row _ b64scalar A i).
Definition col_cnt (A : crs spec_float) (j : nat) : nat := length (ent_col (crs_ents A) j).
(** error of a sum of k products whose absolute values add up to t; a bound of what can overflow *)
Definition prod_err (prec emax : Z) (k : nat) (t : R) : R := (gam prec k * t + INR k * (1 + uro prec) ^ Nat.pred k * tiny prec emax)%R.
Definition prod_lim (prec emax : Z) (k : nat) (t : R) : R := ((1 + uro prec) ^ k * t + INR k * (1 + uro prec) ^ Nat.pred k * tiny prec emax)%R.
(** The result r of a sum of k products with exact value [exact] and total absolute value [t]: accurate when finite, and finite
    when the data are ([ok]) and nothing can overflow. *)
Definition fl_prod (prec emax : Z) (r : spec_float) (ok : Prop) (k : nat) (exact t : R) : Prop :=
  num prec emax r /\ (finite r -> ok /\ (Rabs (val r - exact) <= prod_err prec emax k t)%R) /\
  (ok -> (prod_lim prec emax k t < huge emax)%R -> finite r).
(** every stored value, every element *)
Definition all_num (prec emax : Z) (l : list spec_float) : Prop := Forall (num prec emax) l.
Definition stored (A : crs spec_float) : list spec_float := map snd (crs_ents A).
(** matrix-vector product over the reals; element j of a vector *)
Definition rmv (n : nat) (A : nat -> nat -> R) (x : nat -> R) (i : nat) : R := @mv R Rscalar n A x i.
Definition at_ (x : list spec_float) (j : nat) : R := val (nth j x (S754_zero false)).

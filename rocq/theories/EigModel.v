(** * EigModel: the exact-eigenvalue functions of namespace util (model only, no proofs).

    Float is the field of real numbers here ([Rscalar]: the standard library's reals), std::cos is [cos] and
    M_PI is [PI]: the properties are about the formulas, rounding is not modelled. *)
From Coq Require Import ZArith Reals RealField.
From Verif Require Import Base Scalar GenModel.
Local Open Scope R_scope.

(** real numbers as the template parameter Float *)
Definition Rscalar : Scalar R := {|
  f0 := 0; f1 := 1; fadd := Rplus; fsub := Rminus; fmul := Rmult; fdiv := Rdiv;
  fopp := Ropp; fabs := Rabs; fsqrt := sqrt;
  feqb := fun x y => if Req_EM_T x y then true else false;
  fltb := fun x y => if Rlt_dec x y then true else false;
  fnan := fun _ => false |}.
Lemma R_exact : exact Rscalar.
Proof. exact RTheory. Qed.
Definition R_FromInt : FromInt R := {| of_int := IZR |}.

(** src/utils/create_matrix/tridiagonal_toeplitz.cpp:30-34
    a - 2.0 * std::abs(b) * std::cos(M_PI * (N + 1) / (M + 1)) *)
Definition tridiagonal_toeplitz_matrix_eigenvalue (M N : Z) (a b : R) : R :=
  a - 2 * Rabs b * cos (PI * IZR (N + 1) / IZR (M + 1)).

(** src/utils/create_matrix/laplacian.cpp:12-15 *)
Definition laplacian_matrix_1D_eigenvalue (M N : Z) : R :=
  tridiagonal_toeplitz_matrix_eigenvalue M N 2 (-1).

(** src/utils/create_matrix/toeplitz_plus_hankel.cpp:45-54 *)
Definition toeplitz_plus_hankel_matrix_eigenvalue (M N : Z) (a0 a1 a2 b0 b1 b2 : R) : R :=
  (a0 + 2 * (a1 * cos (PI * 1 * IZR (N + 1) / IZR (M + 1)) + a2 * cos (PI * 2 * IZR (N + 1) / IZR (M + 1)))) /
  (b0 + 2 * (b1 * cos (PI * 1 * IZR (N + 1) / IZR (M + 1)) + b2 * cos (PI * 2 * IZR (N + 1) / IZR (M + 1)))).

(** src/utils/create_matrix/frank.cpp:25-31
    1.0 / (2.0 * (1.0 - std::cos(M_PI * (2 * (M - N + 1) + 1) / (2 * M + 1)))) *)
Definition frank_matrix_eigenvalue (M N : Z) : R :=
  1 / (2 * (1 - cos (PI * IZR (2 * (M - N + 1) + 1) / IZR (2 * M + 1)))).

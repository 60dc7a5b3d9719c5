(** * Scalar: the template parameter [Float] of monolish.

    monolish's classes are templates over [Float] (float or double).  The model is
    parametric in the scalar type: [Scalar F] lists the operations the C++ code uses, with NO laws,
    so every theorem that does not mention a law is bit-exact for float and double
    with whatever rounding.  Laws appear only as explicit hypotheses. *)
From Coq Require Import ZArith QArith Qcanon Floats.SpecFloat Ring setoid_ring.InitialRing.
From Verif Require Import Base.

Class Scalar (F : Type) := {
  f0 : F; f1 : F;
  fadd : F -> F -> F; fsub : F -> F -> F; fmul : F -> F -> F; fdiv : F -> F -> F;
  fopp : F -> F; fabs : F -> F; fsqrt : F -> F;
  feqb : F -> F -> bool;   (* C++ operator==  on Float (NaN != NaN, -0 == +0) *)
  fltb : F -> F -> bool;   (* C++ operator<   on Float *)
  fnan : F -> bool         (* std::isnan *)
}.

Declare Scope F_scope.
Delimit Scope F_scope with F.
Infix "+" := fadd : F_scope.
Infix "-" := fsub : F_scope.
Infix "*" := fmul : F_scope.
Infix "/" := fdiv : F_scope.
Notation "- x" := (fopp x) : F_scope.
Notation "0" := f0 : F_scope.
Notation "1" := f1 : F_scope.

(** "exact arithmetic": the scalars form a commutative ring. *)
Definition exact {F} (S : Scalar F) : Prop :=
  ring_theory (f0 (Scalar:=S)) f1 fadd fmul fsub fopp eq.

(** Instance: integers (exact). *)
#[export] Instance Zscalar : Scalar Z := {|
  f0 := 0%Z; f1 := 1%Z; fadd := Z.add; fsub := Z.sub; fmul := Z.mul; fdiv := Z.div;
  fopp := Z.opp; fabs := Z.abs; fsqrt := Z.sqrt; feqb := Z.eqb; fltb := Z.ltb;
  fnan := fun _ => false |}.

Lemma Z_exact : exact Zscalar.
Proof. exact InitialRing.Zth. Qed.

(** Instance: canonical rationals (exact, a field). sqrt is not available exactly;
    it is replaced by the identity, no theorem about [Qcscalar] uses it. *)
Definition Qcscalar : Scalar Qc := {|
  f0 := 0%Qc; f1 := 1%Qc; fadd := Qcplus; fsub := Qcminus; fmul := Qcmult; fdiv := Qcdiv;
  fopp := Qcopp; fabs := fun x => match (x ?= 0)%Qc with Lt => (- x)%Qc | _ => x end;
  fsqrt := fun x => x;
  feqb := fun x y => match (x ?= y)%Qc with Eq => true | _ => false end;
  fltb := fun x y => match (x ?= y)%Qc with Lt => true | _ => false end;
  fnan := fun _ => false |}.

Lemma Qc_exact : exact Qcscalar.
Proof. exact Qcrt. Qed.

(** Instance: IEEE-754 binary64, round to nearest even: the standard library's
    [SpecFloat] (pure Gallina, no axioms), precision 53, emax 1024. *)
Definition b64 := spec_float.
Definition b64scalar : Scalar b64 := {|
  f0 := S754_zero false; f1 := S754_finite false 4503599627370496 (-52);
  fadd := SFadd 53 1024; fsub := SFsub 53 1024; fmul := SFmul 53 1024; fdiv := SFdiv 53 1024;
  fopp := SFopp; fabs := SFabs; fsqrt := SFsqrt 53 1024; feqb := SFeqb; fltb := SFltb;
  fnan := fun x => match x with S754_nan => true | _ => false end |}.

(** integer literals as doubles *)
Definition b64_of_Z (z : Z) : b64 := binary_normalize 53 1024 z 0 false.
Definition b64_big : b64 := binary_normalize 53 1024 1 60 false.  (* 2^60 *)

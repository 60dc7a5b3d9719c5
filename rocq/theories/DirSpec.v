(** * DirSpec: what the dense direct solver properties talk about (no solver code here). *)
From Coq Require Import ZArith.
From Verif Require Import Base Scalar Spec DenseModel Observe SolverSpec DirModel LobSpec.
Set Implicit Arguments.

Section DirSpec.
Context {F : Type} {SF : Scalar F}.
Local Open Scope F_scope.

(** a square matrix of order n in its own buffer *)
Definition square_ok (n : nat) (A : dense F) : Prop := dense_ok A /\ d_first A = 0%nat /\ d_row A = n /\ d_col A = n.
(** x solves the n x n system M x = b *)
Definition solves (n : nat) (M : nat -> nat -> F) (x b : nat -> F) : Prop := forall i, (i < n)%nat -> mv n M x i = b i.
(** M y = 0 for some y other than 0 *)
Definition singular (n : nat) (M : nat -> nat -> F) : Prop :=
  exists y : nat -> F, (exists i, (i < n)%nat /\ y i <> 0) /\ solves n M y (fun _ => 0).
(** the symmetric matrix that has M's diagonal and the entries of M below it *)
Definition from_lower (M : nat -> nat -> F) (i j : nat) : F := M (Nat.max i j) (Nat.min i j).

(** ** what LAPACK documents (column-major arrays) *)
(** element (i, j) of the column-major array a with leading dimension lda *)
Definition colmaj (a : list F) (lda i j : nat) : F := fn a (i + j * lda).
(** uplo = 'U': the symmetric matrix of which only the upper triangle is stored *)
Definition from_upper (a : list F) (lda i j : nat) : F := colmaj a lda (Nat.min i j) (Nat.max i j).

(** ?getrf: "A = P * L * U".  L is unit lower triangular and U upper triangular, both stored in the array; "row i of the
    matrix was interchanged with row IPIV(i)", i = 1, 2, ... in this order: [landing] is where row i ends *)
Definition unit_lower (a : list F) (lda i j : nat) : F := if (j <? i)%nat then colmaj a lda i j else if (i =? j)%nat then 1 else 0.
Definition upper (a : list F) (lda i j : nat) : F := if (i <=? j)%nat then colmaj a lda i j else 0.
Definition interchange (k p i : nat) : nat := if (i =? k)%nat then p else if (i =? p)%nat then k else i.
Fixpoint landing (ipiv : list nat) (k i : nat) : nat :=
  match k with O => i | S k' => interchange k' (nth k' ipiv 0%nat - 1) (landing ipiv k' i) end.
Definition plu (n : nat) (a : list F) (lda : nat) (ipiv : list nat) (i j : nat) : F :=
  sum_n n (fun l => unit_lower a lda (landing ipiv n i) l * upper a lda l j).
Definition pivots_ok (n : nat) (ipiv : list nat) : Prop :=
  length ipiv = n /\ forall k, (k < n)%nat -> (k + 1 <= nth k ipiv 0 <= n)%nat.

(** the factorisation: square matrices of order n >= 1 stored without gaps (lda = n).  "INFO = i: U(i,i) is exactly zero.
    The factorization has been completed" (so info = 0 only if no U(i,i) is zero) *)
Definition getrf_doc (L : lapack F) : Prop :=
  forall n a p0 a' p info, (1 <= n)%nat -> (n * n <= length a)%nat -> length p0 = n -> l_getrf L n n a n p0 = (a', p, info) ->
    length a' = length a /\ pivots_ok n p /\ (0 <= info)%Z /\
    (forall i j, (i < n)%nat -> (j < n)%nat -> plu n a' n p i j = colmaj a n i j) /\
    (info = 0%Z <-> forall i, (i < n)%nat -> upper a' n i i <> 0).
(** the solution with trans = 'T': A^T X = B "using the LU factorization computed by ?GETRF"; nothing is said about
    X when some U(i,i) is zero.  It returns a non-zero info only for an illegal argument.  B is overwritten by X *)
Definition getrs_doc (L : lapack F) : Prop :=
  forall n a p b x info, (1 <= n)%nat -> (n * n <= length a)%nat -> pivots_ok n p -> (n <= length b)%nat ->
    l_getrs L true n a n p b = (x, info) ->
    info = 0%Z /\ length x = length b /\ (forall i, (n <= i)%nat -> fn x i = fn b i) /\
    ((forall i, (i < n)%nat -> upper a n i i <> 0) ->
       solves n (fun i j => plu n a n p j i) (fn x) (fn b)).
(** "INFO < 0: if INFO = -i, the i-th argument had an illegal value": the leading dimension is less than the order.  Then
    nothing is done *)
Definition getrs_illegal (L : lapack F) : Prop :=
  forall (tr : bool) n a lda p b x info, (lda < Nat.max 1 n)%nat -> l_getrs L tr n a lda p b = (x, info) -> (info < 0)%Z /\ x = b.
Definition getrf_illegal (L : lapack F) : Prop :=
  forall m n a lda p a' p' info, (lda < Nat.max 1 m)%nat -> l_getrf L m n a lda p = (a', p', info) -> (info < 0)%Z /\ a' = a /\ p' = p.
(** whatever the arguments, it works in place *)
Definition getrf_in_place (L : lapack F) : Prop :=
  forall m n a lda p a' p' info, l_getrf L m n a lda p = (a', p', info) -> length a' = length a /\ length p' = length p.
Definition getrs_in_place (L : lapack F) : Prop :=
  forall tr n a lda p b x info, l_getrs L tr n a lda p b = (x, info) -> length x = length b.

(** ?sytrf and ?sytrs: "INFO = i > 0: D(i,i) is exactly zero.  The factorization has been completed, but the block diagonal
    matrix D is exactly singular"; ?sytrs "solves A*X = B with a real symmetric matrix A using the factorization
    A = U*D*U**T computed by ?SYTRF".  The strictly lower triangle of A is not referenced *)
Definition sytrf_doc (L : lapack F) : Prop :=
  forall n a p0 a' p info, (1 <= n)%nat -> (n * n <= length a)%nat -> length p0 = n -> l_sytrf L true n a n p0 = (a', p, info) ->
    length a' = length a /\ length p = n /\ (0 <= info)%Z /\
    (forall i j, (j < i < n)%nat -> colmaj a' n i j = colmaj a n i j) /\ (forall k, (n * n <= k)%nat -> fn a' k = fn a k) /\
    ((0 < info)%Z -> singular n (from_upper a n)) /\
    (info = 0%Z -> forall b x info2, (n <= length b)%nat -> l_sytrs L true n a' n p b = (x, info2) -> solves n (from_upper a n) (fn x) (fn b)).
Definition sytrs_doc (L : lapack F) : Prop :=
  forall n a p b x info, (1 <= n)%nat -> (n * n <= length a)%nat -> length p = n -> (n <= length b)%nat ->
    l_sytrs L true n a n p b = (x, info) -> info = 0%Z /\ length x = length b /\ forall i, (n <= i)%nat -> fn x i = fn b i.

(** ?syevd, jobz = 'V', uplo = 'U', this call: on exit with info = 0, W holds the eigenvalues in ascending order and the
    columns of A the orthonormal eigenvectors; info >= 0 when the arguments are legal *)
Definition syevd_doc (n : nat) (a : list F) (w : list F) (r : list F * list F * Z) : Prop :=
  let '(a', w', info) := r in
  length a' = length a /\ length w' = length w /\ (0 <= info)%Z /\
  (info = 0%Z ->
     (forall i, (n <= i)%nat -> fn w' i = fn w i) /\
     (forall i j, (i < j < n)%nat -> fltb (fn w' j) (fn w' i) = false) /\
     (forall i r, (i < n)%nat -> (r < n)%nat -> mv n (from_upper a n) (fun s => colmaj a' n s i) r = fn w' i * colmaj a' n r i) /\
     (forall i j, (i < n)%nat -> (j < n)%nat ->
        dotp n (fun s => colmaj a' n s i) (fun s => colmaj a' n s j) = if (i =? j)%nat then 1 else 0)).
(** ?sygvd: A z = lambda B z (itype 1), A B z = lambda z (2), B A z = lambda z (3); Z^T B Z = I for itype 1 and 2,
    Z^T inv(B) Z = I for itype 3 (y is inv(B) z_j) *)
Definition gen_equation (itype : Z) (n : nat) (MA MB : nat -> nat -> F) (lambda : F) (z : nat -> F) (r : nat) : Prop :=
  match itype with
  | 1%Z => mv n MA z r = lambda * mv n MB z r
  | 2%Z => mv n MA (mv n MB z) r = lambda * z r
  | _ => mv n MB (mv n MA z) r = lambda * z r
  end.
Definition gen_normal (itype : Z) (n : nat) (MB : nat -> nat -> F) (z : nat -> nat -> F) : Prop :=
  if (itype =? 3)%Z
  then exists y : nat -> nat -> F, forall i j, (i < n)%nat -> (j < n)%nat -> mv n MB (y j) i = z j i /\ dotp n (z i) (y j) = if (i =? j)%nat then 1 else 0
  else forall i j, (i < n)%nat -> (j < n)%nat -> dotp n (z i) (mv n MB (z j)) = if (i =? j)%nat then 1 else 0.
Definition sygvd_doc (itype : Z) (n : nat) (a b w : list F) (r : list F * list F * list F * Z) : Prop :=
  let '(a', b', w', info) := r in
  length a' = length a /\ length b' = length b /\ length w' = length w /\ (0 <= info)%Z /\
  (info = 0%Z ->
     (forall i, (n <= i)%nat -> fn w' i = fn w i) /\
     (forall i j, (i < j < n)%nat -> fltb (fn w' j) (fn w' i) = false) /\
     (forall i r, (i < n)%nat -> (r < n)%nat -> gen_equation itype n (from_upper a n) (from_upper b n) (fn w' i) (fun s => colmaj a' n s i) r) /\
     gen_normal itype n (from_upper b n) (fun i s => colmaj a' n s i)).
(** "INFO = -i: the i-th argument had an illegal value": itype is not 1, 2 or 3 *)
Definition sygvd_illegal (L : lapack F) : Prop :=
  forall it up n a lda b ldb w a' b' w' info, (it < 1 \/ 3 < it)%Z -> l_sygvd L it up n a lda b ldb w = (a', b', w', info) ->
    (info < 0)%Z /\ a' = a /\ b' = b /\ w' = w.
(** positive definite *)
Definition pos_def (n : nat) (M : nat -> nat -> F) : Prop :=
  forall v : nat -> F, (exists i, (i < n)%nat /\ v i <> 0) -> fltb 0 (dotp n v (mv n M v)) = true.
End DirSpec.

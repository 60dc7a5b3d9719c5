(** * PropertiesVec: the theorems for C23 (vector as a sequence), C24 (view1D), C25 (vector BLAS-1 and
    VML kernels), C44 (alo), C45 (copying and comparing vectors).

    Only statements and concrete witnesses; proofs are in VecProof, KernelProof, ParProof. *)
From Verif Require Import Base Scalar Mem MemSpec ParProof VecModel KernelProof VecSpec VecProof.

(** ** C25.  In each theorem: the arguments' elements exist, sizes agree, and every input is the
    output itself or does not meet it.  Conclusion ([computes], VecSpec.v): under every
    distribution of iterations over threads and every interleaving, no invalid access, termination, and
    the output's element i is the stated function of the inputs' elements i, nothing else changes.
    [F] is any scalar type, so this is bit-exact. *)
Section C25.
Context {F : Type} {SF : Scalar F}.
Local Open Scope F_scope.

(** blas::axpy: y = y + alpha x *)
Theorem C25_axpy (alpha : F) (x y : arg) (m : mem F) :
  a_len x = a_len y -> arg_ok m x -> arg_ok m y -> same_or_apart x y ->
  computes (k_axpy alpha x y) m y (fun i => el m y i + alpha * el m x i).
Proof.
  intros Hl Hx Hy Ha.
  apply (@k2_computes F SF _ _ (fun a b => b + alpha * a) x y y m); auto using same2_true, self_apart.
Qed.

(** blas::xpay: y = x + alpha y *)
Theorem C25_xpay (alpha : F) (x y : arg) (m : mem F) :
  a_len x = a_len y -> arg_ok m x -> arg_ok m y -> same_or_apart x y ->
  computes (k_xpay alpha x y) m y (fun i => el m x i + alpha * el m y i).
Proof.
  intros Hl Hx Hy Ha.
  apply (@k2_computes F SF _ _ (fun a b => a + alpha * b) x y y m); auto using same2_true, self_apart.
Qed.

(** blas::axpyz: z = alpha x + y *)
Theorem C25_axpyz (alpha : F) (a b y : arg) (m : mem F) :
  a_len a = a_len y -> a_len b = a_len y -> arg_ok m a -> arg_ok m b -> arg_ok m y ->
  same_or_apart a y -> same_or_apart b y ->
  computes (k_axpyz alpha a b y) m y (fun i => alpha * el m a i + el m b i).
Proof.
  intros Hl Hl' Hx Hx' Hy Ha Hb.
  apply (@k2_computes F SF _ _ (fun p q => alpha * p + q) a b y m); auto using same2_true, same3_true; congruence.
Qed.

(** blas::scal: x = alpha x *)
Theorem C25_scal (alpha : F) (x : arg) (m : mem F) :
  arg_ok m x -> computes (k_scal alpha x) m x (fun i => alpha * el m x i).
Proof.
  intros Hx. apply (@k1_computes F SF _ _ (fun a => alpha * a) x x m); auto using self_apart.
Qed.

(** blas::copy: y = x *)
Theorem C25_copy (x y : arg) (m : mem F) :
  a_len x = a_len y -> arg_ok m x -> arg_ok m y -> same_or_apart x y ->
  computes (k_copy x y) m y (fun i => el m x i).
Proof.
  intros Hl Hx Hy Ha.
  apply (@k1_computes F SF _ _ (fun a => a) x y m); auto using same2_true.
Qed.

(** blas::vecadd *)
Theorem C25_vecadd (a b y : arg) (m : mem F) :
  a_len a = a_len y -> a_len b = a_len y -> arg_ok m a -> arg_ok m b -> arg_ok m y ->
  same_or_apart a y -> same_or_apart b y ->
  computes (k_vecadd a b y) m y (fun i => el m a i + el m b i).
Proof.
  intros Hl Hl' Hx Hx' Hy Ha Hb.
  apply (@k2_computes F SF _ _ (fun p q => p + q) a b y m); auto using same2_true, same3_true; congruence.
Qed.

(** blas::vecsub *)
Theorem C25_vecsub (a b y : arg) (m : mem F) :
  a_len a = a_len y -> a_len b = a_len y -> arg_ok m a -> arg_ok m b -> arg_ok m y ->
  same_or_apart a y -> same_or_apart b y ->
  computes (k_vecsub a b y) m y (fun i => el m a i - el m b i).
Proof.
  intros Hl Hl' Hx Hx' Hy Ha Hb.
  apply (@k2_computes F SF _ _ (fun p q => p - q) a b y m); auto using same2_true, same3_true; congruence.
Qed.

(** blas::times(alpha, x, y) *)
Theorem C25_times_scalar (alpha : F) (x y : arg) (m : mem F) :
  a_len x = a_len y -> arg_ok m x -> arg_ok m y -> same_or_apart x y ->
  computes (k_times_scalar alpha x y) m y (fun i => el m x i * alpha).
Proof.
  intros Hl Hx Hy Ha.
  apply (@k1_computes F SF _ _ (fun a => a * alpha) x y m); auto using same2_true.
Qed.

(** blas::times(a, b, y) *)
Theorem C25_times (a b y : arg) (m : mem F) :
  a_len a = a_len y -> a_len b = a_len y -> arg_ok m a -> arg_ok m b -> arg_ok m y ->
  same_or_apart a y -> same_or_apart b y ->
  computes (k_times a b y) m y (fun i => el m a i * el m b i).
Proof.
  intros Hl Hl' Hx Hx' Hy Ha Hb.
  apply (@k2_computes F SF _ _ (fun p q => p * q) a b y m); auto using same2_true, same3_true; congruence.
Qed.

(** vml::add, vector-vector *)
Theorem C25_vml_add (a b y : arg) (m : mem F) :
  a_len a = a_len y -> a_len b = a_len y -> arg_ok m a -> arg_ok m b -> arg_ok m y ->
  same_or_apart a y -> same_or_apart b y ->
  computes (k_vml_add a b y) m y (fun i => el m a i + el m b i).
Proof.
  intros Hl Hl' Hx Hx' Hy Ha Hb.
  apply (@k2_computes F SF _ _ (fun p q => p + q) a b y m); auto using same2_true, same3_true; congruence.
Qed.

(** vml::add, vector-scalar *)
Theorem C25_vml_adds (alpha : F) (x y : arg) (m : mem F) :
  a_len x = a_len y -> arg_ok m x -> arg_ok m y -> same_or_apart x y ->
  computes (k_vml_adds alpha x y) m y (fun i => el m x i + alpha).
Proof.
  intros Hl Hx Hy Ha.
  apply (@k1_computes F SF _ _ (fun a => a + alpha) x y m); auto using same2_true.
Qed.

(** vml::sub, vector-vector *)
Theorem C25_vml_sub (a b y : arg) (m : mem F) :
  a_len a = a_len y -> a_len b = a_len y -> arg_ok m a -> arg_ok m b -> arg_ok m y ->
  same_or_apart a y -> same_or_apart b y ->
  computes (k_vml_sub a b y) m y (fun i => el m a i - el m b i).
Proof.
  intros Hl Hl' Hx Hx' Hy Ha Hb.
  apply (@k2_computes F SF _ _ (fun p q => p - q) a b y m); auto using same2_true, same3_true; congruence.
Qed.

(** vml::sub, vector-scalar *)
Theorem C25_vml_subs (alpha : F) (x y : arg) (m : mem F) :
  a_len x = a_len y -> arg_ok m x -> arg_ok m y -> same_or_apart x y ->
  computes (k_vml_subs alpha x y) m y (fun i => el m x i - alpha).
Proof.
  intros Hl Hx Hy Ha.
  apply (@k1_computes F SF _ _ (fun a => a - alpha) x y m); auto using same2_true.
Qed.

(** vml::mul, vector-vector *)
Theorem C25_vml_mul (a b y : arg) (m : mem F) :
  a_len a = a_len y -> a_len b = a_len y -> arg_ok m a -> arg_ok m b -> arg_ok m y ->
  same_or_apart a y -> same_or_apart b y ->
  computes (k_vml_mul a b y) m y (fun i => el m a i * el m b i).
Proof.
  intros Hl Hl' Hx Hx' Hy Ha Hb.
  apply (@k2_computes F SF _ _ (fun p q => p * q) a b y m); auto using same2_true, same3_true; congruence.
Qed.

(** vml::mul, vector-scalar *)
Theorem C25_vml_muls (alpha : F) (x y : arg) (m : mem F) :
  a_len x = a_len y -> arg_ok m x -> arg_ok m y -> same_or_apart x y ->
  computes (k_vml_muls alpha x y) m y (fun i => el m x i * alpha).
Proof.
  intros Hl Hx Hy Ha.
  apply (@k1_computes F SF _ _ (fun a => a * alpha) x y m); auto using same2_true.
Qed.

(** vml::div, vector-vector *)
Theorem C25_vml_div (a b y : arg) (m : mem F) :
  a_len a = a_len y -> a_len b = a_len y -> arg_ok m a -> arg_ok m b -> arg_ok m y ->
  same_or_apart a y -> same_or_apart b y ->
  computes (k_vml_div a b y) m y (fun i => el m a i / el m b i).
Proof.
  intros Hl Hl' Hx Hx' Hy Ha Hb.
  apply (@k2_computes F SF _ _ (fun p q => p / q) a b y m); auto using same2_true, same3_true; congruence.
Qed.

(** vml::div, vector-scalar *)
Theorem C25_vml_divs (alpha : F) (x y : arg) (m : mem F) :
  a_len x = a_len y -> arg_ok m x -> arg_ok m y -> same_or_apart x y ->
  computes (k_vml_divs alpha x y) m y (fun i => el m x i / alpha).
Proof.
  intros Hl Hx Hy Ha.
  apply (@k1_computes F SF _ _ (fun a => a / alpha) x y m); auto using same2_true.
Qed.

(** vml::max, vector-vector *)
Theorem C25_vml_max (a b y : arg) (m : mem F) :
  a_len a = a_len y -> a_len b = a_len y -> arg_ok m a -> arg_ok m b -> arg_ok m y ->
  same_or_apart a y -> same_or_apart b y ->
  computes (k_vml_max a b y) m y (fun i => if fltb (el m a i) (el m b i) then el m b i else el m a i).
Proof.
  intros Hl Hl' Hx Hx' Hy Ha Hb.
  apply (@k2_computes F SF _ _ (fun p q => if fltb (p) (q) then q else p) a b y m); auto using same2_true, same3_true; congruence.
Qed.

(** vml::min, vector-vector *)
Theorem C25_vml_min (a b y : arg) (m : mem F) :
  a_len a = a_len y -> a_len b = a_len y -> arg_ok m a -> arg_ok m b -> arg_ok m y ->
  same_or_apart a y -> same_or_apart b y ->
  computes (k_vml_min a b y) m y (fun i => if fltb (el m b i) (el m a i) then el m b i else el m a i).
Proof.
  intros Hl Hl' Hx Hx' Hy Ha Hb.
  apply (@k2_computes F SF _ _ (fun p q => if fltb (q) (p) then q else p) a b y m); auto using same2_true, same3_true; congruence.
Qed.

(** vml::max, vector-scalar *)
Theorem C25_vml_maxs (alpha : F) (x y : arg) (m : mem F) :
  a_len x = a_len y -> arg_ok m x -> arg_ok m y -> same_or_apart x y ->
  computes (k_vml_maxs alpha x y) m y (fun i => if fltb (el m x i) alpha then alpha else el m x i).
Proof.
  intros Hl Hx Hy Ha.
  apply (@k1_computes F SF _ _ (fun a => if fltb (a) alpha then alpha else a) x y m); auto using same2_true.
Qed.

(** vml::min, vector-scalar *)
Theorem C25_vml_mins (alpha : F) (x y : arg) (m : mem F) :
  a_len x = a_len y -> arg_ok m x -> arg_ok m y -> same_or_apart x y ->
  computes (k_vml_mins alpha x y) m y (fun i => if fltb alpha (el m x i) then alpha else el m x i).
Proof.
  intros Hl Hx Hy Ha.
  apply (@k1_computes F SF _ _ (fun a => if fltb alpha (a) then alpha else a) x y m); auto using same2_true.
Qed.

(** vml::sqrt *)
Theorem C25_vml_sqrt (x y : arg) (m : mem F) :
  a_len x = a_len y -> arg_ok m x -> arg_ok m y -> same_or_apart x y ->
  computes (k_vml_sqrt x y) m y (fun i => fsqrt (el m x i)).
Proof.
  intros Hl Hx Hy Ha.
  apply (@k1_computes F SF _ _ (fun a => fsqrt (a)) x y m); auto using same2_true.
Qed.

(** vml::reciprocal *)
Theorem C25_vml_reciprocal (x y : arg) (m : mem F) :
  a_len x = a_len y -> arg_ok m x -> arg_ok m y -> same_or_apart x y ->
  computes (k_vml_reciprocal x y) m y (fun i => 1 / el m x i).
Proof.
  intros Hl Hx Hy Ha.
  apply (@k1_computes F SF _ _ (fun a => 1 / a) x y m); auto using same2_true.
Qed.

(** vml::sign (negation, computed as -1 * x) *)
Theorem C25_vml_sign (x y : arg) (m : mem F) :
  a_len x = a_len y -> arg_ok m x -> arg_ok m y -> same_or_apart x y ->
  computes (k_vml_sign x y) m y (fun i => (- (1)) * el m x i).
Proof.
  intros Hl Hx Hy Ha.
  apply (@k1_computes F SF _ _ (fun a => (- (1)) * a) x y m); auto using same2_true.
Qed.

(** A size mismatch aborts (asserts are live) and nothing is written. *)
Theorem C25_sizes (alpha : F) (x y z : arg) (m : mem F) :
  (a_len x <> a_len y -> kernel_seq (k_axpy alpha x y) m = Abort /\ kernel_seq (k_xpay alpha x y) m = Abort /\
     kernel_seq (k_copy x y) m = Abort /\ kernel_seq (k_times_scalar alpha x y) m = Abort) /\
  (a_len x <> a_len y \/ a_len x <> a_len z ->
     kernel_seq (k_axpyz alpha x y z) m = Abort /\ kernel_seq (k_vecadd x y z) m = Abort /\
     kernel_seq (k_vecsub x y z) m = Abort /\ kernel_seq (k_vml_add x y z) m = Abort).
Proof.
  split; intros H.
  - unfold kernel_seq, k_axpy, k_xpay, k_copy, k_times_scalar. cbn [k_assert].
    rewrite (same2_false _ _ H). auto.
  - unfold kernel_seq, k_axpyz, k_vecadd, k_vecsub, k_vml_add, k_vv. cbn [k_assert].
    rewrite (same3_false _ _ _ H). auto.
Qed.
End C25.
Print Assumptions C25_axpy.
Print Assumptions C25_xpay.
Print Assumptions C25_axpyz.
Print Assumptions C25_scal.
Print Assumptions C25_copy.
Print Assumptions C25_vecadd.
Print Assumptions C25_vecsub.
Print Assumptions C25_times_scalar.
Print Assumptions C25_times.
Print Assumptions C25_vml_add.
Print Assumptions C25_vml_adds.
Print Assumptions C25_vml_sub.
Print Assumptions C25_vml_subs.
Print Assumptions C25_vml_mul.
Print Assumptions C25_vml_muls.
Print Assumptions C25_vml_div.
Print Assumptions C25_vml_divs.
Print Assumptions C25_vml_max.
Print Assumptions C25_vml_min.
Print Assumptions C25_vml_maxs.
Print Assumptions C25_vml_mins.
Print Assumptions C25_vml_sqrt.
Print Assumptions C25_vml_reciprocal.
Print Assumptions C25_vml_sign.
Print Assumptions C25_sizes.

(** False of the code: blas::times(a, b, y) does not check the size of b, so a shorter b is read
    out of range. *)
Theorem C25_times_refuted :
  exists (a b y : arg) (m : mem Z), a_len b <> a_len y /\ arg_ok m a /\ arg_ok m b /\ arg_ok m y /\
    k_assert (k_times (F:=Z) a b y) = true /\ kernel_seq (k_times a b y) m = UB.
Proof.
  exists (mkArg (0,0) 2), (mkArg (1,0) 1), (mkArg (2,0) 2), [[1;2]%Z; [3]%Z; [0;0]%Z].
  split; [cbn; lia|].
  split; [intros [|[|i]] Hi; cbn in *; unfold valid; cbn; lia|].
  split; [intros [|i] Hi; cbn in *; unfold valid; cbn; lia|].
  split; [intros [|[|i]] Hi; cbn in *; unfold valid; cbn; lia|].
  split; vm_compute; reflexivity.
Qed.
Print Assumptions C25_times_refuted.

(** The no-partial-overlap hypothesis is needed: copying a window onto the window one element
    further in the same vector has two different outcomes depending on the schedule. *)
Theorem C25_overlap_refuted :
  exists (x y : arg) (m m1 m2 : mem Z), a_len x = a_len y /\ arg_ok m x /\ arg_ok m y /\
    k_assert (k_copy (F:=Z) x y) = true /\
    par_for (k_n (k_copy (F:=Z) x y)) (k_body (k_copy x y)) m m1 /\
    par_for (k_n (k_copy (F:=Z) x y)) (k_body (k_copy x y)) m m2 /\ m1 <> m2.
Proof.
  exists (mkArg (0,0) 2), (mkArg (0,1) 2), [[1;2;3]%Z], [[1;1;1]%Z], [[1;1;2]%Z].
  split; [reflexivity|].
  split; [intros [|[|i]] Hi; cbn in *; unfold valid; cbn; lia|].
  split; [intros [|[|i]] Hi; cbn in *; unfold valid; cbn; lia|].
  split; [reflexivity|]. split; [|split; [|discriminate]].
  - exists [[0;1]], 4, [Ret tt]. split; [apply Permutation_refl|]. split; [|repeat constructor].
    cbn. eapply psteps_S; [eapply (@pstep_ld Z _ [] []); reflexivity|]. cbn.
    eapply psteps_S; [eapply (@pstep_st Z _ _ [] []); reflexivity|]. cbn.
    eapply psteps_S; [eapply (@pstep_ld Z _ [] []); reflexivity|]. cbn.
    eapply psteps_S; [eapply (@pstep_st Z _ _ [] []); reflexivity|]. cbn. apply psteps_0.
  - exists [[1;0]], 4, [Ret tt]. split; [apply perm_swap|]. split; [|repeat constructor].
    cbn. eapply psteps_S; [eapply (@pstep_ld Z _ [] []); reflexivity|]. cbn.
    eapply psteps_S; [eapply (@pstep_st Z _ _ [] []); reflexivity|]. cbn.
    eapply psteps_S; [eapply (@pstep_ld Z _ [] []); reflexivity|]. cbn.
    eapply psteps_S; [eapply (@pstep_st Z _ _ [] []); reflexivity|]. cbn. apply psteps_0.
Qed.
Print Assumptions C25_overlap_refuted.

(** the hypotheses of the C25 theorems hold for axpy of a vector with itself, and of a window with a
    later disjoint window *)
Example C25_example :
  let m := [[1;2;3;4]%Z] in let x := mkArg (0,0) 2 in let y := mkArg (0,2) 2 in
  arg_ok m x /\ arg_ok m y /\ same_or_apart x y /\ same_or_apart x x /\
  kernel_seq (k_axpy 10%Z x y) m = Ok [[1;2;13;24]%Z] /\ kernel_seq (k_axpy 10%Z x x) m = Ok [[11;22;3;4]%Z].
Proof.
  cbn zeta. split; [intros [|[|i]] Hi; cbn in *; unfold valid; cbn; lia|].
  split; [intros [|[|i]] Hi; cbn in *; unfold valid; cbn; lia|].
  split; [right; intros i j Hi Hj E; cbn in *; unfold padd in E; cbn in E; injection E; lia|].
  split; [apply self_apart|]. split; vm_compute; reflexivity.
Qed.

(** ** C44: vml::alo.  The leaf value computed is alpha*x for x >= 0 and beta*x for x < 0, in exact
    arithmetic with the usual order. *)
Theorem C44_alo {F} {SF : Scalar F} (alpha beta : F) (x y : arg) (m : mem F) :
  exact SF -> a_len x = a_len y -> arg_ok m x -> arg_ok m y -> same_or_apart x y ->
  computes (k_vml_alo alpha beta x y) m y
    (fun i => if fltb f0 (el m x i) then fmul alpha (el m x i) else fmul beta (el m x i)).
Proof.
  intros Hex Hl Hx Hy Ha.
  destruct (@k1_computes F SF (same2 x y) (a_len x) (fun x => fadd (fmul alpha x) (fmul (fsub beta alpha) (fmin x f0))) x y m)
    as (m' & H1 & H2 & H3); auto using same2_true.
  exists m'. split; auto. split; auto. eapply written_ext; [|exact H3]. intros i Hi. cbn beta.
  exact (alo_exact Hex alpha beta (el m x i)).
Qed.
Print Assumptions C44_alo.

Example C44_example :
  kernel_seq (k_vml_alo 2%Z 5%Z (mkArg (0,0) 3) (mkArg (1,0) 3)) [[7;-4;0]%Z; [0;0;0]%Z]
   = Ok [[7;-4;0]%Z; [14;-20;0]%Z] /\ exact Zscalar.
Proof. split; [vm_compute; reflexivity|exact Z_exact]. Qed.

(** ** C23 *)

(** Any history of push_back / resize / element writes on an owning vector, starting from any vector
    holding [l], is the same history on the sequence; no operation makes an out-of-range access, and no
    other object's memory changes. *)
Theorem C23_vector_history {F} {SF : Scalar F} (os : list vop) (m : mem F) (v : vec) (l l' : list F) :
  vec_holds m v l -> seq_ops l os = Some l' ->
  exists m' v', vec_ops (m, v) os = Ok (m', v') /\ vec_holds m' v' l' /\ others_kept m m' (v_buf v).
Proof. exact (@ops_holds F SF os m v l l'). Qed.
Print Assumptions C23_vector_history.

(** the starting points: vector(), vector(N), vector(std::vector) *)
Theorem C23_constructors {F} {SF : Scalar F} (m : mem F) (N : nat) (l : list F) :
  vec_holds (fst (vec_empty m)) (snd (vec_empty m)) [] /\
  (exists m' v, vec_new m N = Ok (m', v) /\ vec_holds m' v (repeat f0 N) /\
     forall c, c < length m -> nth c m' [] = nth c m []) /\
  (exists m' v, vec_of_list m l = Ok (m', v) /\ vec_holds m' v l /\
     forall c, c < length m -> nth c m' [] = nth c m []).
Proof.
  split; [apply holds_empty|]. split; [|apply vec_of_list_holds].
  destruct (vec_new_holds m N) as (m' & v & A & B & C & _). exists m', v. auto.
Qed.
Print Assumptions C23_constructors.

Example C23_example :
  let '(m0, v0) := vec_empty (F:=Z) [] in
  seq_ops (F:=Z) [] [Push 1; Push 2; Push 3; Resize 5 9; Assign 1 7; Push 4; Resize 2 0]%Z = Some [1;7]%Z /\
  exists m v, vec_ops (m0, v0) [Push 1; Push 2; Push 3; Resize 5 9; Assign 1 7; Push 4; Resize 2 0]%Z = Ok (m, v) /\
    v_nnz v = 2 /\ elems m (v_begin v) 2 = [1;7]%Z.
Proof. vm_compute. split; auto. do 2 eexists. split; [reflexivity|]. auto. Qed.

(** False of the code for a vector whose first position was changed with set_first: resize copies the
    elements from the start of the buffer, so they are no longer the vector's elements. *)
Theorem C23_set_first_refuted :
  exists (m : mem Z) v m' v', vec_of_list [] [1;2;3]%Z = Ok (m, v) /\
    let w := mkVec (v_buf v) 1 2 (v_alloc v) (v_own v) in   (* set_first(1); last two elements *)
    vec_get m w 0 = Ok 2%Z /\ vec_get m w 1 = Ok 3%Z /\ vec_resize m w 2 0%Z = Ok (m', v') /\
    vec_get m' v' 0 = Ok 2%Z /\ vec_get m' v' 1 = UB.
Proof. do 4 eexists. split; [vm_compute; reflexivity|]. cbn zeta. repeat split; vm_compute; reflexivity. Qed.
Print Assumptions C23_set_first_refuted.

(** ** C45: copies and comparison *)

(** vector(vector): a new object with the same elements, the source unchanged *)
Theorem C45_vector_copy {F} {SF : Scalar F} (m : mem F) (x : vec) (l : list F) :
  vec_holds m x l -> exists m' w, vec_copy m x = Ok (m', w) /\ vec_holds m' w l /\ vec_holds m' x l /\
    (forall c, c < length m -> nth c m' [] = nth c m []) /\ v_buf w <> v_buf x.
Proof.
  intros H. destruct (vec_copy_holds H) as (m' & w & A & B & C & D & HB). exists m', w.
  split; auto. split; auto. split; auto. pose proof H as (H1 & H2 & H3 & H4 & H5 & H6 & H7).
  apply holds_intro; auto; rewrite ?C; auto; try lia. intros i Hi. eapply holds_cell; eauto.
Qed.
Print Assumptions C45_vector_copy.

(** vector = vector (same size, different objects), and fill *)
Theorem C45_vector_assign_fill {F} {SF : Scalar F} (m : mem F) (v x : vec) (l lx : list F) (value : F) :
  vec_holds m v l -> vec_holds m x lx -> v_buf x <> v_buf v -> length lx = length l ->
  makes (k_vec_assign v (v_arg x)) m v lx /\ makes (k_vec_fill v value) m v (repeat value (length l)).
Proof. intros H Hx Hb Hl. split; [eapply vec_assign_makes; eauto|apply vec_fill_makes; auto]. Qed.
Print Assumptions C45_vector_assign_fill.

(** == on vectors and views: true iff same size and all elements compare equal *)
Theorem C45_vector_equal {F} {SF : Scalar F} (m : mem F) (x y : arg) :
  arg_ok m x -> arg_ok m y -> exists b, vec_equal m x y = Ok b /\
  (b = true <-> a_len x = a_len y /\ forall i, i < a_len x -> feqb (el m y i) (el m x i) = true).
Proof. exact (@vec_equal_spec F SF m x y). Qed.
Print Assumptions C45_vector_equal.

(** ** C24 *)

(** Reading and writing element k of view1D(v, s, n) is reading and writing element s+k of v; nested
    views add their offsets. *)
Theorem C24_view_get_set {F} {SF : Scalar F} (m : mem F) (v : vec) (l : list F) (s n k : nat) (x : F) :
  vec_holds m v l -> s + n <= length l -> k < n ->
  view_get m (view_new v s n) k = Ok (nth (s + k) l f0) /\
  exists m', view_set m (view_new v s n) k x = Ok m' /\
    vec_holds m' v (firstn (s + k) l ++ x :: skipn (S (s + k)) l) /\ others_kept m m' (v_buf v).
Proof.
  intros H Hn Hk. assert (F0 : v_first v = 0) by apply H. split.
  - destruct H as (_ & _ & _ & _ & _ & _ & H7). rewrite <- H7 by lia.
    unfold view_get, vec_get, w_data, v_data, view_new, padd. cbn. rewrite F0. cbn. do 2 f_equal. lia.
  - destruct (@set_holds F SF m v l (s + k) x H) as (m' & A & B & C & D); [lia|].
    exists m'. split; auto. rewrite <- A. unfold view_set, vec_set, w_data, v_data, view_new, padd. cbn.
    rewrite F0. cbn. do 2 f_equal. lia.
Qed.
Print Assumptions C24_view_get_set.

Theorem C24_view_nested {F} {SF : Scalar F} (m : mem F) (v : vec) (s1 n1 s2 n2 k : nat) (x : F) :
  view_get m (view_of_view (view_new v s1 n1) s2 n2) k = view_get m (view_new v s1 n1) (s2 + k) /\
  view_set m (view_of_view (view_new v s1 n1) s2 n2) k x = view_set m (view_new v s1 n1) (s2 + k) x.
Proof.
  unfold view_get, view_set, w_data, view_of_view, view_new, padd. cbn.
  replace (k + (s1 + s2)) with (s2 + k + s1) by lia. auto.
Qed.
Print Assumptions C24_view_nested.

(** fill, assignment from a vector (another object) and from a std::vector, through a view: exactly the
    window changes *)
Theorem C24_view_fill_assign {F} {SF : Scalar F} (m : mem F) (v x : vec) (l lx vals : list F) (s n : nat) (value : F) :
  vec_holds m v l ->
  (s + n <= length l ->
     makes (k_view_fill (view_new v s n) value) m v (splice l s n (fun _ => value))) /\
  (vec_holds m x lx -> v_buf x <> v_buf v -> s + length lx <= length l ->
     makes (k_view_assign_vec (view_new v s (length lx)) x) m v (splice l s (length lx) (fun i => nth i lx f0))) /\
  (s + length vals <= length l ->
     exists m', view_assign_list m (view_new v s n) vals = Ok (m', view_new v s (length vals)) /\
       vec_holds m' v (splice l s (length vals) (fun i => nth i vals f0)) /\ others_kept m m' (v_buf v)).
Proof.
  intros H. split; [|split].
  - apply view_fill_makes; auto.
  - intros. eapply view_assign_vec_makes; eauto.
  - apply view_assign_list_holds; auto.
Qed.
Print Assumptions C24_view_fill_assign.

(** Any BLAS/VML call whose output is the view (C25): exactly the window changes *)
Theorem C24_view_blas {F} {SF : Scalar F} (k : kernel) (m : mem F) (v : vec) (l : list F) (s n : nat) (f : nat -> F) :
  vec_holds m v l -> s + n <= length l -> computes k m (w_arg (view_new v s n)) f ->
  makes k m v (splice l s n f).
Proof. intros H Hn HC. exact (computes_makes HC H eq_refl Hn). Qed.
Print Assumptions C24_view_blas.

(** vector(view1D) copies exactly the window into a new object *)
Theorem C24_vector_of_view {F} {SF : Scalar F} (m : mem F) (x : vec) (lx : list F) (s n : nat) :
  vec_holds m x lx -> s + n <= length lx ->
  exists m' w, vec_of_view m (view_new x s n) = Ok (m', w) /\ vec_holds m' w (firstn n (skipn s lx)) /\
    (forall c, c < length m -> nth c m' [] = nth c m []) /\ v_buf w <> v_buf x.
Proof. exact (@vec_of_view_holds F SF m x lx s n). Qed.
Print Assumptions C24_vector_of_view.

(** False of the code: assigning a view to a view reads the source at twice its offset: reads wrong
    elements, or out of range. *)
Theorem C24_view_assign_view_refuted :
  exists (m : mem Z) v m1 x m2, vec_of_list [] [0;0]%Z = Ok (m, v) /\ vec_of_list m [1;2;3;4]%Z = Ok (m1, x) /\
    kernel_seq (k_view_assign_view (view_new v 0 2) (view_new x 1 2)) m1 = Ok m2 /\
    view_get m1 (view_new x 1 2) 0 = Ok 2%Z /\ view_get m2 (view_new v 0 2) 0 = Ok 3%Z /\
    kernel_seq (k_view_assign_view (view_new v 0 2) (view_new x 2 2)) m1 = UB.
Proof.
  do 5 eexists. split; [vm_compute; reflexivity|]. split; [vm_compute; reflexivity|].
  repeat split; vm_compute; reflexivity.
Qed.
Print Assumptions C24_view_assign_view_refuted.

(** What does hold of view = view: the source view starts at 0. *)
Theorem C24_view_assign_view_partial {F} {SF : Scalar F} (m : mem F) (v x : vec) (l lx : list F) (s n : nat) :
  vec_holds m v l -> vec_holds m x lx -> v_buf x <> v_buf v -> s + n <= length l -> n <= length lx ->
  makes (k_view_assign_view (view_new v s n) (view_new x 0 n)) m v (splice l s n (fun i => nth i lx f0)).
Proof. exact (@view_assign_view_makes F SF m v l x lx s n). Qed.
Print Assumptions C24_view_assign_view_partial.

(** False of the code: end() is not begin() + size() unless the offset is 0. *)
Theorem C24_view_end_refuted (v : vec) (s n : nat) :
  w_end (view_new v s n) = padd (w_begin (view_new v s n)) n <-> s = 0.
Proof.
  unfold w_end, w_begin, view_new, padd. cbn. split.
  - intros E. injection E. lia.
  - intros ->. reflexivity.
Qed.
Print Assumptions C24_view_end_refuted.

(** False of the code: push_back on the target may move it, after which a view reads released memory. *)
Theorem C24_view_dangling_refuted :
  exists (m : mem Z) v m' v', vec_of_list [] [1;2]%Z = Ok (m, v) /\ view_get m (view_new v 0 2) 1 = Ok 2%Z /\
    vec_push_back m v 3%Z = Ok (m', v') /\ vec_get m' v' 1 = Ok 2%Z /\ view_get m' (view_new v 0 2) 1 = UB.
Proof. do 4 eexists. split; [vm_compute; reflexivity|]. repeat split; vm_compute; reflexivity. Qed.
Print Assumptions C24_view_dangling_refuted.

Example C24_example :
  exists (m : mem Z) v m1 x, vec_of_list [] [5;6;7;8]%Z = Ok (m, v) /\ vec_of_list m [1;2]%Z = Ok (m1, x) /\
    vec_holds m1 v [5;6;7;8]%Z /\ vec_holds m1 x [1;2]%Z /\ v_buf x <> v_buf v /\
    splice [5;6;7;8]%Z 1 2 (fun i => nth i [1;2]%Z 0%Z) = [5;1;2;8]%Z.
Proof.
  do 4 eexists. split; [vm_compute; reflexivity|]. split; [vm_compute; reflexivity|].
  split; [apply holds_intro; cbn; auto; try lia; intros [|[|[|[|i]]]] Hi; cbn in *; auto; lia|].
  split; [apply holds_intro; cbn; auto; try lia; intros [|[|i]] Hi; cbn in *; auto; lia|].
  split; [discriminate|reflexivity].
Qed.

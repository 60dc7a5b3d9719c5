(** * PropertiesVml: C90 (vml on Dense and view_Dense), C91 (tensor_Dense and its views), C92 (CRS), C93 (tensor_CRS),
    C94 (maximum and minimum of a matrix or tensor). *)
From Coq Require Import ZArith Floats.SpecFloat.
From Verif Require Import Base Scalar Spec Mem MemSpec VecModel VecSpec DenseModel DenseBlasModel DenseSpec DenseBlasProof TensorModel
  TensorBlasModel TensorSpec TensorBlasSpec TensorBlasProof CooModel Observe CrsModel CrsObserve CrsBlasProof CooMiscProof CooProof ReduceModel ReduceSpec ReduceProof
  TensorCrsModel TensorCrsSpec TensorCrsProof4 Loops SumFacts CrsSimProof CrsMiscProof KernelProof VmlModel CooSortProof CrsProof TensorProof TensorConvProof PropertiesCrs PropertiesReduce PropertiesTensorBlas.
Local Existing Instance one_thread. (* for the concrete examples *)
Set Implicit Arguments.

(** ** C90: every vml function on Dense matrices and matrix views, any arithmetic, every schedule; bit-exact.
    [mcomputes k m C f] (DenseSpec.v): the call is accepted, under every schedule it ends in the same memory, element
    (i,j) of C is then f i j and nothing else has changed. *)
Section C90.
Context {F : Type} {SF : Scalar F}.
Local Open Scope F_scope.

Lemma k_mm_ok (g : F -> F -> F) (A B C : marg) (m : mem F) :
  same_dims A C -> same_dims B C -> mat_ok m A -> mat_ok m B -> mat_ok m C -> msame_or_apart A C -> msame_or_apart B C ->
  mcomputes (k_mm g A B C) m C (fun i j => g (mel m A i j) (mel m B i j)).
Proof.
  intros H1 H2 **. apply km2; auto using same_dims_nnz.
  rewrite (msame_true H1), msame_true; auto. destruct H1, H2. split; congruence.
Qed.
Lemma k_m1_ok (g : F -> F) (A C : marg) (m : mem F) :
  same_dims A C -> mat_ok m A -> mat_ok m C -> msame_or_apart A C ->
  mcomputes (k_m1 g A C) m C (fun i j => g (mel m A i j)).
Proof. intros H1 **. apply (@km1 F SF _ _ g); auto using same_dims_nnz, msame_true. Qed.

Theorem C90_two_matrices (L : libm F) (A B C : marg) (m : mem F) :
  same_dims A C -> same_dims B C -> mat_ok m A -> mat_ok m B -> mat_ok m C -> msame_or_apart A C -> msame_or_apart B C ->
  mcomputes (k_mm_add A B C) m C (fun i j => mel m A i j + mel m B i j) /\
  mcomputes (k_mm_sub A B C) m C (fun i j => mel m A i j - mel m B i j) /\
  mcomputes (k_mm_mul A B C) m C (fun i j => mel m A i j * mel m B i j) /\
  mcomputes (k_mm_div A B C) m C (fun i j => mel m A i j / mel m B i j) /\
  mcomputes (k_mm_max A B C) m C (fun i j => if fltb (mel m A i j) (mel m B i j) then mel m B i j else mel m A i j) /\
  mcomputes (k_mm_min A B C) m C (fun i j => if fltb (mel m B i j) (mel m A i j) then mel m B i j else mel m A i j) /\
  mcomputes (k_mm_pow L A B C) m C (fun i j => l_pow L (mel m A i j) (mel m B i j)).
Proof. intros. repeat apply conj; now apply k_mm_ok. Qed.

Theorem C90_scalar (L : libm F) (alpha : F) (A C : marg) (m : mem F) :
  same_dims A C -> mat_ok m A -> mat_ok m C -> msame_or_apart A C ->
  mcomputes (k_ms_add alpha A C) m C (fun i j => mel m A i j + alpha) /\
  mcomputes (k_ms_sub alpha A C) m C (fun i j => mel m A i j - alpha) /\
  mcomputes (k_ms_mul alpha A C) m C (fun i j => mel m A i j * alpha) /\
  mcomputes (k_ms_div alpha A C) m C (fun i j => mel m A i j / alpha) /\
  mcomputes (k_ms_max alpha A C) m C (fun i j => if fltb (mel m A i j) alpha then alpha else mel m A i j) /\
  mcomputes (k_ms_min alpha A C) m C (fun i j => if fltb alpha (mel m A i j) then alpha else mel m A i j) /\
  mcomputes (k_ms_pow L alpha A C) m C (fun i j => l_pow L (mel m A i j) alpha).
Proof.
  intros. unfold k_ms_add, k_ms_sub, k_ms_mul, k_ms_div, k_ms_max, k_ms_min, k_ms_pow.
  repeat apply conj; match goal with |- mcomputes (k_m1 ?g _ _) _ _ _ => now apply (@k_m1_ok g) end.
Qed.

Theorem C90_unary (L : libm F) (alpha beta : F) (A C : marg) (m : mem F) :
  same_dims A C -> mat_ok m A -> mat_ok m C -> msame_or_apart A C ->
  mcomputes (k_m_sin L A C) m C (fun i j => l_sin L (mel m A i j)) /\
  mcomputes (k_m_sinh L A C) m C (fun i j => l_sinh L (mel m A i j)) /\
  mcomputes (k_m_asin L A C) m C (fun i j => l_asin L (mel m A i j)) /\
  mcomputes (k_m_asinh L A C) m C (fun i j => l_asinh L (mel m A i j)) /\
  mcomputes (k_m_tan L A C) m C (fun i j => l_tan L (mel m A i j)) /\
  mcomputes (k_m_tanh L A C) m C (fun i j => l_tanh L (mel m A i j)) /\
  mcomputes (k_m_atan L A C) m C (fun i j => l_atan L (mel m A i j)) /\
  mcomputes (k_m_atanh L A C) m C (fun i j => l_atanh L (mel m A i j)) /\
  mcomputes (k_m_ceil L A C) m C (fun i j => l_ceil L (mel m A i j)) /\
  mcomputes (k_m_floor L A C) m C (fun i j => l_floor L (mel m A i j)) /\
  mcomputes (k_m_exp L A C) m C (fun i j => l_exp L (mel m A i j)) /\
  mcomputes (k_m_sqrt A C) m C (fun i j => fsqrt (mel m A i j)) /\
  mcomputes (k_m_reciprocal A C) m C (fun i j => f1 / mel m A i j) /\
  mcomputes (k_m_sign A C) m C (fun i j => fopp f1 * mel m A i j) /\
  mcomputes (k_m_alo alpha beta A C) m C
    (fun i j => alpha * mel m A i j + (beta - alpha) * (if fltb f0 (mel m A i j) then f0 else mel m A i j)).
Proof.
  intros. unfold k_m_sin, k_m_sinh, k_m_asin, k_m_asinh, k_m_tan, k_m_tanh, k_m_atan, k_m_atanh, k_m_ceil, k_m_floor, k_m_exp, k_m_sqrt,
    k_m_reciprocal, k_m_sign, k_m_alo.
  repeat apply conj; match goal with |- mcomputes (k_m1 ?g _ _) _ _ _ => now apply (@k_m1_ok g) end.
Qed.

(** In exact arithmetic the asymmetric linear operation multiplies non-negative elements by alpha and negative ones by beta. *)
Section Alo.
Hypothesis Hex : exact SF.
Let Hrt : ring_theory f0 f1 fadd fmul fsub fopp eq := Hex.
Add Ring VmlRing : Hrt.
Theorem C90_alo_exact (alpha beta : F) (A C : marg) (m : mem F) :
  (forall x y : F, fltb x y = true -> fltb y x = false) -> (forall x y : F, fltb x y = false -> fltb y x = false -> x = y) ->
  same_dims A C -> mat_ok m A -> mat_ok m C -> msame_or_apart A C ->
  mcomputes (k_m_alo alpha beta A C) m C (fun i j => if fltb (mel m A i j) f0 then beta * mel m A i j else alpha * mel m A i j).
Proof.
  intros Hasym Htot H1 H2 H3 H4.
  destruct (@k_m1_ok (alo alpha beta) A C m H1 H2 H3 H4) as (m' & R1 & R2 & R3 & R4 & R5).
  exists m'. split; [exact R1|]. split; [exact R2|]. split; [exact R3|]. split; [|exact R5].
  intros i j Hi Hj. rewrite R4 by auto. unfold alo, fmin. set (x := mel m A i j).
  pose proof (Hasym f0 x) as Ha. pose proof (Htot f0 x) as Ht.
  destruct (fltb f0 x) eqn:E1, (fltb x f0) eqn:E2.
  - discriminate Ha; auto.
  - ring.
  - ring.
  - rewrite <- (Ht eq_refl eq_refl). ring.
Qed.
End Alo.

(** Matrices of different dimensions abort. *)
Theorem C90_sizes (g1 : F -> F) (g2 : F -> F -> F) (A B C : marg) (m : mem F) :
  (~ same_dims A C -> kernel_seq (k_m1 g1 A C) m = Abort) /\
  (~ same_dims A B \/ ~ same_dims A C -> kernel_seq (k_mm g2 A B C) m = Abort).
Proof.
  unfold kernel_seq, k_m1, k_mm. cbn [k_assert]. split.
  - intros H. rewrite (msame_false H). auto.
  - intros [H|H]; rewrite (msame_false H); rewrite ?andb_false_r; auto.
Qed.
End C90.
Print Assumptions C90_two_matrices.
Print Assumptions C90_scalar.
Print Assumptions C90_unary.
Print Assumptions C90_alo_exact.
Print Assumptions C90_sizes.

(** a view over rows 1-2 of a 3 x 2 buffer; in place; the integers with l_exp x = 2^x *)
Definition Zlibm : libm Z := mkLibm Z.opp Z.opp Z.opp Z.opp Z.opp Z.opp Z.opp Z.opp Z.opp Z.opp (Z.pow 2) Z.pow.
Theorem C90_example :
  let A := mkMarg (0,0) 2 2 2 in let m := [[9;9;1;-2;3;4]]%Z in
  mat_ok m A /\ same_dims A A /\ msame_or_apart A A /\
  kernel_seq (k_mm_mul A A A) m = Ok [[9;9;1;4;9;16]]%Z /\
  kernel_seq (k_m_alo 3%Z 5%Z A A) m = Ok [[9;9;3;-10;9;12]]%Z /\
  kernel_seq (k_ms_max 2%Z A A) m = Ok [[9;9;2;2;3;4]]%Z /\ kernel_seq (k_ms_min 2%Z A A) m = Ok [[9;9;1;-2;2;2]]%Z /\
  kernel_seq (k_ms_sub 2%Z A A) m = Ok [[9;9;-1;-4;1;2]]%Z.
Proof.
  cbn zeta. split; [apply mat_ok_window; intros k Hk; cbn in *; unfold valid; cbn; lia|].
  split; [split; auto|]. split; [left; split; [reflexivity|split; reflexivity]|]. repeat split; vm_compute; reflexivity.
Qed.

(** ** C91: the same functions on tensors (tensor_Dense, view_tensor_Dense).  [tcomputes] is in TensorBlasSpec.v. *)
Section C91.
Context {F : Type} {SF : Scalar F}.
Local Open Scope F_scope.
Lemma k_tt_ok (g : F -> F -> F) (A B C : targ) (m : mem F) :
  h_shape A = h_shape C -> h_shape B = h_shape C -> tens_ok m A -> tens_ok m B -> tens_ok m C ->
  tsame_or_apart A C -> tsame_or_apart B C ->
  tcomputes (k_tt g A B C) m C (fun pos => g (tmel m A pos) (tmel m B pos)).
Proof.
  intros H1 H2 **. apply kt2; auto.
  - rewrite !tsame_true by congruence. reflexivity.
  - rewrite h_nnz_prod. congruence.
Qed.
Lemma k_t1_ok (g : F -> F) (A C : targ) (m : mem F) :
  h_shape A = h_shape C -> tens_ok m A -> tens_ok m C -> tsame_or_apart A C ->
  tcomputes (k_t1 g A C) m C (fun pos => g (tmel m A pos)).
Proof. intros H1 **. apply (@kt1 F SF _ _ g); auto using tsame_true. rewrite h_nnz_prod. congruence. Qed.

Theorem C91_two_tensors (L : libm F) (A B C : targ) (m : mem F) :
  h_shape A = h_shape C -> h_shape B = h_shape C -> tens_ok m A -> tens_ok m B -> tens_ok m C ->
  tsame_or_apart A C -> tsame_or_apart B C ->
  tcomputes (k_tt_add A B C) m C (fun p => tmel m A p + tmel m B p) /\
  tcomputes (k_tt_sub A B C) m C (fun p => tmel m A p - tmel m B p) /\
  tcomputes (k_tt_mul A B C) m C (fun p => tmel m A p * tmel m B p) /\
  tcomputes (k_tt_div A B C) m C (fun p => tmel m A p / tmel m B p) /\
  tcomputes (k_tt_max A B C) m C (fun p => if fltb (tmel m A p) (tmel m B p) then tmel m B p else tmel m A p) /\
  tcomputes (k_tt_min A B C) m C (fun p => if fltb (tmel m B p) (tmel m A p) then tmel m B p else tmel m A p) /\
  tcomputes (k_tt_pow L A B C) m C (fun p => l_pow L (tmel m A p) (tmel m B p)).
Proof. intros. repeat apply conj; now apply k_tt_ok. Qed.

Theorem C91_scalar (L : libm F) (alpha : F) (A C : targ) (m : mem F) :
  h_shape A = h_shape C -> tens_ok m A -> tens_ok m C -> tsame_or_apart A C ->
  tcomputes (k_ts_add alpha A C) m C (fun p => tmel m A p + alpha) /\
  tcomputes (k_ts_sub alpha A C) m C (fun p => tmel m A p - alpha) /\
  tcomputes (k_ts_mul alpha A C) m C (fun p => tmel m A p * alpha) /\
  tcomputes (k_ts_div alpha A C) m C (fun p => tmel m A p / alpha) /\
  tcomputes (k_ts_max alpha A C) m C (fun p => if fltb (tmel m A p) alpha then alpha else tmel m A p) /\
  tcomputes (k_ts_min alpha A C) m C (fun p => if fltb alpha (tmel m A p) then alpha else tmel m A p) /\
  tcomputes (k_ts_pow L alpha A C) m C (fun p => l_pow L (tmel m A p) alpha).
Proof.
  intros. unfold k_ts_add, k_ts_sub, k_ts_mul, k_ts_div, k_ts_max, k_ts_min, k_ts_pow.
  repeat apply conj; match goal with |- tcomputes (k_t1 ?g _ _) _ _ _ => now apply (@k_t1_ok g) end.
Qed.

Theorem C91_unary (L : libm F) (alpha beta : F) (A C : targ) (m : mem F) :
  h_shape A = h_shape C -> tens_ok m A -> tens_ok m C -> tsame_or_apart A C ->
  tcomputes (k_t_sin L A C) m C (fun p => l_sin L (tmel m A p)) /\
  tcomputes (k_t_sinh L A C) m C (fun p => l_sinh L (tmel m A p)) /\
  tcomputes (k_t_asin L A C) m C (fun p => l_asin L (tmel m A p)) /\
  tcomputes (k_t_asinh L A C) m C (fun p => l_asinh L (tmel m A p)) /\
  tcomputes (k_t_tan L A C) m C (fun p => l_tan L (tmel m A p)) /\
  tcomputes (k_t_tanh L A C) m C (fun p => l_tanh L (tmel m A p)) /\
  tcomputes (k_t_atan L A C) m C (fun p => l_atan L (tmel m A p)) /\
  tcomputes (k_t_atanh L A C) m C (fun p => l_atanh L (tmel m A p)) /\
  tcomputes (k_t_ceil L A C) m C (fun p => l_ceil L (tmel m A p)) /\
  tcomputes (k_t_floor L A C) m C (fun p => l_floor L (tmel m A p)) /\
  tcomputes (k_t_exp L A C) m C (fun p => l_exp L (tmel m A p)) /\
  tcomputes (k_t_sqrt A C) m C (fun p => fsqrt (tmel m A p)) /\
  tcomputes (k_t_reciprocal A C) m C (fun p => f1 / tmel m A p) /\
  tcomputes (k_t_sign A C) m C (fun p => fopp f1 * tmel m A p) /\
  tcomputes (k_t_alo alpha beta A C) m C
    (fun p => alpha * tmel m A p + (beta - alpha) * (if fltb f0 (tmel m A p) then f0 else tmel m A p)).
Proof.
  intros. unfold k_t_sin, k_t_sinh, k_t_asin, k_t_asinh, k_t_tan, k_t_tanh, k_t_atan, k_t_atanh, k_t_ceil, k_t_floor, k_t_exp, k_t_sqrt,
    k_t_reciprocal, k_t_sign, k_t_alo.
  repeat apply conj; match goal with |- tcomputes (k_t1 ?g _ _) _ _ _ => now apply (@k_t1_ok g) end.
Qed.

(** Tensors of different shapes abort. *)
Theorem C91_sizes (g1 : F -> F) (g2 : F -> F -> F) (A B C : targ) (m : mem F) :
  (h_shape A <> h_shape C -> kernel_seq (k_t1 g1 A C) m = Abort) /\
  (h_shape A <> h_shape B \/ h_shape A <> h_shape C -> kernel_seq (k_tt g2 A B C) m = Abort).
Proof.
  assert (N : forall P Q, h_shape P <> h_shape Q -> tsame P Q = false).
  { intros P Q H. destruct (tsame P Q) eqn:E; auto. apply tsame_eq in E. congruence. }
  unfold kernel_seq, k_t1, k_tt. cbn [k_assert]. split.
  - intros H. rewrite (N _ _ H). auto.
  - intros [H|H]; rewrite (N _ _ H); rewrite ?andb_false_r; auto.
Qed.
End C91.
Print Assumptions C91_two_tensors.
Print Assumptions C91_scalar.
Print Assumptions C91_unary.
Print Assumptions C91_sizes.
Theorem C91_example :
  let A := mkTarg (0,0) 0 [2;1;2] in let B := mkTarg (0,0) 4 [2;1;2] in let m := [[1;2;-3;4;2;3;2;3]]%Z in
  tens_ok m A /\ tens_ok m B /\ tsame_or_apart A B /\ tsame_or_apart B B /\
  kernel_seq (k_tt_pow Zlibm A B B) m = Ok [[1;2;-3;4;1;8;9;64]]%Z /\ kernel_seq (k_t_exp Zlibm B A) m = Ok [[4;8;4;8;2;3;2;3]]%Z.
Proof.
  cbn zeta. do 2 (split; [apply tens_window; intros i Hi; cbn in *; unfold valid; cbn; lia|]).
  split; [right; apply tapart_w; intros i j Hi Hj E; cbn in *; inversion E; lia|].
  split; [left; auto|]. split; vm_compute; reflexivity.
Qed.

(** ** C92: CRS.  The functions work on the stored entries. *)
(** the call returns a valid matrix of A's dimensions with the stored entries [es] *)
Definition crs_gives {F} {SF : Scalar F} (r : res (crs F)) (A : crs F) (es : list (nat * nat * F)) : Prop :=
  exists C', r = Ok C' /\ crs_ok C' /\ m_row C' = m_row A /\ m_col C' = m_col A /\ crs_entries C' = es.
Section C92.
Context {F : Type} {SF : Scalar F}.
Local Open Scope F_scope.

Lemma crs_map1_ok (g : F -> F) (A C : crs F) : crs_ok A -> crs_ok C -> same_pattern A C ->
  crs_gives (crs_map1 g A C) A (map_val (fun _ _ v => g v) (crs_entries A)).
Proof.
  intros W WC HP. unfold crs_map1. pose proof WC as (_ & _ & _ & _ & _ & _ & HL & HA).
  destruct (same_pattern_rp W WC HP) as (_ & En & _).
  destruct (@crs_flat_ok F SF A C (fun k _ => g (vln A k))
    (fun i v => p <- rd (m_val A) (m_first A + i) ;; wr v (m_first C + i) (g p))
    (fun _ _ v => g v)) as (v & E & W' & HE); auto.
  - intros k w Hk Hw. rewrite rd_val by auto. cbn [bind]. apply wr_lt. lia.
  - rewrite E. cbn [bind]. exists (m_set_val C v). destruct HP as (-> & -> & _). auto.
Qed.
Lemma same_pattern_size (A C : crs F) : same_pattern A C -> crs_same_size A C = true.
Proof. intros (E1 & E2 & _). unfold crs_same_size. now rewrite E1, E2, !Nat.eqb_refl. Qed.
Lemma crs_vml1_ok (g : F -> F) (A C : crs F) : crs_ok A -> crs_ok C -> same_pattern A C -> crs_same_structure A C = true ->
  crs_gives (crs_vml1 g A C) A (map_val (fun _ _ v => g v) (crs_entries A)).
Proof.
  intros W WC HP HS. unfold crs_vml1. rewrite same_pattern_size, HS by auto. cbn [assert_ bind]. now apply crs_map1_ok.
Qed.
Lemma crs_vml1_c_ok (g : F -> F) (A C : crs F) : crs_ok A -> crs_ok C -> same_pattern A C -> crs_same_structure A C = true ->
  crs_gives (crs_vml1_c g A C) A (map_val (fun _ _ v => g v) (crs_entries A)).
Proof.
  intros W WC HP HS. unfold crs_vml1_c. rewrite same_pattern_size, HS by auto. cbn [assert_ bind].
  destruct (same_pattern_rp W WC HP) as (_ & En & _). rewrite <- En. now apply crs_map1_ok.
Qed.
Lemma crs_vml_s_ok (g : F -> F) (A C : crs F) : crs_ok A -> crs_ok C -> same_pattern A C ->
  crs_gives (crs_vml_s g A C) A (map_val (fun _ _ v => g v) (crs_entries A)).
Proof. intros W WC HP. unfold crs_vml_s. rewrite same_pattern_size by auto. cbn [assert_ bind]. now apply crs_map1_ok. Qed.

(** Matrices with the same stored positions (the documented requirement) and up-to-date hashes: each stored value of the result is the
    function of the stored value(s) at the same place.  Missing from the full claim: nothing is said about calls that are
    accepted although the structures differ (C92_structure_refuted), nor about the unstored positions
    (C92_unstored_refuted). *)
Theorem C92_two_matrices_partial (L : libm F) (A B C : crs F) :
  crs_ok A -> crs_ok B -> crs_ok C -> same_pattern A B -> same_pattern A C ->
  crs_same_structure A B = true -> crs_same_structure A C = true ->
  crs_gives (crs_add A B C) A (map2_val (fun _ _ a b => a + b) (crs_entries A) (crs_entries B)) /\
  crs_gives (crs_sub A B C) A (map2_val (fun _ _ a b => a - b) (crs_entries A) (crs_entries B)) /\
  crs_gives (crs_mul A B C) A (map2_val (fun _ _ a b => a * b) (crs_entries A) (crs_entries B)) /\
  crs_gives (crs_div A B C) A (map2_val (fun _ _ a b => a / b) (crs_entries A) (crs_entries B)) /\
  crs_gives (crs_max2 A B C) A (map2_val (fun _ _ a b => if fltb a b then b else a) (crs_entries A) (crs_entries B)) /\
  crs_gives (crs_min2 A B C) A (map2_val (fun _ _ a b => if fltb b a then b else a) (crs_entries A) (crs_entries B)) /\
  crs_gives (crs_pow2 L A B C) A (map2_val (fun _ _ a b => l_pow L a b) (crs_entries A) (crs_entries B)).
Proof.
  intros. unfold crs_add, crs_sub, crs_mul, crs_div, crs_max2, crs_min2, crs_pow2, crs_vml2, crs_gives.
  repeat apply conj; match goal with |- exists _, crs_matop ?g _ _ _ = _ /\ _ => now apply (@crs_matop_ok F SF g A B C) end.
Qed.

Theorem C92_scalar_partial (L : libm F) (alpha : F) (A C : crs F) :
  crs_ok A -> crs_ok C -> same_pattern A C ->
  (crs_gives (crs_s_add alpha A C) A (map_val (fun _ _ v => v + alpha) (crs_entries A)) /\
   crs_gives (crs_s_sub alpha A C) A (map_val (fun _ _ v => v - alpha) (crs_entries A)) /\
   crs_gives (crs_s_mul alpha A C) A (map_val (fun _ _ v => v * alpha) (crs_entries A)) /\
   crs_gives (crs_s_div alpha A C) A (map_val (fun _ _ v => v / alpha) (crs_entries A))) /\
  (crs_same_structure A C = true ->
   crs_gives (crs_s_max alpha A C) A (map_val (fun _ _ v => if fltb v alpha then alpha else v) (crs_entries A)) /\
   crs_gives (crs_s_min alpha A C) A (map_val (fun _ _ v => if fltb alpha v then alpha else v) (crs_entries A)) /\
   crs_gives (crs_s_pow L alpha A C) A (map_val (fun _ _ v => l_pow L v alpha) (crs_entries A))).
Proof.
  intros H1 H2 H3. split; [|intros H4].
  - unfold crs_s_add, crs_s_sub, crs_s_mul, crs_s_div.
    repeat apply conj; match goal with |- crs_gives (crs_vml_s ?g _ _) _ _ => now apply (@crs_vml_s_ok g) end.
  - split; [|split]; [now apply (@crs_vml1_c_ok (fun v => fmax v alpha))|now apply (@crs_vml1_c_ok (fun v => fmin v alpha))|
      now apply (@crs_vml1_ok (fun v => l_pow L v alpha))].
Qed.

Theorem C92_unary_partial (L : libm F) (alpha beta : F) (A C : crs F) :
  crs_ok A -> crs_ok C -> same_pattern A C -> crs_same_structure A C = true ->
  crs_gives (crs_sin L A C) A (map_val (fun _ _ v => l_sin L v) (crs_entries A)) /\
  crs_gives (crs_sinh L A C) A (map_val (fun _ _ v => l_sinh L v) (crs_entries A)) /\
  crs_gives (crs_asin L A C) A (map_val (fun _ _ v => l_asin L v) (crs_entries A)) /\
  crs_gives (crs_asinh L A C) A (map_val (fun _ _ v => l_asinh L v) (crs_entries A)) /\
  crs_gives (crs_tan L A C) A (map_val (fun _ _ v => l_tan L v) (crs_entries A)) /\
  crs_gives (crs_tanh L A C) A (map_val (fun _ _ v => l_tanh L v) (crs_entries A)) /\
  crs_gives (crs_atan L A C) A (map_val (fun _ _ v => l_atan L v) (crs_entries A)) /\
  crs_gives (crs_atanh L A C) A (map_val (fun _ _ v => l_atanh L v) (crs_entries A)) /\
  crs_gives (crs_ceil L A C) A (map_val (fun _ _ v => l_ceil L v) (crs_entries A)) /\
  crs_gives (crs_floor L A C) A (map_val (fun _ _ v => l_floor L v) (crs_entries A)) /\
  crs_gives (crs_exp L A C) A (map_val (fun _ _ v => l_exp L v) (crs_entries A)) /\
  crs_gives (crs_sqrt A C) A (map_val (fun _ _ v => fsqrt v) (crs_entries A)) /\
  crs_gives (crs_reciprocal A C) A (map_val (fun _ _ v => f1 / v) (crs_entries A)) /\
  crs_gives (crs_sign A C) A (map_val (fun _ _ v => fopp f1 * v) (crs_entries A)) /\
  crs_gives (crs_alo alpha beta A C) A
    (map_val (fun _ _ v => alpha * v + (beta - alpha) * (if fltb f0 v then f0 else v)) (crs_entries A)).
Proof.
  intros. unfold crs_sin, crs_sinh, crs_asin, crs_asinh, crs_tan, crs_tanh, crs_atan, crs_atanh, crs_ceil, crs_floor, crs_exp, crs_sqrt,
    crs_reciprocal, crs_sign, crs_alo.
  repeat apply conj; match goal with |- crs_gives (crs_vml1 ?g _ _) _ _ => now apply (@crs_vml1_ok g) end.
Qed.

(** What this means for the elements: with a function that fixes 0 the represented matrix is transformed element by element; with
    another one the stored elements are, and the unstored ones stay 0. *)
Theorem C92_elements (g : F -> F) (A C' : crs F) (r : res (crs F)) :
  crs_gives r A (map_val (fun _ _ v => g v) (crs_entries A)) -> r = Ok C' ->
  (g f0 = f0 -> forall i j, crs_elem C' i j = g (crs_elem A i j)) /\
  (forall i j, In (i, j) (map fst (crs_entries A)) -> crs_elem C' i j = g (crs_elem A i j)) /\
  (forall i j, ~ In (i, j) (map fst (crs_entries A)) -> crs_elem C' i j = f0 /\ crs_elem A i j = f0).
Proof.
  intros (C1 & -> & _ & _ & _ & HE) E. assert (C1 = C') as -> by congruence.
  assert (D : forall i j, {In (i, j) (map fst (crs_entries A))} + {~ In (i, j) (map fst (crs_entries A))}).
  { intros i j. apply in_dec. intros [a b] [c d]. destruct (Nat.eq_dec a c), (Nat.eq_dec b d); subst; auto; right; congruence. }
  split; [|split]; [|intros i j|intros i j]; try (now apply (@C19_map_val_elem F SF (fun _ _ v => g v) A C' i j)).
  intros H0 i j. destruct (@C19_map_val_elem F SF (fun _ _ v => g v) A C' i j HE) as (P1 & P2).
  destruct (D i j) as [G|G]; [now apply P1|]. destruct (P2 G) as (-> & ->). auto.
Qed.

(** Different dimensions abort; different hashes abort except for the four scalar arithmetic functions. *)
Theorem C92_sizes (alpha : F) (g1 : F -> F) (g2 : F -> F -> F) (A B C : crs F) :
  (m_row A <> m_row C \/ m_col A <> m_col C ->
     crs_vml1 g1 A C = Abort /\ crs_vml1_c g1 A C = Abort /\ crs_vml_s g1 A C = Abort /\ crs_vml2 g2 A B C = Abort) /\
  (m_row A <> m_row B \/ m_col A <> m_col B -> crs_vml2 g2 A B C = Abort) /\
  (m_hash A <> m_hash C -> crs_vml1 g1 A C = Abort /\ crs_vml1_c g1 A C = Abort /\ crs_vml2 g2 A B C = Abort) /\
  (m_hash A <> m_hash B -> crs_vml2 g2 A B C = Abort).
Proof.
  assert (N : forall D, m_row A <> m_row D \/ m_col A <> m_col D -> crs_same_size A D = false).
  { intros D H. unfold crs_same_size. destruct (Nat.eqb_spec (m_row A) (m_row D)), (Nat.eqb_spec (m_col A) (m_col D)); auto; tauto. }
  assert (NH : forall D, m_hash A <> m_hash D -> crs_same_structure A D = false).
  { intros D H. unfold crs_same_structure. now rewrite (proj2 (N.eqb_neq _ _) H). }
  unfold crs_vml1, crs_vml1_c, crs_vml_s, crs_vml2, crs_matop. split; [|split; [|split]].
  - intros H. rewrite (N C H), andb_false_r. auto.
  - intros H. rewrite (N B H). auto.
  - intros H. rewrite (NH C H), andb_false_r. destruct (crs_same_size A C); auto. rewrite andb_true_r. destruct (crs_same_size A B); auto.
    rewrite andb_false_r. auto.
  - intros H. rewrite (NH B H). destruct (crs_same_size A B && crs_same_size A C); auto.
Qed.
End C92.
Print Assumptions C92_two_matrices_partial.
Print Assumptions C92_scalar_partial.
Print Assumptions C92_unary_partial.
Print Assumptions C92_elements.
Print Assumptions C92_sizes.

Definition vA : crs Z := Eval vm_compute in match crs_of_arrays (SF := Zscalar) 2 2 3 [0; 2; 3] [0; 1; 1] [1; 2; 3]%Z with Ok a => a | _ => crs_empty end.
Definition vD : crs Z := Eval vm_compute in match crs_of_arrays (SF := Zscalar) 2 2 1 [0; 0; 1] [0] [7]%Z with Ok a => a | _ => crs_empty end.
Definition vE : crs Z := Eval vm_compute in match crs_of_arrays (SF := Zscalar) 2 2 4 [0; 2; 4] [0; 1; 0; 1] [7; 7; 7; 7]%Z with Ok a => a | _ => crs_empty end.
Lemma vA_ok : crs_ok vA.
Proof.
  repeat split; cbn; auto; try lia.
  - intros [|[|i]] H; cbn; lia.
  - intros [|[|[|i]]] H; cbn; lia.
Qed.
Lemma vD_ok : crs_ok vD.
Proof.
  repeat split; cbn; auto; try lia.
  - intros [|[|i]] H; cbn; lia.
  - intros [|i] H; cbn; lia.
Qed.
Lemma vE_ok : crs_ok vE.
Proof.
  repeat split; cbn; auto; try lia.
  - intros [|[|i]] H; cbn; lia.
  - intros [|[|[|[|i]]]] H; cbn; lia.
Qed.
Theorem C92_example : crs_ok vA /\ same_pattern vA vA /\ crs_same_structure vA vA = true /\
  exists C', crs_exp Zlibm vA vA = Ok C' /\ crs_entries C' = [(0, 0, 2%Z); (0, 1, 4%Z); (1, 1, 8%Z)] /\
  exists C'', crs_mul vA C' vA = Ok C'' /\ crs_entries C'' = [(0, 0, 2%Z); (0, 1, 8%Z); (1, 1, 24%Z)].
Proof.
  split; [exact vA_ok|]. split; [repeat split|]. split; [reflexivity|].
  eexists. split; [vm_compute; reflexivity|]. split; [vm_compute; reflexivity|].
  eexists. split; vm_compute; reflexivity.
Qed.
(** False of the code: A + alpha into a matrix of the same size but of another structure is accepted.  With fewer stored entries the call
    writes behind the value array; with more, the values land at other positions. *)
Theorem C92_structure_refuted :
  (exists A C : crs Z, crs_ok A /\ crs_ok C /\ m_row A = m_row C /\ m_col A = m_col C /\ ~ same_pattern A C /\
     crs_same_structure A C = false /\ crs_s_mul 1%Z A C = UB) /\
  (exists A C C' : crs Z, crs_ok A /\ crs_ok C /\ m_row A = m_row C /\ m_col A = m_col C /\
     crs_same_structure A C = false /\ crs_s_mul 1%Z A C = Ok C' /\ crs_elem A 1 0 = 0%Z /\ crs_elem C' 1 0 = 3%Z).
Proof.
  split.
  - exists vA, vD. split; [exact vA_ok|]. split; [exact vD_ok|]. do 2 (split; [reflexivity|]).
    split; [intros (_ & _ & H); vm_compute in H; discriminate|]. split; vm_compute; reflexivity.
  - exists vA, vE. eexists. split; [exact vA_ok|]. split; [exact vE_ok|]. do 2 (split; [reflexivity|]).
    split; [reflexivity|]. split; [vm_compute; reflexivity|]. split; vm_compute; reflexivity.
Qed.
(** False of the code as a statement about the elements of the matrix: with a function that does not fix 0, unstored elements
    stay 0 (A + 1: element (1,0) of the result is 0, not 0 + 1). *)
Theorem C92_unstored_refuted : exists (A C' : crs Z), crs_ok A /\ crs_s_add 1%Z A A = Ok C' /\ crs_elem A 1 0 = 0%Z /\ crs_elem C' 1 0 = 0%Z /\
  crs_elem C' 0 0 = (crs_elem A 0 0 + 1)%Z.
Proof.
  exists vA. eexists. split; [exact vA_ok|]. split; [vm_compute; reflexivity|]. repeat split; vm_compute; reflexivity.
Qed.
Print Assumptions C92_structure_refuted.
Print Assumptions C92_unstored_refuted.

(** ** C93: tensor_CRS *)
(** the call returns a readable tensor of A's shape whose stored entries are A's, with the values [g] of the old ones *)
Definition tr_gives {F} {SF : Scalar F} (r : res (tcrs F)) (A : tcrs F) (g : F -> F) : Prop :=
  exists C', r = Ok C' /\ tr_readable C' /\ k_shape C' = k_shape A /\
    forall p i, inside (slices (k_shape A)) p -> i < n_rows (k_shape A) ->
      tr_row C' p i = map (fun e => (fst e, g (snd e))) (tr_row A p i).
Definition tr_gives2 {F} {SF : Scalar F} (r : res (tcrs F)) (A B : tcrs F) (g : F -> F -> F) : Prop :=
  exists C', r = Ok C' /\ tr_readable C' /\ k_shape C' = k_shape A /\
    forall p i, inside (slices (k_shape A)) p -> i < n_rows (k_shape A) ->
      tr_row C' p i = map (fun q => (fst (fst q), g (snd (fst q)) (snd (snd q)))) (List.combine (tr_row A p i) (tr_row B p i)) /\
      map fst (tr_row B p i) = map fst (tr_row A p i).
Section C93.
Context {F : Type} {SF : Scalar F}.
Local Open Scope F_scope.
Lemma tr_vml1_ok (g : F -> F) (A C : tcrs F) h :
  tr_readable A -> k_first A + k_nnz A <= length (k_val A) ->
  same_arrays A C -> length (k_val C) = k_alloc C -> k_first C + k_nnz A <= k_alloc C ->
  k_hash A = Some h -> k_hash C = Some h -> tr_gives (tr_vml1 g A C) A g.
Proof.
  intros HR HA HS B1 B2 H1 H2. pose proof HS as (S1 & _). unfold tr_vml1. rewrite tr_same_size_refl by auto. cbn [assert_ bind].
  rewrite (@tr_same_structure_ok F A C h) by auto. cbn [bind assert_]. now apply tr_map1_ok.
Qed.
Lemma tr_vml_s_ok (g : F -> F) (A C : tcrs F) :
  tr_readable A -> k_first A + k_nnz A <= length (k_val A) ->
  same_arrays A C -> length (k_val C) = k_alloc C -> k_first C + k_nnz A <= k_alloc C -> tr_gives (tr_vml_s g A C) A g.
Proof.
  intros HR HA HS B1 B2. pose proof HS as (S1 & _). unfold tr_vml_s. rewrite tr_same_size_refl by auto. cbn [assert_ bind].
  now apply tr_map1_ok.
Qed.
Lemma tr_vml2_ok (g : F -> F -> F) (A B C : tcrs F) h :
  tr_readable A -> k_first A + k_nnz A <= length (k_val A) ->
  same_arrays A B -> k_first B + k_nnz A <= length (k_val B) ->
  same_arrays A C -> length (k_val C) = k_alloc C -> k_first C + k_nnz A <= k_alloc C ->
  k_hash A = Some h -> k_hash B = Some h -> k_hash C = Some h -> tr_gives2 (tr_vml2 g A B C) A B g.
Proof.
  intros HR HA SB HB SC B1 B2 H1 H2 H3.
  destruct (@tr_tensop_ok F SF g A B C h) as (C' & E & K1 & K2 & K3 & K4 & K5); auto.
  exists C'. split; auto. split; auto. split; auto. intros p i Hp Hi. split; auto. now apply tr_row_pairs.
Qed.

(** Missing from the full claim: calls accepted although the index arrays differ (C93_structure_refuted, C61_guard_refuted), objects built
    from arrays (C61_from_arrays_refuted) and unstored positions (they stay 0). *)
Theorem C93_two_tensors_partial (L : libm F) (A B C : tcrs F) h :
  tr_readable A -> k_first A + k_nnz A <= length (k_val A) ->
  same_arrays A B -> k_first B + k_nnz A <= length (k_val B) ->
  same_arrays A C -> length (k_val C) = k_alloc C -> k_first C + k_nnz A <= k_alloc C ->
  k_hash A = Some h -> k_hash B = Some h -> k_hash C = Some h ->
  tr_gives2 (tr_add A B C) A B (fun a b => a + b) /\ tr_gives2 (tr_sub A B C) A B (fun a b => a - b) /\
  tr_gives2 (tr_mul A B C) A B (fun a b => a * b) /\ tr_gives2 (tr_div A B C) A B (fun a b => a / b) /\
  tr_gives2 (tr_max2 A B C) A B (fun a b => if fltb a b then b else a) /\
  tr_gives2 (tr_min2 A B C) A B (fun a b => if fltb b a then b else a) /\
  tr_gives2 (tr_pow2 L A B C) A B (fun a b => l_pow L a b).
Proof.
  intros. unfold tr_add, tr_sub, tr_mul, tr_div, tr_max2, tr_min2, tr_pow2.
  repeat apply conj; match goal with |- tr_gives2 (tr_vml2 ?g _ _ _) _ _ _ => now apply (@tr_vml2_ok g A B C h) end.
Qed.
Theorem C93_scalar_partial (L : libm F) (alpha : F) (A C : tcrs F) :
  tr_readable A -> k_first A + k_nnz A <= length (k_val A) ->
  same_arrays A C -> length (k_val C) = k_alloc C -> k_first C + k_nnz A <= k_alloc C ->
  (tr_gives (tr_s_add alpha A C) A (fun v => v + alpha) /\ tr_gives (tr_s_sub alpha A C) A (fun v => v - alpha) /\
   tr_gives (tr_s_mul alpha A C) A (fun v => v * alpha) /\ tr_gives (tr_s_div alpha A C) A (fun v => v / alpha)) /\
  (forall h, k_hash A = Some h -> k_hash C = Some h ->
   tr_gives (tr_s_max alpha A C) A (fun v => if fltb v alpha then alpha else v) /\
   tr_gives (tr_s_min alpha A C) A (fun v => if fltb alpha v then alpha else v) /\
   tr_gives (tr_s_pow L alpha A C) A (fun v => l_pow L v alpha)).
Proof.
  intros H1 H2 H3 H4 H5. unfold tr_s_add, tr_s_sub, tr_s_mul, tr_s_div, tr_s_max, tr_s_min, tr_s_pow. split; [|intros h H6 H7];
  repeat apply conj; match goal with |- tr_gives (tr_vml_s ?g _ _) _ _ => now apply (@tr_vml_s_ok g)
    | |- tr_gives (tr_vml1 ?g _ _) _ _ => now apply (@tr_vml1_ok g A C h) end.
Qed.
Theorem C93_unary_partial (L : libm F) (alpha beta : F) (A C : tcrs F) h :
  tr_readable A -> k_first A + k_nnz A <= length (k_val A) ->
  same_arrays A C -> length (k_val C) = k_alloc C -> k_first C + k_nnz A <= k_alloc C -> k_hash A = Some h -> k_hash C = Some h ->
  tr_gives (tr_sin L A C) A (fun v => l_sin L v) /\
  tr_gives (tr_sinh L A C) A (fun v => l_sinh L v) /\
  tr_gives (tr_asin L A C) A (fun v => l_asin L v) /\
  tr_gives (tr_asinh L A C) A (fun v => l_asinh L v) /\
  tr_gives (tr_tan L A C) A (fun v => l_tan L v) /\
  tr_gives (tr_tanh L A C) A (fun v => l_tanh L v) /\
  tr_gives (tr_atan L A C) A (fun v => l_atan L v) /\
  tr_gives (tr_atanh L A C) A (fun v => l_atanh L v) /\
  tr_gives (tr_ceil L A C) A (fun v => l_ceil L v) /\
  tr_gives (tr_floor L A C) A (fun v => l_floor L v) /\
  tr_gives (tr_exp L A C) A (fun v => l_exp L v) /\
  tr_gives (tr_sqrt A C) A (fun v => fsqrt v) /\
  tr_gives (tr_reciprocal A C) A (fun v => f1 / v) /\
  tr_gives (tr_sign A C) A (fun v => fopp f1 * v) /\
  tr_gives (tr_alo alpha beta A C) A (fun v => alpha * v + (beta - alpha) * (if fltb f0 v then f0 else v)).
Proof.
  intros. unfold tr_sin, tr_sinh, tr_asin, tr_asinh, tr_tan, tr_tanh, tr_atan, tr_atanh, tr_ceil, tr_floor, tr_exp, tr_sqrt,
    tr_reciprocal, tr_sign, tr_alo.
  repeat apply conj; match goal with |- tr_gives (tr_vml1 ?g _ _) _ _ => now apply (@tr_vml1_ok g A C h) end.
Qed.
(** Different shapes abort; different hashes abort except for the four scalar arithmetic functions. *)
Theorem C93_sizes (g1 : F -> F) (g2 : F -> F -> F) (A B C : tcrs F) :
  (k_shape A <> k_shape C -> tr_vml1 g1 A C = Abort /\ tr_vml_s g1 A C = Abort /\ tr_vml2 g2 A B C = Abort) /\
  (k_shape A <> k_shape B -> tr_vml2 g2 A B C = Abort) /\
  (forall h h', k_hash A = Some h -> k_hash C = Some h' -> h <> h' -> tr_vml1 g1 A C = Abort).
Proof.
  assert (N : forall D, k_shape A <> k_shape D -> tr_same_size A D = false).
  { intros D H. unfold tr_same_size. destruct (list_eq_dec Nat.eq_dec (k_shape A) (k_shape D)); [contradiction|auto]. }
  unfold tr_vml1, tr_vml_s, tr_vml2, tr_tensop. split; [|split].
  - intros H. rewrite (N C H), andb_false_r. auto.
  - intros H. rewrite (N B H). auto.
  - intros h h' H1 H2 H3. unfold tr_same_structure. destruct (tr_same_size A C); [|auto]. rewrite H1, H2, (proj2 (N.eqb_neq _ _)) by auto. auto.
Qed.
End C93.
Print Assumptions C93_two_tensors_partial.
Print Assumptions C93_scalar_partial.
Print Assumptions C93_unary_partial.
Print Assumptions C93_sizes.

Definition vT : tcrs Z := Eval vm_compute in
  match tr_convert_coo (SF := Zscalar) tr_empty (mkTC [2;1;2] [[0;0;0]; [0;0;1]; [1;0;1]] [1;2;3]%Z 3 3 true) with Ok a => a | _ => tr_empty end.
Definition vU : tcrs Z := Eval vm_compute in
  match tr_convert_coo (SF := Zscalar) tr_empty (mkTC [2;1;2] [[1;0;0]] [7%Z] 1 1 true) with Ok a => a | _ => tr_empty end.
Lemma vT_ok : tr_readable vT.
Proof.
  split; [cbn; lia|]. split; [reflexivity|]. split; [reflexivity|]. split; [reflexivity|].
  intros d Hd. cbn in Hd. assert (d = 0 \/ d = 1) as [->| ->] by lia;
  apply CrsSimProof.crs_ok_readable; unfold crs_ok, tr_slice, rpn, cin; cbn; repeat split; try lia.
  - intros i Hi. assert (i = 0) by lia. subst. cbn. lia.
  - intros k Hk. assert (k = 0 \/ k = 1) as [->| ->] by lia; cbn; lia.
  - intros i Hi. assert (i = 0) by lia. subst. cbn. lia.
  - intros k Hk. assert (k = 0) by lia. subst. cbn. lia.
Qed.
Theorem C93_example : exists h C', tr_readable vT /\ same_arrays vT vT /\ k_hash vT = Some h /\
  tr_exp Zlibm vT vT = Ok C' /\ tr_row C' [0] 0 = [(0, 2%Z); (1, 4%Z)] /\ tr_row C' [1] 0 = [(1, 8%Z)].
Proof.
  eexists. eexists. split; [exact vT_ok|]. split; [repeat split|]. split; [reflexivity|].
  split; [vm_compute; reflexivity|]. split; vm_compute; reflexivity.
Qed.
(** False of the code: A * alpha into a tensor of the same shape with another structure is accepted and writes behind its value array. *)
Theorem C93_structure_refuted : exists (A C : tcrs Z), tr_readable A /\ k_shape A = k_shape C /\ k_cis A <> k_cis C /\
  tr_vml1 (fun x => x) A C = Abort /\ tr_s_mul 1%Z A C = UB.
Proof.
  exists vT, vU. split; [exact vT_ok|]. split; [reflexivity|]. split; [vm_compute; discriminate|]. split; vm_compute; reflexivity.
Qed.
Print Assumptions C93_structure_refuted.

(** ** C94: the greatest and the smallest element *)
(** [v] is among the values described by [E], and none of them is greater / smaller *)
Definition greatest_of {F} {SF : Scalar F} (E : F -> Prop) (v : F) : Prop := E v /\ forall a, E a -> fltb v a = false.
Definition smallest_of {F} {SF : Scalar F} (E : F -> Prop) (v : F) : Prop := E v /\ forall a, E a -> fltb a v = false.
(** the elements of a matrix, of a tensor, of a CRS matrix; the stored values of a CRS matrix and of a tensor_CRS *)
Definition mat_elem {F} {SF : Scalar F} (m : mem F) (A : marg) (a : F) : Prop := exists i j, i < g_row A /\ j < g_col A /\ mel m A i j = a.
Definition tens_elem {F} {SF : Scalar F} (m : mem F) (A : targ) (a : F) : Prop := exists pos, inside (h_shape A) pos /\ tmel m A pos = a.
Definition crs_elem_in {F} {SF : Scalar F} (A : crs F) (a : F) : Prop := exists i j, i < m_row A /\ j < m_col A /\ crs_elem A i j = a.
Definition crs_stored {F} {SF : Scalar F} (A : crs F) (a : F) : Prop := exists k, k < m_nnz A /\ vln A k = a.
Definition tr_stored {F} {SF : Scalar F} (A : tcrs F) (a : F) : Prop := exists k, k < k_nnz A /\ nth (k_first A + k) (k_val A) f0 = a.
(** the elements are ordinary numbers (not NaN), [lowest] <= all of them <= [greatest] *)
Definition in_range {F} {SF : Scalar F} (P E : F -> Prop) (lowest greatest : F) : Prop :=
  weak_order P /\ P f0 /\ P lowest /\ P greatest /\
  forall a, E a -> P a /\ (a = lowest \/ fltb lowest a = true) /\ (a = greatest \/ fltb a greatest = true).
(** the call is accepted, cannot go wrong, has a result, and every possible result satisfies [Q] *)
Definition yields {F} {SF : Scalar F} (k : reduction) (m : mem F) (Q : F -> Prop) : Prop :=
  (exists v, red_val k m v) /\ (forall v, red_val k m v -> Q v) /\ ~ red_fault k m.
Section C94.
Context {F : Type} {SF : Scalar F}.

Lemma Forall2_imp {A B} (P Q : A -> B -> Prop) (l : list A) (k : list B) : (forall a b, P a b -> Q a b) -> Forall2 P l k -> Forall2 Q l k.
Proof. intros H G. induction G; constructor; auto. Qed.
Lemma thread_acc_ext (k k' : reduction (F := F)) (m : mem F) its : r_term k' = r_term k -> r_step k' = r_step k ->
  forall acc, thread_acc k' m its acc = thread_acc k m its acc.
Proof. intros E1 E2. induction its as [|i its IH]; intros acc; cbn; auto. rewrite E1, E2. destruct (r_term k m i); cbn; auto. Qed.
Lemma red_val_post (k k' : reduction (F := F)) (m : mem F) :
  r_assert k' = r_assert k -> r_orig k' = r_orig k -> r_n k' = r_n k -> r_term k' = r_term k -> r_ident k' = r_ident k ->
  r_step k' = r_step k -> r_comb k' = r_comb k -> r_post k = (fun v => v) ->
  (forall v, red_val k' m v <-> exists v0, red_val k m v0 /\ v = r_post k' v0) /\ (red_fault k' m <-> red_fault k m).
Proof.
  intros E1 E2 E3 E4 E5 E6 E7 E8. pose proof (fun its => @thread_acc_ext k k' m its E4 E6) as T. split.
  - intros v. unfold red_val. rewrite E1, E2, E3, E5, E7, E8. split.
    + intros (H1 & o & d & ps & c & K1 & K2 & K3 & K4 & K5). exists c. split; [|exact K5]. split; auto. exists o, d, ps, c.
      split; [exact K1|]. split; [exact K2|]. split; [|split; [exact K4|reflexivity]].
      eapply Forall2_imp; [|exact K3]. intros x y; cbn beta; now rewrite T.
    + intros (v0 & (H1 & o & d & ps & c & K1 & K2 & K3 & K4 & K5) & ->). split; auto. exists o, d, ps, c.
      split; [exact K1|]. split; [exact K2|]. split; [|split; [exact K4|now rewrite K5]].
      eapply Forall2_imp; [|exact K3]. intros x y; cbn beta; now rewrite T.
  - unfold red_fault. rewrite E2, E3, E5. split; (intros [H|(d & H1 & H2)]; [left; exact H|right; exists d; split; [exact H1|]]);
      (eapply Exists_impl; [|exact H2]; intros its; cbn beta; now rewrite T).
Qed.
Lemma yields_max t lowest greatest (P E : F -> Prop) (m : mem F) p n :
  in_range P E lowest greatest -> arg_ok m (mkArg p n) -> 0 < n -> (forall a, E a <-> exists i, i < n /\ el m (mkArg p n) i = a) ->
  yields (r_max_of t lowest p n) m (fun v => exists v0, greatest_of E v0 /\ v = if t then v0 else fmax v0 f0).
Proof.
  intros (W & P0 & PL & PG & HE) Ha Hn HI.
  destruct (@C26_max F SF lowest P m (mkArg p n) W PL Ha Hn) as (K1 & K2 & K3).
  { intros i Hi. cbn [a_len] in Hi. destruct (HE (el m (mkArg p n) i)) as (G1 & G2 & _); auto. apply HI. eauto. }
  destruct (@red_val_post (r_max lowest (mkArg p n)) (r_max_of t lowest p n) m) as (R1 & R2); auto.
  split; [|split].
  - destruct K1 as (v & Hv). eexists. apply R1. eauto.
  - intros v Hv. apply R1 in Hv. destruct Hv as (v0 & Hv0 & ->). exists v0. split; [|reflexivity].
    destruct (K2 v0 Hv0) as (G1 & G2). split; [now apply HI|]. intros a Haa. apply HI in Haa. destruct Haa as (i & Hi & <-). now apply G2.
  - rewrite R2. auto.
Qed.
Lemma yields_min t lowest greatest (P E : F -> Prop) (m : mem F) p n :
  in_range P E lowest greatest -> arg_ok m (mkArg p n) -> 0 < n -> (forall a, E a <-> exists i, i < n /\ el m (mkArg p n) i = a) ->
  yields (r_min_of t greatest p n) m (fun v => exists v0, smallest_of E v0 /\ v = if t then v0 else fmin v0 f0).
Proof.
  intros (W & P0 & PL & PG & HE) Ha Hn HI.
  destruct (@C26_min F SF greatest P m (mkArg p n) W PG Ha Hn) as (K1 & K2 & K3).
  { intros i Hi. cbn [a_len] in Hi. destruct (HE (el m (mkArg p n) i)) as (G1 & _ & G2); auto. apply HI. eauto. }
  destruct (@red_val_post (r_min greatest (mkArg p n)) (r_min_of t greatest p n) m) as (R1 & R2); auto.
  split; [|split].
  - destruct K1 as (v & Hv). eexists. apply R1. eauto.
  - intros v Hv. apply R1 in Hv. destruct Hv as (v0 & Hv0 & ->). exists v0. split; [|reflexivity].
    destruct (K2 v0 Hv0) as (G1 & G2). split; [now apply HI|]. intros a Haa. apply HI in Haa. destruct Haa as (i & Hi & <-). now apply G2.
  - rewrite R2. auto.
Qed.
Lemma yields_weaken (k : reduction (F := F)) m (Q Q' : F -> Prop) : (forall v, Q v -> Q' v) -> yields k m Q -> yields k m Q'.
Proof. intros H (A & B & C). split; [|split]; auto. Qed.

Lemma mat_arg (m : mem F) (A : marg) : mat_ok m A -> 0 < g_row A -> 0 < g_col A ->
  arg_ok m (mkArg (g_begin A) (g_nnz A)) /\ 0 < g_nnz A /\
  forall a, mat_elem m A a <-> exists i, i < g_nnz A /\ el m (mkArg (g_begin A) (g_nnz A)) i = a.
Proof.
  intros H Hr Hc. apply mat_ok_window in H. split; [exact H|]. split; [unfold g_nnz; nia|].
  intros a. unfold mat_elem, mel, mslot, el, g_nnz. cbn [a_ptr]. split.
  - intros (i & j & Hi & Hj & <-). exists (g_col A * i + j). split; [nia|reflexivity].
  - intros (k & Hk & <-). exists (k / g_col A), (k mod g_col A).
    split; [apply Nat.div_lt_upper_bound; lia|]. split; [apply Nat.mod_upper_bound; lia|]. rewrite <- Nat.div_mod by lia. reflexivity.
Qed.
Lemma tens_arg (m : mem F) (A : targ) : tens_ok m A -> 0 < prod (h_shape A) ->
  arg_ok m (mkArg (h_begin A) (h_nnz A)) /\ 0 < h_nnz A /\
  forall a, tens_elem m A a <-> exists i, i < h_nnz A /\ el m (mkArg (h_begin A) (h_nnz A)) i = a.
Proof.
  intros H Hn. apply tens_window in H. rewrite h_nnz_prod. split; [exact H|]. split; [exact Hn|].
  intros a. unfold tens_elem, tmel, tslot, el. cbn [a_ptr]. split.
  - intros (p & Hp & <-). exists (row_major (h_shape A) p). split; [now apply row_major_lt|reflexivity].
  - intros (k & Hk & <-). destruct (flat_pos _ Hk) as (p & Hp & <-). eauto.
Qed.

(** Dense and tensor_Dense: an element that no other exceeds / is below, under every schedule. *)
Theorem C94_dense (lowest greatest : F) (P : F -> Prop) (m : mem F) (A : marg) :
  mat_ok m A -> 0 < g_row A -> 0 < g_col A -> in_range P (mat_elem m A) lowest greatest ->
  yields (dense_max lowest A) m (greatest_of (mat_elem m A)) /\ yields (dense_min greatest A) m (smallest_of (mat_elem m A)).
Proof.
  intros H1 H2 H3 H4. destruct (mat_arg H1 H2 H3) as (G1 & G2 & G3). split.
  - eapply yields_weaken; [|apply (@yields_max true lowest greatest P (mat_elem m A) m _ _ H4 G1 G2 G3)]. cbn beta. intros v (v0 & G & ->). exact G.
  - eapply yields_weaken; [|apply (@yields_min true lowest greatest P (mat_elem m A) m _ _ H4 G1 G2 G3)]. cbn beta. intros v (v0 & G & ->). exact G.
Qed.
Theorem C94_tensor (lowest greatest : F) (P : F -> Prop) (m : mem F) (A : targ) :
  tens_ok m A -> 0 < prod (h_shape A) -> in_range P (tens_elem m A) lowest greatest ->
  yields (tens_max lowest A) m (greatest_of (tens_elem m A)) /\ yields (tens_min greatest A) m (smallest_of (tens_elem m A)).
Proof.
  intros H1 H2 H4. destruct (tens_arg H1 H2) as (G1 & G2 & G3). split.
  - eapply yields_weaken; [|apply (@yields_max true lowest greatest P (tens_elem m A) m _ _ H4 G1 G2 G3)]. cbn beta. intros v (v0 & G & ->). exact G.
  - eapply yields_weaken; [|apply (@yields_min true lowest greatest P (tens_elem m A) m _ _ H4 G1 G2 G3)]. cbn beta. intros v (v0 & G & ->). exact G.
Qed.

(** The other classes return the greatest of the stored values and 0 (the smallest of the stored values and 0). *)
Lemma greatest_zero (P E : F -> Prop) lo hi v0 : in_range P E lo hi -> greatest_of E v0 ->
  greatest_of (fun a => E a \/ a = f0) (fmax v0 f0) /\ ((exists a, E a /\ fltb a f0 = false) -> fmax v0 f0 = v0).
Proof.
  intros (W & P0 & _ & _ & HE) (H1 & H2). destruct W as (W1 & W2 & W3). unfold fmax. destruct (fltb v0 f0) eqn:E0.
  - split.
    + split; [auto|]. intros a [Ha| ->]; [|now apply W1].
      destruct (fltb f0 a) eqn:E1; auto. rewrite <- (H2 a Ha). symmetry. apply W2 with (b := f0); auto; now apply HE.
    + intros (a & Ha & Hn). exfalso. destruct (W3 v0 a f0) as [G|G]; auto; try (now apply HE).
      * rewrite H2 in G; auto; discriminate.
      * congruence.
  - split; [|auto]. split; [auto|]. intros a [Ha| ->]; auto.
Qed.
Lemma smallest_zero (P E : F -> Prop) lo hi v0 : in_range P E lo hi -> smallest_of E v0 ->
  smallest_of (fun a => E a \/ a = f0) (fmin v0 f0) /\ ((exists a, E a /\ fltb f0 a = false) -> fmin v0 f0 = v0).
Proof.
  intros (W & P0 & _ & _ & HE) (H1 & H2). destruct W as (W1 & W2 & W3). unfold fmin. destruct (fltb f0 v0) eqn:E0.
  - split.
    + split; [auto|]. intros a [Ha| ->]; [|now apply W1].
      destruct (fltb a f0) eqn:E1; auto. rewrite <- (H2 a Ha). symmetry. apply W2 with (b := f0); auto; now apply HE.
    + intros (a & Ha & Hn). exfalso. destruct (W3 f0 a v0) as [G|G]; auto; try (now apply HE).
      * congruence.
      * rewrite H2 in G; auto; discriminate.
  - split; [|auto]. split; [auto|]. intros a [Ha| ->]; auto.
Qed.
(** what a clamped call returns *)
Lemma yields_max0 lowest greatest (P E : F -> Prop) (m : mem F) p n :
  in_range P E lowest greatest -> arg_ok m (mkArg p n) -> 0 < n -> (forall a, E a <-> exists i, i < n /\ el m (mkArg p n) i = a) ->
  yields (r_max_of false lowest p n) m (fun v => greatest_of (fun a => E a \/ a = f0) v /\ ((exists a, E a /\ fltb a f0 = false) -> greatest_of E v)).
Proof.
  intros H1 H2 H3 H4. eapply yields_weaken; [|apply (@yields_max false lowest greatest P E m p n H1 H2 H3 H4)]. cbn beta.
  intros v (v0 & G & ->). destruct (greatest_zero H1 G) as (G1 & G2). split; auto. intros G3. now rewrite (G2 G3).
Qed.
Lemma yields_min0 lowest greatest (P E : F -> Prop) (m : mem F) p n :
  in_range P E lowest greatest -> arg_ok m (mkArg p n) -> 0 < n -> (forall a, E a <-> exists i, i < n /\ el m (mkArg p n) i = a) ->
  yields (r_min_of false greatest p n) m (fun v => smallest_of (fun a => E a \/ a = f0) v /\ ((exists a, E a /\ fltb f0 a = false) -> smallest_of E v)).
Proof.
  intros H1 H2 H3 H4. eapply yields_weaken; [|apply (@yields_min false lowest greatest P E m p n H1 H2 H3 H4)]. cbn beta.
  intros v (v0 & G & ->). destruct (smallest_zero H1 G) as (G1 & G2). split; auto. intros G3. now rewrite (G2 G3).
Qed.

(** Views: the greatest element if some element is not negative, otherwise 0 (C94_view_refuted); dually for the minimum. *)
Theorem C94_view_partial (lowest greatest : F) (P : F -> Prop) (m : mem F) (A : marg) :
  mat_ok m A -> 0 < g_row A -> 0 < g_col A -> in_range P (mat_elem m A) lowest greatest ->
  yields (view_dense_max lowest A) m (fun v => greatest_of (fun a => mat_elem m A a \/ a = f0) v /\
    ((exists a, mat_elem m A a /\ fltb a f0 = false) -> greatest_of (mat_elem m A) v)) /\
  yields (view_dense_min greatest A) m (fun v => smallest_of (fun a => mat_elem m A a \/ a = f0) v /\
    ((exists a, mat_elem m A a /\ fltb f0 a = false) -> smallest_of (mat_elem m A) v)).
Proof.
  intros H1 H2 H3 H4. destruct (mat_arg H1 H2 H3) as (G1 & G2 & G3).
  split; [eapply yields_max0|eapply yields_min0]; eauto.
Qed.
Theorem C94_tensor_view_partial (lowest greatest : F) (P : F -> Prop) (m : mem F) (A : targ) :
  tens_ok m A -> 0 < prod (h_shape A) -> in_range P (tens_elem m A) lowest greatest ->
  yields (view_tens_max lowest A) m (fun v => greatest_of (fun a => tens_elem m A a \/ a = f0) v /\
    ((exists a, tens_elem m A a /\ fltb a f0 = false) -> greatest_of (tens_elem m A) v)) /\
  yields (view_tens_min greatest A) m (fun v => smallest_of (fun a => tens_elem m A a \/ a = f0) v /\
    ((exists a, tens_elem m A a /\ fltb f0 a = false) -> smallest_of (tens_elem m A) v)).
Proof.
  intros H1 H2 H4. destruct (tens_arg H1 H2) as (G1 & G2 & G3).
  split; [eapply yields_max0|eapply yields_min0]; eauto.
Qed.

(** CRS and tensor_CRS: of the stored values and 0. *)
Lemma stored_arg (m : mem F) (l : list F) b f n : rd m b = Ok l -> f + n <= length l ->
  arg_ok m (mkArg (b, f) n) /\ forall a, (exists k, k < n /\ nth (f + k) l f0 = a) <-> exists i, i < n /\ el m (mkArg (b, f) n) i = a.
Proof.
  intros Hb Hl. assert (V : nth b m [] = l). { apply rd_inv in Hb. now apply nth_error_nth. }
  split.
  - intros i Hi. unfold valid. cbn in *. rewrite V. lia.
  - intros a. unfold el, cell. cbn. rewrite V. reflexivity.
Qed.
Theorem C94_sparse_partial (lowest greatest : F) (P : F -> Prop) (m : mem F) (b : nat) :
  (forall A : crs F, rd m b = Ok (m_val A) -> crs_ok A -> 0 < m_nnz A -> in_range P (crs_stored A) lowest greatest ->
     yields (crs_max lowest A b) m (greatest_of (fun a => crs_stored A a \/ a = f0)) /\
     yields (crs_min greatest A b) m (smallest_of (fun a => crs_stored A a \/ a = f0))) /\
  (forall A : tcrs F, rd m b = Ok (k_val A) -> k_first A + k_nnz A <= length (k_val A) -> 0 < k_nnz A -> in_range P (tr_stored A) lowest greatest ->
     yields (tr_max lowest A b) m (greatest_of (fun a => tr_stored A a \/ a = f0)) /\
     yields (tr_min greatest A b) m (smallest_of (fun a => tr_stored A a \/ a = f0))).
Proof.
  split; intros A Hb HA Hn HR.
  - destruct HA as (_ & _ & _ & _ & _ & _ & HL & HA).
    destruct (@stored_arg m (m_val A) b (m_first A) (m_nnz A) Hb) as (G1 & G2); [lia|].
    split.
    + eapply yields_weaken; [|exact (@yields_max0 lowest greatest P (crs_stored A) m _ _ HR G1 Hn G2)]. intros v (G & _). exact G.
    + eapply yields_weaken; [|exact (@yields_min0 lowest greatest P (crs_stored A) m _ _ HR G1 Hn G2)]. intros v (G & _). exact G.
  - destruct (@stored_arg m (k_val A) b (k_first A) (k_nnz A) Hb HA) as (G1 & G2).
    split.
    + eapply yields_weaken; [|exact (@yields_max0 lowest greatest P (tr_stored A) m _ _ HR G1 Hn G2)]. intros v (G & _). exact G.
    + eapply yields_weaken; [|exact (@yields_min0 lowest greatest P (tr_stored A) m _ _ HR G1 Hn G2)]. intros v (G & _). exact G.
Qed.

(** For a CRS matrix that stores no position twice and leaves one position unstored this is the greatest / smallest element of the matrix. *)
Lemma crs_elem_stored (A : crs F) : crs_ok A -> nodup_pos (crs_entries A) ->
  (exists i j, i < m_row A /\ j < m_col A /\ ~ In (i, j) (map fst (crs_entries A))) ->
  forall a, crs_elem_in A a <-> crs_stored A a \/ a = f0.
Proof.
  intros W ND (i0 & j0 & Hi0 & Hj0 & N0) a. pose (D := (0, 0, f0) : nat * nat * F). split.
  - intros (i & j & Hi & Hj & <-). unfold crs_elem. destruct (last_wins_in (crs_entries A) i j) as (H1 & H2).
    destruct (in_dec (fun p q : nat * nat => ltac:(decide equality; apply Nat.eq_dec)) (i, j) (map fst (crs_entries A))) as [G|G].
    + left. apply in_map_iff in G. destruct G as (((r & c) & v) & E & G). cbn in E. injection E as -> ->.
      assert (K : In (i, j, last_wins (crs_entries A) i j) (crs_entries A)) by (apply H1; eauto).
      apply (In_nth _ _ D) in K. destruct K as (k & Hk & K). rewrite crs_entries_length in Hk by auto.
      destruct (crs_entries_ex W Hk) as (i' & _ & _ & E). exists k. split; auto. unfold D in K. rewrite E in K. congruence.
    + right. apply last_wins_notin; auto.
  - intros [(k & Hk & <-)| ->].
    + destruct (crs_entries_ex W Hk) as (i & Hi & _ & E). exists i, (cin A k). split; auto. split; [now apply cin_lt|].
      assert (K : In (i, cin A k, vln A k) (crs_entries A)). { rewrite <- E. apply nth_In. now rewrite crs_entries_length. }
      destruct (last_wins_in (crs_entries A) i (cin A k)) as (H1 & _). unfold crs_elem.
      assert (K2 : In (i, cin A k, last_wins (crs_entries A) i (cin A k)) (crs_entries A)) by (apply H1; eauto).
      clear E N0 H1. revert ND K K2. unfold nodup_pos. generalize (last_wins (crs_entries A) i (cin A k)). generalize (vln A k). generalize (cin A k).
      induction (crs_entries A) as [|((r & c) & v) ts IH]; cbn [map fst In]; [tauto|]. intros j v1 v2 ND K K2.
      apply NoDup_cons_iff in ND. destruct ND as (ND1 & ND2).
      destruct K as [K|K], K2 as [K2|K2]; [congruence| | |now apply (IH j v1 v2)].
      * exfalso. apply ND1. injection K as -> -> ->. change (i, j) with (fst (i, j, v2)). now apply in_map.
      * exfalso. apply ND1. injection K2 as -> -> ->. change (i, j) with (fst (i, j, v1)). now apply in_map.
    + exists i0, j0. split; auto. split; auto. unfold crs_elem. now apply last_wins_notin.
Qed.
Lemma greatest_iff (E E' : F -> Prop) v : (forall a, E a <-> E' a) -> (greatest_of E v <-> greatest_of E' v) /\ (smallest_of E v <-> smallest_of E' v).
Proof. intros H. unfold greatest_of, smallest_of. rewrite H. split; split; intros (H1 & H2); split; auto; intros a Ha; apply H2; now apply H. Qed.
Theorem C94_crs_elements_partial (lowest greatest : F) (P : F -> Prop) (m : mem F) (b : nat) (A : crs F) :
  rd m b = Ok (m_val A) -> crs_ok A -> 0 < m_nnz A -> in_range P (crs_stored A) lowest greatest ->
  nodup_pos (crs_entries A) -> (exists i j, i < m_row A /\ j < m_col A /\ ~ In (i, j) (map fst (crs_entries A))) ->
  yields (crs_max lowest A b) m (greatest_of (crs_elem_in A)) /\ yields (crs_min greatest A b) m (smallest_of (crs_elem_in A)).
Proof.
  intros H1 H2 H3 H4 H5 H6. destruct (@C94_sparse_partial lowest greatest P m b) as (S & _). destruct (S A H1 H2 H3 H4) as (S1 & S2).
  split; (eapply yields_weaken; [|eassumption]); intros v; apply greatest_iff; intros a; apply (@crs_elem_stored A H2 H5 H6).
Qed.
End C94.
Print Assumptions C94_dense.
Print Assumptions C94_tensor.
Print Assumptions C94_view_partial.
Print Assumptions C94_tensor_view_partial.
Print Assumptions C94_sparse_partial.
Print Assumptions C94_crs_elements_partial.

Local Existing Instance b64scalar.
(** Doubles that are not NaN are in range. *)
Theorem C94_double (m : mem b64) (A : marg) : mat_ok m A -> 0 < g_row A -> 0 < g_col A ->
  (forall i j, i < g_row A -> j < g_col A -> @fnan b64 b64scalar (mel m A i j) = false) ->
  yields (dense_max ninf A) m (greatest_of (mat_elem m A)) /\ yields (dense_min pinf A) m (smallest_of (mat_elem m A)).
Proof.
  intros H1 H2 H3 H4. apply (@C94_dense b64 b64scalar ninf pinf (fun x => @fnan b64 b64scalar x = false) m A H1 H2 H3).
  split; [exact b64_weak_order|]. do 3 (split; [reflexivity|]). intros a (i & j & Hi & Hj & <-). specialize (H4 i j Hi Hj). split; auto.
  destruct (mel m A i j) as [s|[|]| |s e f]; try discriminate; split; auto; right; try (destruct s); reflexivity.
Qed.
Print Assumptions C94_double.

Lemma Z_weak_order : @weak_order Z Zscalar (fun _ => True).
Proof.
  split; [|split].
  - intros a _. apply Z.ltb_irrefl.
  - intros a b c _ _ _ H1 H2. cbn in *. apply Z.ltb_lt in H1, H2. apply Z.ltb_lt. lia.
  - intros a b c _ _ _ H. cbn in *. apply Z.ltb_lt in H. destruct (Z.ltb_spec a b); auto. right. apply Z.ltb_lt. lia.
Qed.
Theorem C94_example : let A := mkMarg (0,0) 1 2 2 in let m := [[9;-3;5;-7;2]]%Z in
  mat_ok m A /\ in_range (fun _ => True) (mat_elem m A) (-100)%Z 100%Z /\ red_val (dense_max (-100)%Z A) m 5%Z /\ red_val (dense_min 100%Z A) m (-7)%Z.
Proof.
  cbn zeta. split; [apply mat_ok_window; intros k Hk; cbn in *; unfold valid; cbn; lia|].
  split.
  - split; [exact Z_weak_order|]. do 3 (split; [exact I|]). intros a (i & j & Hi & Hj & <-). cbn in Hi, Hj. split; [exact I|].
    assert (i = 0 \/ i = 1) as [-> | ->] by lia; assert (j = 0 \/ j = 1) as [-> | ->] by lia; vm_compute; auto.
  - split; split; auto.
    + exists (-3)%Z, [[0;1;2;3]], [5%Z], 5%Z. split; [reflexivity|]. split; [apply dist_one|].
      split; [repeat constructor|]. split; [|reflexivity]. exact (@combine_two Z fmax (-3)%Z 5%Z).
    + exists (-3)%Z, [[0;1;2;3]], [(-7)%Z], (-7)%Z. split; [reflexivity|]. split; [apply dist_one|].
      split; [repeat constructor|]. split; [|reflexivity]. exact (@combine_two Z fmin (-3)%Z (-7)%Z).
Qed.
(** False of the code: the maximum of a view whose elements are all negative is 0, although the same elements in a Dense matrix give the right
    answer; dually the minimum of a view whose elements are all positive is 0. *)
Theorem C94_view_refuted {F} {SF : Scalar F} (lowest greatest : F) (P : F -> Prop) (m : mem F) (A : marg) :
  mat_ok m A -> 0 < g_row A -> 0 < g_col A -> in_range P (mat_elem m A) lowest greatest ->
  ((forall a, mat_elem m A a -> fltb a f0 = true) ->
   forall v, red_val (view_dense_max lowest A) m v -> v = f0 /\ ~ mat_elem m A v) /\
  ((forall a, mat_elem m A a -> fltb f0 a = true) ->
   forall v, red_val (view_dense_min greatest A) m v -> v = f0 /\ ~ mat_elem m A v).
Proof.
  intros H1 H2 H3 H4. destruct (mat_arg H1 H2 H3) as (G1 & G2 & G3). pose proof H4 as ((W1 & _) & P0 & _).
  split; intros HN v Hv.
  - destruct (@yields_max F SF false lowest greatest P (mat_elem m A) m _ _ H4 G1 G2 G3) as (_ & K & _).
    destruct (K v Hv) as (v0 & (K1 & _) & ->). unfold fmax. rewrite (HN v0 K1). split; auto. intros E. pose proof (HN _ E). rewrite W1 in *; auto; discriminate.
  - destruct (@yields_min F SF false lowest greatest P (mat_elem m A) m _ _ H4 G1 G2 G3) as (_ & K & _).
    destruct (K v Hv) as (v0 & (K1 & _) & ->). unfold fmin. rewrite (HN v0 K1). split; auto. intros E. pose proof (HN _ E). rewrite W1 in *; auto; discriminate.
Qed.
Print Assumptions C94_view_refuted.
(** a reachable case: a 1 x 2 view of (-3, -5) gives 0 *)
Theorem C94_view_refuted_example : let A := mkMarg (0,0) 0 1 2 in let m := [[-3;-5]]%Z in
  mat_ok m A /\ (forall a, mat_elem m A a -> fltb a f0 = true) /\ red_val (view_dense_max (-100)%Z A) m 0%Z /\ red_val (dense_max (-100)%Z A) m (-3)%Z.
Proof.
  cbn zeta. split; [apply mat_ok_window; intros k Hk; cbn in *; unfold valid; cbn; lia|].
  split.
  - intros a (i & j & Hi & Hj & <-). cbn in Hi, Hj. assert (i = 0) as -> by lia. assert (j = 0 \/ j = 1) as [-> | ->] by lia; reflexivity.
  - split; split; auto; exists (-3)%Z, [[0;1]], [(-3)%Z], (-3)%Z; (split; [reflexivity|]); (split; [apply dist_one|]);
      (split; [repeat constructor|]); (split; [|reflexivity]); exact (@combine_two Z fmax (-3)%Z (-3)%Z).
Qed.
(** False of the code: max(C[0:nnz]) of a CRS matrix without unstored positions and with only negative values is 0. *)
Theorem C94_crs_refuted : exists (A : crs Z), crs_ok A /\ nodup_pos (crs_entries A) /\ crs_entries A = [(0, 0, (-4)%Z)] /\ m_row A = 1 /\ m_col A = 1 /\
  red_val (crs_max (-100)%Z A 0) [m_val A] 0%Z.
Proof.
  exists (mkCrs 1 1 [0;1] [0] [(-4)%Z] 0 1 1 true 0%N).
  split. { unfold crs_ok, rpn, cin. cbn. repeat split; auto; try lia; intros [|i] H; cbn; lia. }
  split; [constructor; [intros []|constructor]|]. split; [reflexivity|]. do 2 (split; [reflexivity|]).
  split; auto. exists (-4)%Z, [[0]], [(-4)%Z], (-4)%Z. split; [reflexivity|]. split; [apply dist_one|].
  split; [repeat constructor|]. split; [|reflexivity]. exact (@combine_two Z fmax (-4)%Z (-4)%Z).
Qed.
(** False of the code: a matrix without elements; the call reads element 0. *)
Theorem C94_empty_refuted : exists (A : marg) (m : mem Z), mat_ok m A /\ g_row A = 0 /\ red_fault (dense_max (-100)%Z A) m /\
  forall v, ~ red_val (dense_max (-100)%Z A) m v.
Proof.
  exists (mkMarg (0,0) 0 0 3), [[]]. split; [intros i j Hi; cbn in Hi; lia|]. split; [reflexivity|]. split.
  - left. intros (o & H). discriminate H.
  - intros v (_ & o & d & ps & c & H & _). discriminate H.
Qed.
Print Assumptions C94_crs_refuted.
Print Assumptions C94_empty_refuted.

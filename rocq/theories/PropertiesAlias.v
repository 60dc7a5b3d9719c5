(** * PropertiesAlias: C112, calls whose result is also, or overlaps, an operand. *)
From Coq Require Import Ring.
From Verif Require Import Base Scalar Spec Loops Mem MemSpec ParProof KernelProof VecModel VecSpec DenseModel CooModel Observe CooProof CooMiscProof CrsModel CrsObserve
  CrsProof CrsMiscProof CrsParModel CrsParProof CrsBlasProof AliasModel.
Set Implicit Arguments.

(** ** Vocabulary *)
Section Spec.
Context {F : Type} {SF : Scalar F}.
(** the values of A lie in memory from [pA] on *)
Definition values_at (m : Mem.mem F) (A : crs F) (pA : ptr) : Prop :=
  window m pA (m_nnz A) /\ forall k, k < m_nnz A -> cell m (padd pA k) = vln A k.
(** the values of A are not among the elements of y *)
Definition values_apart (A : crs F) (pA : ptr) (y : arg) : Prop :=
  forall k i, k < m_nnz A -> i < a_len y -> padd pA k <> padd (a_ptr y) i.
(** no row of A reads an element of x that another row writes in y *)
Definition no_conflict (A : crs F) (x y : arg) : Prop :=
  forall i j c v, i < m_row A -> j < m_row A -> j <> i -> In (c, v) (crs_row A i) -> padd (a_ptr x) c <> padd (a_ptr y) j.
Definition apart (x y : arg) : Prop := forall i j, i < a_len x -> j < a_len y -> padd (a_ptr x) i <> padd (a_ptr y) j.
(** the elements of an argument *)
Definition contents (m : Mem.mem F) (x : arg) : list F := elems m (a_ptr x) (a_len x).
End Spec.

Section C112.
Context {F : Type} {SF : Scalar F}.
Notation mem := (Mem.mem F).

Lemma contents_nth (m : mem) x c : c < a_len x -> fn (contents m x) c = cell m (padd (a_ptr x) c).
Proof. intros H. unfold fn, contents, elems. now rewrite nth_map_seq by auto. Qed.
Lemma contents_len (m : mem) x : length (contents m x) = a_len x.
Proof. unfold contents, elems. now rewrite map_length, seq_length. Qed.

Lemma row_in (A : crs F) i k : rpn A i <= k < rpn A (i + 1) -> In (cin A k, vln A k) (crs_row A i).
Proof. intros H. unfold crs_row. apply in_map_iff. exists k. split; auto. apply in_seq. lia. Qed.
Lemma row_of_in (A : crs F) i p : In p (crs_row A i) -> exists k, rpn A i <= k < rpn A (i + 1) /\ p = (cin A k, vln A k).
Proof. unfold crs_row. intros H. apply in_map_iff in H. destruct H as (k & <- & H). apply in_seq in H. exists k. split; auto. lia. Qed.

Lemma run_a_matvec (A : crs F) pA px py i (m1 : mem) (xs : list F) :
  crs_ok A -> i < m_row A -> valid m1 (padd py i) ->
  (forall k, rpn A i <= k < rpn A (i + 1) -> k < m_nnz A -> valid m1 (padd pA k) /\ cell m1 (padd pA k) = vln A k) ->
  (forall k, rpn A i <= k < rpn A (i + 1) -> k < m_nnz A -> valid m1 (padd px (cin A k)) /\ cell m1 (padd px (cin A k)) = fn xs (cin A k)) ->
  run (a_matvec A pA px py i) m1 = Ok (mset m1 (padd py i) (row_dot (crs_row A i) xs), tt).
Proof.
  intros W Hi Hv HA Hx. unfold a_matvec, p_range.
  rewrite !rd_rp by (auto; lia). cbn [plift pbind]. rewrite run_pbind.
  rewrite (@run_pfor_loc F F m1 _ _ (fun k t =>
     if (k <? m_nnz A) then Ok (fadd t (fmul (vln A k) (fn xs (cin A k)))) else UB) _ _ (row_dot (crs_row A i) xs)).
  - cbn [bind run]. rewrite st_ok by auto. reflexivity.
  - intros k t t' Hk. destruct (Nat.ltb_spec k (m_nnz A)) as [Hn|]; [|discriminate]. intros E; injection E as <-.
    destruct (HA k Hk Hn) as [V1 E1]. destruct (Hx k Hk Hn) as [V2 E2].
    cbn [run]. rewrite ld_ok by auto. cbn [bind]. rewrite rd_ci by auto. cbn [plift pbind run]. rewrite ld_ok by auto.
    cbn [bind run]. now rewrite E1, E2.
  - unfold row_dot. apply (@crs_row_fold F SF F (fun t p => fadd t (fmul (snd p) (fn xs (fst p))))); auto.
    intros k t Hk Hn. rewrite (proj2 (Nat.ltb_lt _ _) Hn). reflexivity.
Qed.

Lemma row_range (A : crs F) i k : crs_ok A -> i < m_row A -> rpn A i <= k < rpn A (i + 1) -> k < m_nnz A.
Proof.
  intros W Hi Hk. destruct W as (_ & _ & Hm & He & _).
  assert (G : forall d, i + 1 + d <= m_row A -> rpn A (i + 1) <= rpn A (i + 1 + d)).
  { induction d as [|d IH]; intros Hd; [now rewrite Nat.add_0_r|]. etransitivity; [apply IH; lia|].
    replace (i + 1 + S d) with (i + 1 + d + 1) by lia. apply Hm. lia. }
  specialize (G (m_row A - (i + 1))). replace (i + 1 + (m_row A - (i + 1))) with (m_row A) in G by lia. lia.
Qed.

(** matvec(A,x,y), whatever x and y share: if no row reads what another row writes, the call is the product for every
    distribution of the rows over threads and every interleaving, and touches nothing else. *)
Theorem C112_matvec_no_conflict (A : crs F) (pA : ptr) (x y : arg) (m : mem) :
  crs_ok A -> a_len x = m_col A -> a_len y = m_row A -> values_at m A pA -> values_apart A pA y ->
  arg_ok m x -> arg_ok m y -> no_conflict A x y ->
  computes (k_matvec A pA x y) m y (fun i => row_dot (crs_row A i) (contents m x)).
Proof.
  intros W Hx Hy (VA & EA) VAp Ox Oy NC.
  destruct (@slot_kernel F SF (m_row A) (padd (a_ptr y)) (a_matvec A pA (a_ptr x) (a_ptr y))
    (fun i => row_dot (crs_row A i) (contents m x))
    (fun i p => (exists k, k < m_nnz A /\ p = padd pA k) \/ exists c v, In (c, v) (crs_row A i) /\ p = padd (a_ptr x) c) m)
    as (m' & H1 & H2 & H3 & H4 & H5).
  - intros i j _ _ E. eapply padd_inj; eauto.
  - intros i Hi. apply Oy. lia.
  - intros i Hi. unfold a_matvec. apply fp_range. intros lo hi El Eh. rewrite rd_rp in El, Eh by (auto; lia).
    injection El as <-. injection Eh as <-. apply fp_bind.
    + apply fp_pfor. intros k s Hk. assert (Hn := row_range W Hi Hk). cbn [fp]. split; [left; eauto|].
      intros v. rewrite rd_ci by auto. cbn [plift pbind fp]. split; auto. right.
      exists (cin A k), (vln A k). split; auto. now apply row_in.
    + intros t. cbn. auto.
  - intros i j Hi Hj Hij [(k & Hk & E)|(c & v & Hc & E)].
    + apply (VAp k i); auto. lia.
    + apply (NC j i c v); auto.
  - intros i m1 Hi HS Hag. apply run_a_matvec; auto.
    + eapply shape_valid; eauto. apply Oy. lia.
    + intros k _ Hk. split; [eapply shape_valid; eauto|]. rewrite Hag; auto.
      intros j Hj _ E. symmetry in E. revert E. apply VAp; auto. lia.
    + intros k Hk Hn. assert (Hc := cin_lt W Hn). split; [eapply shape_valid; eauto; apply Ox; lia|].
      rewrite contents_nth by lia. apply Hag. intros j Hj Hji E. apply (NC i j (cin A k) (vln A k)); auto. now apply row_in.
  - exists m'. split; [split; [|exact H1]|split].
    + cbn [k_assert k_matvec]. rewrite Hx, Hy, !Nat.eqb_refl. reflexivity.
    + unfold kernel_seq, k_matvec. cbn [k_assert k_n k_body]. rewrite Hx, Hy, !Nat.eqb_refl. exact H2.
    + unfold written. rewrite Hy. auto.
Qed.

(** apart: no overlap at all *)
Theorem C112_matvec_apart (A : crs F) (pA : ptr) (x y : arg) (m : mem) :
  crs_ok A -> a_len x = m_col A -> a_len y = m_row A -> values_at m A pA -> values_apart A pA y ->
  arg_ok m x -> arg_ok m y -> apart x y ->
  computes (k_matvec A pA x y) m y (fun i => row_dot (crs_row A i) (contents m x)).
Proof.
  intros W Hx Hy V1 V2 O1 O2 H. apply C112_matvec_no_conflict; auto.
  intros i j c v Hi Hj _ Hc. apply H; [|lia]. apply row_of_in in Hc. destruct Hc as (k & Hk & E). injection E as -> ->.
  rewrite Hx. apply cin_lt; auto. apply (@row_range A i); auto.
Qed.

(** in place with a diagonal matrix: correct under every schedule *)
Theorem C112_matvec_diagonal (A : crs F) (pA : ptr) (x : arg) (m : mem) :
  crs_ok A -> a_len x = m_col A -> a_len x = m_row A -> values_at m A pA -> values_apart A pA x -> arg_ok m x ->
  (forall i c v, i < m_row A -> In (c, v) (crs_row A i) -> c = i) ->
  computes (k_matvec A pA x x) m x (fun i => row_dot (crs_row A i) (contents m x)).
Proof.
  intros W Hx Hy V1 V2 O1 H. apply C112_matvec_no_conflict; auto.
  intros i j c v Hi Hj Hij Hc E. apply padd_inj in E. apply H in Hc; auto. congruence.
Qed.

(** in place with any square matrix, one thread: row i sees the new values of the elements before i and the old ones from
    i on - a Gauss-Seidel-like sweep, not the product.  Missing (false, C112_matvec_refuted): it is the product. *)
Theorem C112_matvec_in_place_partial (A : crs F) (pA : ptr) (x : arg) (m : mem) :
  crs_ok A -> a_len x = m_col A -> a_len x = m_row A -> values_at m A pA -> values_apart A pA x -> arg_ok m x ->
  exists m', kernel_seq (k_matvec A pA x x) m = Ok m' /\
    written m m' (a_ptr x) (a_len x) (fun i => row_dot (crs_row A i) (firstn i (contents m' x) ++ skipn i (contents m x))).
Proof.
  intros W Hc Hr (VA & EA) VAp Ox. unfold kernel_seq, k_matvec. cbn [k_assert k_n k_body].
  rewrite <- Hc, <- Hr, !Nat.eqb_refl. cbn [andb assert_ bind]. unfold seq_for.
  set (mix := fun (mi : mem) i => firstn i (contents mi x) ++ skipn i (contents m x)).
  destruct (@for0_inv mem (fun i mi => same_shape m mi /\
      (forall k, k < i -> cell mi (padd (a_ptr x) k) = row_dot (crs_row A k) (mix mi k)) /\
      (forall k, i <= k < a_len x -> cell mi (padd (a_ptr x) k) = cell m (padd (a_ptr x) k)) /\
      (forall p, (forall k, k < a_len x -> padd (a_ptr x) k <> p) -> cell mi p = cell m p)) (a_len x)
    (fun i m => '(m', _) <- run (a_matvec A pA (a_ptr x) (a_ptr x) i) m ;; Ok m') m) as (m' & E & HS & H1 & H2 & H3).
  - split; [apply same_shape_refl|]. split; [intros; lia|]. split; auto.
  - intros i mi Hi (HS & G1 & G2 & G3).
    assert (Vi : forall k, k < a_len x -> valid mi (padd (a_ptr x) k)) by (intros k Hk; eapply shape_valid; eauto).
    rewrite (@run_a_matvec A pA (a_ptr x) (a_ptr x) i mi (mix mi i)); auto; try lia.
    + cbn [bind]. eexists. split; [reflexivity|]. split; [eapply same_shape_trans; [exact HS|apply mset_shape]|].
      assert (Ho : forall k, k < a_len x -> k <> i -> cell (mset mi (padd (a_ptr x) i) (row_dot (crs_row A i) (mix mi i))) (padd (a_ptr x) k) = cell mi (padd (a_ptr x) k)).
      { intros k Hk Hn. apply cell_mset_other; auto. intros E. apply padd_inj in E. auto. }
      assert (Hm : forall k, k <= i -> mix (mset mi (padd (a_ptr x) i) (row_dot (crs_row A i) (mix mi i))) k = mix mi k).
      { intros k Hk. unfold mix. f_equal. apply (@list_ext F f0).
        - rewrite !firstn_length, !contents_len. auto.
        - intros j Hj. rewrite firstn_length, contents_len in Hj. rewrite !nth_firstn by lia.
          change (fn (contents (mset mi (padd (a_ptr x) i) (row_dot (crs_row A i) (mix mi i))) x) j = fn (contents mi x) j).
          rewrite !contents_nth by lia. apply Ho; lia. }
      split; [|split].
      * intros k Hk. destruct (Nat.eq_dec k i) as [->|Hn].
        -- rewrite cell_mset_same by auto. now rewrite Hm.
        -- rewrite Ho, Hm by lia. apply G1. lia.
      * intros k Hk. rewrite Ho by lia. apply G2. lia.
      * intros p Hp. rewrite cell_mset_other; auto.
    + intros k _ Hk. split; [eapply shape_valid; eauto|]. rewrite G3; auto. intros j Hj E. symmetry in E. revert E. now apply VAp.
    + intros k Hk Hn. assert (Hk' := cin_lt W Hn). assert (L : cin A k < a_len x) by lia. split; [now apply Vi|].
      unfold mix, fn. destruct (Nat.lt_ge_cases (cin A k) i) as [Hlt|Hge].
      * rewrite app_nth1 by (rewrite firstn_length, contents_len; lia). rewrite nth_firstn by lia. now rewrite <- (contents_nth mi x L).
      * rewrite app_nth2 by (rewrite firstn_length, contents_len; lia). rewrite firstn_length, contents_len, nth_skipn.
        replace (i + (cin A k - Nat.min i (a_len x))) with (cin A k) by lia. rewrite G2 by lia. now rewrite <- (contents_nth m x L).
  - exists m'. split; [exact E|]. split; [exact HS|]. split; [intros i Hi; now apply H1|exact H3].
Qed.

(** ... which is the product when no row reads an element before its own (upper triangular), with one thread *)
Theorem C112_matvec_upper (A : crs F) (pA : ptr) (x : arg) (m : mem) :
  crs_ok A -> a_len x = m_col A -> a_len x = m_row A -> values_at m A pA -> values_apart A pA x -> arg_ok m x ->
  (forall i c v, i < m_row A -> In (c, v) (crs_row A i) -> i <= c) ->
  exists m', kernel_seq (k_matvec A pA x x) m = Ok m' /\
    written m m' (a_ptr x) (a_len x) (fun i => row_dot (crs_row A i) (contents m x)).
Proof.
  intros W Hc Hr V1 V2 O H. destruct (@C112_matvec_in_place_partial A pA x m) as (m' & E & HS & H1 & H2); auto.
  exists m'. split; auto. split; auto. split; auto. intros i Hi. rewrite H1 by auto. unfold row_dot.
  assert (G : forall p, In p (crs_row A i) -> fn (firstn i (contents m' x) ++ skipn i (contents m x)) (fst p) = fn (contents m x) (fst p)).
  { intros [c v] Hp. cbn [fst]. assert (Hic := H i c v ltac:(lia) Hp). unfold fn.
    assert (Lf : length (firstn i (contents m' x)) = i) by (rewrite firstn_length, contents_len; lia).
    rewrite app_nth2 by lia. rewrite Lf, nth_skipn. f_equal. lia. }
  revert G. generalize (crs_row A i). intros l. generalize f0. intros t. revert t.
  induction l as [|p l IH]; intros t G; cbn [fold_left]; auto. rewrite G by (cbn; auto). apply IH. intros q Hq. apply G. cbn; auto.
Qed.

(** matvec_T(A,x,x), exact arithmetic: y is cleared before x is read, so the result is the zero vector whatever A and x are *)
Theorem C112_matvec_T_zero (Hex : exact SF) (A : crs F) (pA : ptr) (x : arg) (m : mem) :
  crs_ok A -> a_len x = m_col A -> a_len x = m_row A -> values_at m A pA -> values_apart A pA x -> arg_ok m x ->
  exists m', alias_matvec_T A pA x x m = Ok m' /\ written m m' (a_ptr x) (a_len x) (fun _ => f0).
Proof.
  intros W Hc Hr (VA & EA) VAp Ox. unfold alias_matvec_T. rewrite <- Hc, <- Hr, !Nat.eqb_refl. cbn [andb assert_ bind].
  destruct (@map0_result F SF f0 (a_ptr x) (a_len x) m Ox) as (m0 & _ & E0 & S0 & Z0 & N0). rewrite E0. cbn [bind].
  assert (Hz : forall v, fadd f0 (fmul v f0) = f0).
  { pose proof Hex as Hrt. unfold exact in Hrt. intros v. rewrite (Radd_0_l Hrt). rewrite (Rmul_comm Hrt).
    assert (Hrr := Eqsth F).
    assert (Hre : ring_eq_ext fadd fmul fopp (@eq F)) by (constructor; congruence).
    exact (ARmul_0_l (Rth_ARth Hrr Hre Hrt) v). }
  unfold seq_for.
  set (Inv := fun mi : mem => same_shape m mi /\ (forall k, k < a_len x -> cell mi (padd (a_ptr x) k) = f0) /\
      (forall p, (forall k, k < a_len x -> padd (a_ptr x) k <> p) -> cell mi p = cell m p)).
  destruct (@for0_inv mem (fun _ mi => Inv mi) (a_len x)
    (fun i m => '(m', _) <- run (a_matvec_T A pA (a_ptr x) (a_ptr x) i) m ;; Ok m') m0) as (m' & E & I).
  - repeat split; auto.
  - intros i mi Hi I. unfold a_matvec_T, p_range. rewrite !rd_rp by (auto; lia). cbn [plift pbind]. rewrite run_pfor.
    assert (Hm := proj1 (proj2 (proj2 W)) i ltac:(lia)).
    destruct (@for_inv (mem * unit) (fun _ st => Inv (fst st)) (rpn A i) (rpn A (i + 1))
      (fun j st => run (c <~ plift (rd (m_ci A) j) ;; y0 <-- padd (a_ptr x) c ;; v <-- padd pA j ;; xi <-- padd (a_ptr x) i ;;
         padd (a_ptr x) c <== fadd y0 (fmul v xi) ;; Ret tt) (fst st)) (mi, tt)) as ((m2 & []) & E2 & I2); auto.
    + intros j [m1 []] Hj (S1 & Z1 & O1). cbn [fst] in *.
      assert (Hn : j < m_nnz A) by (apply (@row_range A i); auto; lia).
      assert (Hcj := cin_lt W Hn). assert (L : cin A j < a_len x) by lia.
      assert (V1 : forall k, k < a_len x -> valid m1 (padd (a_ptr x) k)) by (intros k Hk; eapply shape_valid; eauto).
      rewrite rd_ci by auto. cbn [plift pbind run]. rewrite ld_ok by auto. cbn [bind].
      rewrite ld_ok by (eapply shape_valid; eauto). cbn [bind]. rewrite ld_ok by auto. cbn [bind].
      rewrite !Z1 by auto. rewrite Hz. rewrite st_ok by auto. cbn [bind]. eexists. split; [reflexivity|]. cbn [fst].
      split; [eapply same_shape_trans; [exact S1|apply mset_shape]|]. split.
      * intros k Hk. rewrite cell_mset by auto. destruct (ptr_eqb (padd (a_ptr x) (cin A j)) (padd (a_ptr x) k)); auto.
      * intros p Hp. rewrite cell_mset_other; auto.
    + rewrite E2. cbn [bind]. eauto.
  - exists m'. split; [exact E|]. destruct I as (S1 & Z1 & O1). repeat split; auto.
Qed.

(** column j of an n x N matrix stored from [p] on *)
Definition column (m : mem) (p : ptr) (n N j : nat) : list F := map (fun i => cell m (padd p (i * N + j))) (seq 0 n).
Lemma column_len m p n N j : length (column m p n N j) = n.
Proof. unfold column. now rewrite map_length, seq_length. Qed.
Lemma column_nth m p n N j i : i < n -> nth i (column m p n N j) f0 = cell m (padd p (i * N + j)).
Proof. intros H. unfold column. now rewrite nth_map_seq by auto. Qed.

Lemma run_column (a b : F) (A : crs F) (pA p : ptr) (n N j : nat) (m1 : mem) :
  crs_ok A -> m_row A = n -> m_col A = n -> j < N ->
  (forall q, q < n * N -> valid m1 (padd p q)) ->
  (forall k, k < m_nnz A -> valid m1 (padd pA k) /\ cell m1 (padd pA k) = vln A k) ->
  (forall k q, k < m_nnz A -> q < n * N -> padd pA k <> padd p q) ->
  exists m2, run (a_matmul a A b N pA p p j) m1 = Ok (m2, tt) /\ same_shape m1 m2 /\
    (forall i, i < n -> cell m2 (padd p (i * N + j)) =
       fadd (fmul a (row_dot (crs_row A i) (firstn i (column m2 p n N j) ++ skipn i (column m1 p n N j)))) (fmul b (cell m1 (padd p (i * N + j))))) /\
    (forall q, (forall i, i < n -> padd p (i * N + j) <> q) -> cell m2 q = cell m1 q).
Proof.
  intros W Hr Hc Hj Vp VA Ap. unfold a_matmul. rewrite run_pfor, Hr.
  set (mix := fun (mi : mem) i => firstn i (column mi p n N j) ++ skipn i (column m1 p n N j)).
  assert (IN : forall i, i < n -> i * N + j < n * N) by (intros i Hi; nia).
  match goal with |- context [for_ 0 n ?bd _] => set (body := bd) end.
  destruct (@for0_inv (mem * unit) (fun i st => let mi := fst st in same_shape m1 mi /\
      (forall k, k < i -> cell mi (padd p (k * N + j)) = fadd (fmul a (row_dot (crs_row A k) (mix mi k))) (fmul b (cell m1 (padd p (k * N + j))))) /\
      (forall k, i <= k < n -> cell mi (padd p (k * N + j)) = cell m1 (padd p (k * N + j))) /\
      (forall q, (forall k, k < n -> padd p (k * N + j) <> q) -> cell mi q = cell m1 q)) n body (m1, tt)) as ((m2 & []) & E & S2 & H1 & _ & H3).
  - cbn [fst]. split; [apply same_shape_refl|]. split; [intros; lia|]. auto.
  - intros i [mi []] Hi (S1 & G1 & G2 & G3). cbn [fst] in *. unfold body. cbn [fst snd].
    assert (Vi : forall q, q < n * N -> valid mi (padd p q)) by (intros q Hq; eapply shape_valid; eauto).
    unfold p_range. rewrite !rd_rp by (auto; lia). cbn [plift pbind]. rewrite run_pbind.
    rewrite (@run_pfor_loc F F mi _ _ (fun k t =>
       if (k <? m_nnz A) then Ok (fadd t (fmul (vln A k) (fn (mix mi i) (cin A k)))) else UB) _ _ (row_dot (crs_row A i) (mix mi i))).
    + cbn [bind run]. rewrite ld_ok by auto. cbn [bind]. rewrite st_ok by auto. cbn [bind].
      eexists. split; [reflexivity|]. cbn [fst]. rewrite (G2 i) by lia.
      set (nv := fadd _ _). split; [eapply same_shape_trans; [exact S1|apply mset_shape]|].
      assert (Ho : forall k, k < n -> k <> i -> cell (mset mi (padd p (i * N + j)) nv) (padd p (k * N + j)) = cell mi (padd p (k * N + j))).
      { intros k Hk Hn. apply cell_mset_other; auto. intros E. apply padd_inj in E. apply Hn. nia. }
      assert (Hm : forall k, k <= i -> mix (mset mi (padd p (i * N + j)) nv) k = mix mi k).
      { intros k Hk. unfold mix. f_equal. apply (@list_ext F f0).
        - rewrite !firstn_length, !column_len. auto.
        - intros l Hl. rewrite firstn_length, column_len in Hl. rewrite !nth_firstn, !column_nth by lia. apply Ho; lia. }
      split; [|split].
      * intros k Hk. destruct (Nat.eq_dec k i) as [->|Hn].
        -- rewrite cell_mset_same by auto. unfold nv. now rewrite Hm.
        -- rewrite Ho, Hm by lia. apply G1. lia.
      * intros k Hk. rewrite Ho by lia. apply G2. lia.
      * intros q Hq. rewrite cell_mset_other; auto.
    + intros k t t' Hk. destruct (Nat.ltb_spec k (m_nnz A)) as [Hn|]; [|discriminate]. intros E; injection E as <-.
      destruct (VA k Hn) as [V1 E1]. assert (Hck := cin_lt W Hn).
      cbn [run]. rewrite ld_ok by (eapply shape_valid; eauto). cbn [bind]. rewrite rd_ci by auto. cbn [plift pbind run].
      rewrite ld_ok by (apply Vi; rewrite Nat.mul_comm; apply IN; lia). cbn [bind run].
      rewrite G3 by (intros q Hq Eq; symmetry in Eq; revert Eq; apply Ap; auto). rewrite E1. do 3 f_equal. f_equal.
      unfold mix, fn. rewrite (Nat.mul_comm N). destruct (Nat.lt_ge_cases (cin A k) i) as [Hlt|Hge].
      * rewrite app_nth1 by (rewrite firstn_length, column_len; lia). now rewrite nth_firstn, column_nth by lia.
      * rewrite app_nth2 by (rewrite firstn_length, column_len; lia). rewrite firstn_length, column_len, nth_skipn.
        replace (i + (cin A k - Nat.min i n)) with (cin A k) by lia. rewrite column_nth by lia. apply G2. lia.
    + unfold row_dot. apply (@crs_row_fold F SF F (fun t p => fadd t (fmul (snd p) (fn (mix mi i) (fst p))))); auto; try lia.
      intros k t Hk Hn. rewrite (proj2 (Nat.ltb_lt _ _) Hn). reflexivity.
  - exists m2. cbn [fst] in *. rewrite E. auto.
Qed.

(** matmul(a,A,B,b,B) without AVX: the same under every schedule (a thread owns whole columns), but each column is swept like
    the vector above instead of being multiplied.  Missing (false, C112_matmul_refuted): it is a*A*B + b*B. *)
Theorem C112_matmul_in_place_partial (a b : F) (A : crs F) (pA : ptr) (B : darg) (m : mem) :
  crs_ok A -> g_rows B = m_col A -> g_rows B = m_row A -> values_at m A pA ->
  values_apart A pA (mkArg (g_ptr B) (g_rows B * g_cols B)) -> window m (g_ptr B) (g_rows B * g_cols B) ->
  exists m', kernel_result (k_matmul a A pA B b B) m m' /\ kernel_seq (k_matmul a A pA B b B) m = Ok m' /\ same_shape m m' /\
    (forall i j, i < g_rows B -> j < g_cols B -> cell m' (padd (g_ptr B) (i * g_cols B + j)) =
       fadd (fmul a (row_dot (crs_row A i) (firstn i (column m' (g_ptr B) (g_rows B) (g_cols B) j) ++
                                            skipn i (column m (g_ptr B) (g_rows B) (g_cols B) j))))
            (fmul b (cell m (padd (g_ptr B) (i * g_cols B + j))))) /\
    (forall q, (forall k, k < g_rows B * g_cols B -> padd (g_ptr B) k <> q) -> cell m' q = cell m q).
Proof.
  destruct B as [p n N]. cbn [g_ptr g_rows g_cols]. intros W Hc Hr (VA & EA) Ap Wp.
  unfold values_apart in Ap. cbn [a_ptr a_len] in Ap.
  unfold kernel_result, kernel_seq, k_matmul. cbn [k_assert k_n k_body g_ptr g_rows g_cols].
  rewrite <- Hc, <- Hr, !Nat.eqb_refl. cbn [andb assert_ bind].
  assert (IN : forall i j, i < n -> j < N -> i * N + j < n * N) by (intros i j Hi Hj; nia).
  assert (SEQ : exists m', seq_for N (a_matmul a A b N pA p p) m = Ok m' /\ same_shape m m' /\
    (forall i j, i < n -> j < N -> cell m' (padd p (i * N + j)) =
       fadd (fmul a (row_dot (crs_row A i) (firstn i (column m' p n N j) ++ skipn i (column m p n N j)))) (fmul b (cell m (padd p (i * N + j))))) /\
    (forall q, (forall k, k < n * N -> padd p k <> q) -> cell m' q = cell m q)).
  { unfold seq_for.
    destruct (@for0_inv mem (fun j0 mi => same_shape m mi /\
      (forall i j, i < n -> j < j0 -> cell mi (padd p (i * N + j)) =
         fadd (fmul a (row_dot (crs_row A i) (firstn i (column mi p n N j) ++ skipn i (column m p n N j)))) (fmul b (cell m (padd p (i * N + j))))) /\
      (forall i j, i < n -> j0 <= j < N -> cell mi (padd p (i * N + j)) = cell m (padd p (i * N + j))) /\
      (forall q, (forall k, k < n * N -> padd p k <> q) -> cell mi q = cell m q)) N
      (fun j m => '(m', _) <- run (a_matmul a A b N pA p p j) m ;; Ok m') m) as (m' & E & S' & G1 & _ & G3).
    - split; [apply same_shape_refl|]. split; [intros; lia|]. auto.
    - intros j mi Hj (S1 & G1 & G2 & G3).
      destruct (@run_column a b A pA p n N j mi) as (m2 & E2 & S2 & K1 & K2); auto.
      + intros q Hq. eapply shape_valid; eauto.
      + intros k Hk. split; [eapply shape_valid; eauto|]. rewrite G3; auto. intros q Hq Eq. symmetry in Eq. revert Eq. now apply Ap.
      + rewrite E2. cbn [bind]. exists m2. split; auto. split; [eapply same_shape_trans; eauto|].
        assert (KO : forall i l, i < n -> l < N -> l <> j -> cell m2 (padd p (i * N + l)) = cell mi (padd p (i * N + l))).
        { intros i l Hi Hl Hn. apply K2. intros i' Hi' Eq. apply padd_inj in Eq. apply Hn. assert (i = i') by nia. subst. lia. }
        assert (CO : forall l, l < N -> l <> j -> column m2 p n N l = column mi p n N l).
        { intros l Hl Hn. unfold column. apply map_ext_in. intros i Hi. apply in_seq in Hi. apply KO; auto; lia. }
        assert (CJ : column mi p n N j = column m p n N j).
        { unfold column. apply map_ext_in. intros i Hi. apply in_seq in Hi. apply G2; lia. }
        split; [|split].
        * intros i l Hi Hl. destruct (Nat.eq_dec l j) as [->|Hn].
          -- rewrite K1 by auto. rewrite CJ. now rewrite G2 by lia.
          -- rewrite KO, CO by lia. apply G1; auto. lia.
        * intros i l Hi Hl. rewrite KO by lia. apply G2; auto. lia.
        * intros q Hq. rewrite K2; auto.
    - exists m'. auto. }
  destruct SEQ as (m' & E & S' & G1 & G3). exists m'.
  split; [split; [reflexivity|]|].
  - apply race_free_par; [|exact E].
    set (cellj := fun j q => exists i, i < n /\ q = padd p (i * N + j)).
    exists (fun j q => (exists k, k < m_nnz A /\ q = padd pA k) \/ cellj j q), cellj. split.
    + intros j Hj. unfold a_matmul. apply fp_pfor. intros i s Hi. apply fp_range. intros lo hi El Eh.
      rewrite rd_rp in El, Eh by (auto; lia). injection El as <-. injection Eh as <-. apply fp_bind.
      * apply fp_pfor. intros k t Hk. assert (Hn : k < m_nnz A) by (apply (@row_range A i); auto; lia).
        cbn [fp]. split; [left; eauto|]. intros v. rewrite rd_ci by auto. cbn [plift pbind fp]. split; auto. right.
        exists (cin A k). split; [assert (HH := cin_lt W Hn); lia|]. f_equal. lia.
      * intros t. assert (cellj j (padd p (i * N + j))) by (exists i; split; auto; lia). cbn. auto.
    + intros j j' q Hj Hj' Hjj (i & Hi & ->). split.
      * intros [(k & Hk & Eq)|(i' & Hi' & Eq)].
        -- symmetry in Eq. revert Eq. apply Ap; auto.
        -- apply padd_inj in Eq. apply Hjj. assert (i = i') by nia. subst. lia.
      * intros (i' & Hi' & Eq). apply padd_inj in Eq. apply Hjj. assert (i = i') by nia. subst. lia.
  - split; [exact E|]. auto.
Qed.
(** matmul(a,A,B,b,C) with B and C apart (windows of any buffers): a*A*B + b*C under every schedule, nothing else touched *)
Theorem C112_matmul_apart (a b : F) (A : crs F) (pA : ptr) (B C : darg) (m : mem) :
  crs_ok A -> g_rows B = m_col A -> g_rows C = m_row A -> g_cols B = g_cols C -> values_at m A pA ->
  values_apart A pA (mkArg (g_ptr C) (g_rows C * g_cols C)) ->
  window m (g_ptr B) (g_rows B * g_cols B) -> window m (g_ptr C) (g_rows C * g_cols C) ->
  apart (mkArg (g_ptr B) (g_rows B * g_cols B)) (mkArg (g_ptr C) (g_rows C * g_cols C)) ->
  exists m', kernel_result (k_matmul a A pA B b C) m m' /\ kernel_seq (k_matmul a A pA B b C) m = Ok m' /\ same_shape m m' /\
    (forall i j, i < g_rows C -> j < g_cols C -> cell m' (padd (g_ptr C) (i * g_cols C + j)) =
       fadd (fmul a (row_dot (crs_row A i) (column m (g_ptr B) (g_rows B) (g_cols B) j))) (fmul b (cell m (padd (g_ptr C) (i * g_cols C + j))))) /\
    (forall q, (forall k, k < g_rows C * g_cols C -> padd (g_ptr C) k <> q) -> cell m' q = cell m q).
Proof.
  destruct B as [pB n N0]. destruct C as [p r N]. cbn [g_ptr g_rows g_cols]. intros W Hc Hr -> (VA & EA) Ap WB Wp AP.
  unfold values_apart in Ap. unfold apart in AP. cbn [a_ptr a_len] in Ap, AP.
  unfold kernel_result, kernel_seq, k_matmul. cbn [k_assert k_n k_body g_ptr g_rows g_cols].
  rewrite <- Hc, <- Hr, !Nat.eqb_refl. cbn [andb assert_ bind].
  assert (IN : forall i j, i < r -> j < N -> i * N + j < r * N) by (intros i j Hi Hj; nia).
  assert (INB : forall i j, i < n -> j < N -> N * i + j < n * N) by (intros i j Hi Hj; nia).
  set (new := fun i j => fadd (fmul a (row_dot (crs_row A i) (column m pB n N j))) (fmul b (cell m (padd p (i * N + j))))).
  assert (SEQ : exists m', seq_for N (a_matmul a A b N pA pB p) m = Ok m' /\ same_shape m m' /\
    (forall i j, i < r -> j < N -> cell m' (padd p (i * N + j)) = new i j) /\
    (forall q, (forall k, k < r * N -> padd p k <> q) -> cell m' q = cell m q)).
  { unfold seq_for.
    destruct (@for0_inv mem (fun j0 mi => same_shape m mi /\
      (forall i j, i < r -> j < j0 -> cell mi (padd p (i * N + j)) = new i j) /\
      (forall i j, i < r -> j0 <= j < N -> cell mi (padd p (i * N + j)) = cell m (padd p (i * N + j))) /\
      (forall q, (forall k, k < r * N -> padd p k <> q) -> cell mi q = cell m q)) N
      (fun j m => '(m', _) <- run (a_matmul a A b N pA pB p j) m ;; Ok m') m) as (m' & E & S' & G1 & _ & G3).
    - split; [apply same_shape_refl|]. split; [intros; lia|]. auto.
    - intros j m1 Hj (S1 & G1 & G2 & G3). unfold a_matmul. rewrite run_pfor, <- Hr.
      match goal with |- context [for_ 0 r ?bd _] => set (body := bd) end.
      destruct (@for0_inv (mem * unit) (fun i0 st => let mi := fst st in same_shape m mi /\
          (forall i, i < i0 -> cell mi (padd p (i * N + j)) = new i j) /\
          (forall i, i0 <= i < r -> cell mi (padd p (i * N + j)) = cell m (padd p (i * N + j))) /\
          (forall i l, i < r -> l < N -> l <> j -> cell mi (padd p (i * N + l)) = cell m1 (padd p (i * N + l))) /\
          (forall q, (forall k, k < r * N -> padd p k <> q) -> cell mi q = cell m q)) r body (m1, tt))
        as ((m2 & []) & E & S2 & H1 & _ & H4 & H3).
      + cbn [fst]. split; auto. split; [intros; lia|]. split; [intros i Hi; apply G2; lia|]. auto.
      + intros i [mi []] Hi (T1 & K1 & K2 & K4 & K3). cbn [fst] in *. unfold body. cbn [fst snd].
        assert (Vi : forall q, q < r * N -> valid mi (padd p q)) by (intros q Hq; eapply shape_valid; eauto).
        unfold p_range. rewrite !rd_rp by (auto; lia). cbn [plift pbind]. rewrite run_pbind.
        rewrite (@run_pfor_loc F F mi _ _ (fun k t =>
           if (k <? m_nnz A) then Ok (fadd t (fmul (vln A k) (fn (column m pB n N j) (cin A k)))) else UB) _ _ (row_dot (crs_row A i) (column m pB n N j))).
        * cbn [bind run]. rewrite ld_ok by auto. cbn [bind]. rewrite st_ok by auto. cbn [bind].
          eexists. split; [reflexivity|]. cbn [fst]. rewrite (K2 i) by lia. fold (new i j).
          split; [eapply same_shape_trans; [exact T1|apply mset_shape]|].
          assert (Ho : forall i' l, i' < r -> l < N -> (i' <> i \/ l <> j) -> cell (mset mi (padd p (i * N + j)) (new i j)) (padd p (i' * N + l)) = cell mi (padd p (i' * N + l))).
          { intros i' l Hi' Hl Hn. apply cell_mset_other; auto. intros E. apply padd_inj in E. assert (i = i') by nia. subst. lia. }
          split; [|split; [|split]].
          -- intros k Hk. destruct (Nat.eq_dec k i) as [->|Hn]; [now rewrite cell_mset_same by auto|]. rewrite Ho by lia. apply K1. lia.
          -- intros k Hk. rewrite Ho by lia. apply K2. lia.
          -- intros k l Hk Hl Hn. rewrite Ho by lia. apply K4; auto.
          -- intros q Hq. rewrite cell_mset_other; auto.
        * intros k t t' Hk. destruct (Nat.ltb_spec k (m_nnz A)) as [Hn|]; [|discriminate]. intros E; injection E as <-.
          assert (Hck := cin_lt W Hn).
          cbn [run]. rewrite ld_ok by (eapply shape_valid; eauto). cbn [bind]. rewrite rd_ci by auto. cbn [plift pbind run].
          rewrite ld_ok by (eapply shape_valid; [exact T1|]; apply WB; apply INB; lia). cbn [bind run].
          rewrite K3 by (intros q Hq Eq; symmetry in Eq; revert Eq; apply Ap; auto). rewrite EA by auto.
          rewrite K3 by (intros q Hq Eq; symmetry in Eq; revert Eq; apply AP; auto; apply INB; lia).
          unfold fn. rewrite column_nth by lia. do 5 f_equal. f_equal. lia.
        * unfold row_dot. apply (@crs_row_fold F SF F (fun t q => fadd t (fmul (snd q) (fn (column m pB n N j) (fst q))))); auto; try lia.
          intros k t Hk Hn. rewrite (proj2 (Nat.ltb_lt _ _) Hn). reflexivity.
      + rewrite E. cbn [bind]. exists m2. cbn [fst] in *. split; auto. split; auto. split; [|split; [|exact H3]].
        * intros i l Hi Hl. destruct (Nat.eq_dec l j) as [->|Hn]; [now apply H1|]. rewrite H4 by lia. apply G1; auto. lia.
        * intros i l Hi Hl. rewrite H4 by lia. apply G2; auto. lia.
    - exists m'. auto. }
  destruct SEQ as (m' & E & S' & G1 & G3). exists m'.
  split; [split; [reflexivity|]|].
  - apply race_free_par; [|exact E].
    set (cellj := fun j q => exists i, i < r /\ q = padd p (i * N + j)).
    exists (fun j q => (exists k, k < m_nnz A /\ q = padd pA k) \/ (exists k, k < n * N /\ q = padd pB k) \/ cellj j q), cellj. split.
    + intros j Hj. unfold a_matmul. apply fp_pfor. intros i s Hi. apply fp_range. intros lo hi El Eh.
      rewrite rd_rp in El, Eh by (auto; lia). injection El as <-. injection Eh as <-. apply fp_bind.
      * apply fp_pfor. intros k t Hk. assert (Hn : k < m_nnz A) by (apply (@row_range A i); auto; lia).
        cbn [fp]. split; [left; eauto|]. intros v. rewrite rd_ci by auto. cbn [plift pbind fp]. split; auto. right. left.
        exists (N * cin A k + j). split; auto. apply INB; auto. assert (HH := cin_lt W Hn). lia.
      * intros t. assert (cellj j (padd p (i * N + j))) by (exists i; split; auto; lia). cbn. auto.
    + intros j j' q Hj Hj' Hjj (i & Hi & ->). split.
      * intros [(k & Hk & Eq)|[(k & Hk & Eq)|(i' & Hi' & Eq)]].
        -- symmetry in Eq. revert Eq. apply Ap; auto.
        -- symmetry in Eq. revert Eq. apply AP; auto.
        -- apply padd_inj in Eq. apply Hjj. assert (i = i') by nia. subst. lia.
      * intros (i' & Hi' & Eq). apply padd_inj in Eq. apply Hjj. assert (i = i') by nia. subst. lia.
  - split; [exact E|]. auto.
Qed.
End C112.

(** sizes that do not fit are rejected, whatever the arguments share *)
Theorem C112_sizes {F} {SF : Scalar F} (A : crs F) (pA : ptr) (x y : arg) (B C : darg) (a b : F) (m : Mem.mem F) :
  (a_len x <> m_col A \/ a_len y <> m_row A -> kernel_seq (k_matvec A pA x y) m = Abort) /\
  (a_len x <> m_row A \/ a_len y <> m_col A -> alias_matvec_T A pA x y m = Abort) /\
  (g_rows B <> m_col A \/ g_rows C <> m_row A \/ g_cols B <> g_cols C -> kernel_seq (k_matmul a A pA B b C) m = Abort).
Proof.
  unfold kernel_seq, k_matvec, alias_matvec_T, k_matmul. cbn [k_assert k_n k_body].
  split; [|split]; intros H;
    repeat match goal with |- context [?u =? ?v] => destruct (Nat.eqb_spec u v) end; cbn [andb assert_ bind]; auto; exfalso; lia.
Qed.
Print Assumptions C112_sizes.

(** ** A.transpose(A) *)
Section C112_transpose.
Context {F : Type} {SF : Scalar F}.

(** Dense, square: the lower triangle is mirrored (correct exactly for symmetric matrices).  Missing (false,
    C21_alias_refuted): the elements are exchanged. *)
Theorem C112_dense_transpose_self_partial (d : dense F) :
  dense_ok d -> dense_plain d -> d_row d = d_col d ->
  exists d', dense_transpose_self d = Ok d' /\ dense_ok d' /\ d_row d' = d_row d /\ d_col d' = d_col d /\
    forall i j, i < d_row d -> j < d_col d -> dense_at d' i j = dense_at d (Nat.max i j) (Nat.min i j).
Proof.
  intros (H1 & H2 & H3) (P1 & P2) Hsq. set (n := d_col d) in *. unfold dense_transpose_self. cbv zeta. cbn [d_set_rc d_set_own d_row d_col].
  assert (R : exists d2, dense_resize (d_set_own (d_set_rc (d_set_rc d (d_col d) (d_col d)) (d_col d) (d_col d))) (d_col d * d_col d) f0 = Ok d2 /\
     d_row d2 = n /\ d_col d2 = n /\ d_first d2 = 0 /\ d_nnz d2 = n * n /\ length (d_val d2) = d_alloc d2 /\ n * n <= d_alloc d2 /\
     forall k, k < n * n -> nth k (d_val d2) f0 = nth k (d_val d) f0).
  { rewrite P1, H2, Hsq in H3. rewrite Hsq in H2. fold n. unfold dense_resize. cbn [d_set_rc d_set_own d_first d_alloc d_own d_nnz d_val d_row d_col]. rewrite P1, H2. cbn [Nat.add].
    fold n in H3. destruct (Nat.ltb_spec (n * n) (d_alloc d)).
    - rewrite for_empty by lia. cbn [bind]. eexists. split; [reflexivity|]. cbn. rewrite ?P1. repeat split; auto; lia.
    - rewrite Nat.min_id. rewrite (@copy_loop0 F f0) by (rewrite ?repeat_length; lia). cbn [bind]. rewrite for_empty by lia. cbn [bind].
      eexists. split; [reflexivity|]. cbn [d_row d_col d_first d_nnz d_val d_alloc].
      repeat split; auto; try lia.
      + rewrite app_length, firstn_length, skipn_length, repeat_length. lia.
      + intros k Hk. rewrite app_nth1 by (rewrite firstn_length; lia). now rewrite nth_firstn by lia. }
  destruct R as (d2 & -> & R2 & C2 & F2 & N2 & L2 & A2 & V2). cbn [bind]. rewrite R2, C2.
  set (old := fun i j => nth (n * i + j) (d_val d) f0).
  destruct (@for0_inv (list F) (fun k v => length v = d_alloc d2 /\ forall q, q < n * n ->
      nth q v f0 = if q <? k then old (Nat.max (q / n) (q mod n)) (Nat.min (q / n) (q mod n)) else nth q (d_val d) f0) (n * n)
    (fun k v => x <- rd v (n * (k mod n) + k / n) ;; wr v k x) (d_val d2)) as (v & E & L & V).
  - split; [exact L2|]. intros q Hq. exact (V2 q Hq).
  - intros k v Hk (L & V). cbv zeta.
    assert (Hn : n <> 0) by (intros E; rewrite E in Hk; lia).
    assert (Hi : k / n < n) by (apply Nat.div_lt_upper_bound; lia). assert (Hj : k mod n < n) by (now apply Nat.mod_upper_bound).
    assert (Ek := Nat.div_mod k n Hn). set (i := k / n) in *. set (j := k mod n) in *.
    assert (B : n * j + i < n * n) by nia.
    rewrite (@rd_lt F v (n * j + i) f0) by lia. cbn [bind]. rewrite wr_lt by lia. eexists. split; [reflexivity|].
    rewrite upd_length. split; auto. intros q Hq. destruct (Nat.eq_dec q k) as [->|Hne].
    + rewrite nth_upd_same by lia. rewrite (proj2 (Nat.ltb_lt _ _)) by lia. fold i j. rewrite V by auto.
      assert (D : (n * j + i) / n = j /\ (n * j + i) mod n = i).
      { split; symmetry; [apply Nat.div_unique with i|apply Nat.mod_unique with j]; lia. }
      destruct D as [-> ->]. rewrite (Nat.max_comm j i), (Nat.min_comm j i).
      destruct (Nat.ltb_spec (n * j + i) k) as [Hlt|Hge]; [reflexivity|].
      unfold old. f_equal. destruct (Nat.le_gt_cases i j) as [Hij|Hij]; [rewrite Nat.max_r, Nat.min_l by lia; lia|exfalso; nia].
    + rewrite nth_upd_other by auto. rewrite V by auto.
      destruct (Nat.ltb_spec q k), (Nat.ltb_spec q (S k)); try reflexivity; lia.
  - rewrite E. cbn [bind]. eexists. split; [reflexivity|].
    assert (OK : dense_ok (d_set_val d2 v)) by (unfold dense_ok, d_set_val; cbn; rewrite L, F2, N2, R2, C2; cbn [Nat.add]; auto).
    split; [exact OK|]. split; [cbn; lia|]. split; [cbn; lia|].
    intros i j Hi Hj. assert (Hn : n <> 0) by lia.
    rewrite !dense_at_ok; try lia.
    + unfold dense_fn. cbn [d_set_val d_val d_first d_col]. rewrite P1, F2, C2. cbn [Nat.add]. fold n. f_equal.
      assert (B : n * i + j < n * n) by nia. rewrite V by auto. rewrite (proj2 (Nat.ltb_lt _ _) B).
      assert (D : (n * i + j) / n = i /\ (n * i + j) mod n = j).
      { split; symmetry; [apply Nat.div_unique with j|apply Nat.mod_unique with i]; lia. }
      destruct D as [-> ->]. reflexivity.
    + unfold dense_ok. auto.
    + exact OK.
    + cbn. lia.
    + cbn. lia.
Qed.

(** Dense, not square: the result does not even have the dimensions of the transpose *)
Theorem C112_dense_self_dims_refuted (d d' : dense F) :
  d_row d <> d_col d -> dense_transpose_self d = Ok d' -> ~ (d_row d' = d_col d /\ d_col d' = d_row d).
Proof.
  intros H E [_ G]. unfold dense_transpose_self in E. cbv zeta in E. cbn [d_set_rc d_set_own d_row d_col] in E.
  dob E. dob E. injection E as <-. cbn [d_set_val d_row d_col] in G. unfold dense_resize in E0.
  cbn [d_set_rc d_set_own d_row d_col d_own] in E0. destruct (_ <? _); repeat dob E0; injection E0 as <-; cbn in G; auto.
Qed.

(** CRS: the result is always square *)
Theorem C112_crs_self_dims_refuted {SC : Schedule} fuel (a a' : crs F) :
  m_row a <> m_col a -> crs_transpose_self fuel a = Ok a' -> ~ (m_row a' = m_col a /\ m_col a' = m_row a).
Proof.
  intros H E [_ G]. unfold crs_transpose_self in E. cbv zeta in E. cbn [m_nnz m_set_own m_set_st m_set_rc] in E.
  dob E. dob E. dob E. dob E. destruct a3 as [rp1 s1]. dob E. dob E. destruct a4 as [[rp2 ci2] v2]. dob E. destruct a4 as [rp3 s3].
  injection E as <-. cbn in G. apply H. rewrite <- G. unfold crs_resize in E0. cbn [m_own m_set_own m_set_st m_set_rc] in E0.
  destruct (_ <? _); repeat dob E0; injection E0 as <-; reflexivity.
Qed.

(** COO: the result is square and every element off its diagonal is 0.  Missing (false, C05_coo_transpose_alias_refuted):
    the elements of the transpose *)
Theorem C112_coo_transpose_self_partial (c : coo F) : coo_ok c ->
  exists c', coo_transpose_self c = Ok c' /\ coo_ok c' /\ c_row c' = c_col c /\ c_col c' = c_col c /\ c_nnz c' = c_nnz c /\
    (forall i j, i <= c_col c -> j <= c_col c -> i <> j -> coo_at c' i j = Ok f0).
Proof.
  intros (H1 & H2 & H3 & H4 & H5). unfold coo_transpose_self. cbv zeta.
  set (s := mkCoo _ _ _ _ _ _ _ (c_own c)). set (B := mkCoo _ _ _ _ _ _ _ true).
  assert (OB : coo_ok B) by (unfold coo_ok, B; cbn; auto).
  destruct (@coo_transpose_from_at F SF s B) as (c' & E & O' & R & C & N & At); auto.
  { unfold coo_ok, s. cbn. auto. }
  exists c'. split; [exact E|]. split; [exact O'|]. split; [exact R|]. split; [exact C|]. split; [exact N|].
  intros i j Hi Hj Hij. rewrite At by (cbn; auto). rewrite coo_at_ok by (cbn; auto). f_equal.
  assert (G : forall t, In t (coo_entries B) -> fst (fst t) = snd (fst t)).
  { unfold coo_entries, B. cbn [c_nnz c_ri c_ci c_val]. intros [[a b] v] Ht.
    assert (Ht' : In (a, b, v) (combine (combine (c_ci c) (c_ci c)) (c_val c))).
    { rewrite <- (firstn_skipn (c_nnz c)). apply in_or_app. auto. }
    apply in_combine_l in Ht'. cbn [fst snd]. revert Ht'. generalize (c_ci c). intros l. induction l as [|x l IH]; cbn; [tauto|].
    intros [Ex|Hx]; [congruence|auto]. }
  revert G. generalize (coo_entries B). intros l. induction l as [|[[r k] v] l IH]; intros G; [reflexivity|]. cbn [last_wins].
  assert (Ef : existsb (fun t => (fst (fst t) =? j) && (snd (fst t) =? i)) l = false).
  { destruct (existsb _ l) eqn:Ex; auto. apply existsb_exists in Ex. destruct Ex as (t & Ht & Et). apply andb_prop in Et.
    destruct Et as [E1 E2]. apply Nat.eqb_eq in E1, E2. specialize (G t (or_intror Ht)). lia. }
  rewrite Ef. specialize (G (r, k, v) (or_introl eq_refl)). cbn [fst snd] in G.
  destruct (Nat.eqb_spec r j), (Nat.eqb_spec k i); cbn [andb]; auto. lia.
Qed.
End C112_transpose.

(** ** Counterexamples, and cases that meet the hypotheses *)
#[local] Existing Instance one_thread.
Definition exA : crs Z := mkCrs 2 2 [0;1;2] [1;0] [1;1]%Z 0 2 2 true 0%N. (* exchanges two elements *)
Definition exD : crs Z := mkCrs 2 2 [0;1;2] [0;1] [3;5]%Z 0 2 2 true 0%N. (* diagonal *)
Definition exU : crs Z := mkCrs 2 2 [0;2;3] [0;1;1] [2;3;4]%Z 0 3 3 true 0%N. (* upper triangular *)
Definition exm : Mem.mem Z := [[1;1]; [10;20]]%Z.
Definition exx : arg := mkArg (1, 0) 2.

Example ex_ok : crs_ok exA /\ crs_ok exD /\ crs_ok exU.
Proof.
  repeat split; try (cbn; lia); intros i Hi; cbn in Hi; do 3 (destruct i as [|i]; [cbn; lia|]); lia.
Qed.

(** matvec(A,x,x) of the exchange matrix with (10,20): the product is (20,10); one thread leaves (20,20), another order of the two
    rows leaves (10,10) *)
Theorem C112_matvec_refuted :
  values_at exm exA (0, 0) /\ values_apart exA (0, 0) exx /\ arg_ok exm exx /\
  map (fun i => row_dot (crs_row exA i) (contents exm exx)) (seq 0 2) = [20; 10]%Z /\
  exists m1 m2, kernel_seq (k_matvec exA (0, 0) exx exx) exm = Ok m1 /\ contents m1 exx = [20; 20]%Z /\
    k_assert (k_matvec exA (0, 0) exx exx) = true /\
    par_for 2 (k_body (k_matvec exA (0, 0) exx exx)) exm m1 /\
    par_for 2 (k_body (k_matvec exA (0, 0) exx exx)) exm m2 /\ contents m2 exx = [10; 10]%Z.
Proof.
  split; [split|].
  - intros i Hi. change (i < 2) in Hi. destruct i as [|[|i]]; [vm_compute; lia|vm_compute; lia|lia].
  - intros k Hk. change (k < 2) in Hk. destruct k as [|[|k]]; [reflexivity|reflexivity|lia].
  - split; [intros k i _ _; discriminate|].
    split; [intros i Hi; change (i < 2) in Hi; destruct i as [|[|i]]; [vm_compute; lia|vm_compute; lia|lia]|].
    split; [reflexivity|].
    exists [[1;1]; [20;20]]%Z, [[1;1]; [10;10]]%Z. split; [vm_compute; reflexivity|]. split; [reflexivity|]. split; [reflexivity|].
    split; [|split; [|reflexivity]].
    + exists [[0;1]], 6, [Ret tt]. split; [apply Permutation_refl|]. split; [|repeat constructor]. apply psteps_run. vm_compute. reflexivity.
    + exists [[1;0]], 6, [Ret tt]. split; [apply perm_swap|]. split; [|repeat constructor]. apply psteps_run. vm_compute. reflexivity.
Qed.

(** matmul(1,A,B,0,B) with the same matrices *)
Theorem C112_matmul_refuted :
  exists m', kernel_seq (k_matmul 1%Z exA (0, 0) (mkDarg (1, 0) 2 1) 0%Z (mkDarg (1, 0) 2 1)) exm = Ok m' /\
    contents m' exx = [20; 20]%Z /\ map (fun i => row_dot (crs_row exA i) (contents exm exx)) (seq 0 2) = [20; 10]%Z.
Proof. eexists. split; [vm_compute; reflexivity|]. split; reflexivity. Qed.

(** matvec_T(A,x,x) is zero although A^T x is not *)
Theorem C112_matvec_T_refuted :
  exists m', alias_matvec_T exA (0, 0) exx exx exm = Ok m' /\ contents m' exx = [0; 0]%Z /\
    @crs_matvec_T Z Zscalar exA [10;20]%Z [0;0]%Z = Ok [20;10]%Z.
Proof. eexists. split; [vm_compute; reflexivity|]. split; reflexivity. Qed.

(** CRS: A.transpose(A) of [[0,5],[7,0]] loses the 7 *)
Theorem C112_crs_transpose_refuted :
  exists a a', @crs_of_arrays Z Zscalar one_thread 2 2 2 [0;1;2] [1;0] [5;7]%Z = Ok a /\ crs_ok a /\ crs_plain a /\
    crs_transpose_self 10 a = Ok a' /\ crs_entries a = [(0,1,5%Z); (1,0,7%Z)] /\ crs_entries a' = [(0,0,5%Z); (1,0,5%Z)].
Proof.
  eexists. eexists. split; [vm_compute; reflexivity|]. split.
  - repeat split; try (cbn; lia); intros i Hi; cbn in Hi; do 3 (destruct i as [|i]; [cbn; lia|]); lia.
  - split; [split; reflexivity|]. split; [vm_compute; reflexivity|]. split; reflexivity.
Qed.

(** the hypotheses of the in-place theorems hold for a diagonal and for an upper triangular matrix ... *)
Example C112_example_diagonal :
  (forall i c v, i < m_row exD -> In (c, v) (crs_row exD i) -> c = i) /\
  exists m', kernel_seq (k_matvec exD (0, 0) exx exx) [[3;5]; [10;20]]%Z = Ok m' /\ contents m' exx = [30; 100]%Z.
Proof.
  split; [|eexists; split; [vm_compute; reflexivity|reflexivity]].
  intros i c v Hi. cbn in Hi. destruct i as [|[|i]]; [cbn; intros [E|[]]; congruence|cbn; intros [E|[]]; congruence|lia].
Qed.
Example C112_example_upper :
  (forall i c v, i < m_row exU -> In (c, v) (crs_row exU i) -> i <= c) /\
  exists m', kernel_seq (k_matvec exU (0, 0) exx exx) [[2;3;4]; [10;20]]%Z = Ok m' /\ contents m' exx = [80; 80]%Z.
Proof.
  split; [|eexists; split; [vm_compute; reflexivity|reflexivity]].
  intros i c v Hi. cbn in Hi. destruct i as [|[|i]]; cbn; intros H; intuition; try lia; congruence || (inversion H0; lia) || idtac.
Qed.
(** ... and no_conflict holds for two overlapping windows of one buffer: x = (v0,v1), y = (v1,v2), A = [[a,b],[0,c]] reads v0, v1 in
    row 0 (which writes v1) and must not read v1 in row 1 *)
Example C112_example_overlap :
  no_conflict (mkCrs 2 2 [0;2;3] [0;1;0] [2;3;4]%Z 0 3 3 true 0%N) (mkArg (1, 0) 2) (mkArg (1, 1) 2) /\
  exists m', kernel_seq (k_matvec (mkCrs 2 2 [0;2;3] [0;1;0] [2;3;4]%Z 0 3 3 true 0%N) (0, 0) (mkArg (1, 0) 2) (mkArg (1, 1) 2))
     [[2;3;4]; [10;20;30]]%Z = Ok m' /\ nth 1 m' [] = [10; 80; 40]%Z.
Proof.
  split; [|eexists; split; [vm_compute; reflexivity|reflexivity]].
  intros i j c v Hi Hj Hij. cbn in Hi, Hj. destruct i as [|[|i]], j as [|[|j]]; try lia; cbn; intros H E.
  - intuition; try congruence. inversion H0; subst; discriminate. inversion H; subst; discriminate.
  - intuition; try congruence. inversion H0; subst; discriminate.
Qed.
Example C112_example_dense : exists d', dense_transpose_self (mkDense 2 2 [1;2;3;4]%Z 0 4 4 true) = Ok d' /\
  map (fun ij => dense_at d' (fst ij) (snd ij)) [(0,0);(0,1);(1,0);(1,1)] = map Ok [1;3;3;4]%Z.
Proof. eexists. split; vm_compute; reflexivity. Qed.

Print Assumptions C112_matvec_no_conflict.
Print Assumptions C112_matvec_apart.
Print Assumptions C112_matvec_diagonal.
Print Assumptions C112_matvec_in_place_partial.
Print Assumptions C112_matvec_upper.
Print Assumptions C112_matvec_T_zero.
Print Assumptions C112_matmul_in_place_partial.
Print Assumptions C112_matmul_apart.
Print Assumptions C112_crs_self_dims_refuted.
Print Assumptions C112_dense_transpose_self_partial.
Print Assumptions C112_dense_self_dims_refuted.
Print Assumptions C112_coo_transpose_self_partial.
Print Assumptions C112_matvec_refuted.
Print Assumptions C112_matmul_refuted.
Print Assumptions C112_matvec_T_refuted.
Print Assumptions C112_crs_transpose_refuted.

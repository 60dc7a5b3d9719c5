(** * GpuProof3: one call of the OpenMP machine does what the two-copy machine says. *)
From Verif Require Import Base GpuModel GpuSpec GpuProof GpuProof2.
Set Implicit Arguments.

Section GpuProof3.
Variable V : Type.
Variable dv : V.
Local Notation world := (world V).
Local Notation sworld := (sworld V).
Local Notation storage := (storage V).

Definition cpu_ok (gpu : bool) (s : sworld) : Prop :=
  gpu = true \/ forall k p, nth_error (s_sto s) k = Some p -> on_dev p = false.

Lemma cpu_upd gpu s k p q ob : cpu_ok gpu s -> nth_error (s_sto s) k = Some p ->
  (on_dev p = false -> on_dev q = false) -> cpu_ok gpu (Sw (upd (s_sto s) k q) ob).
Proof.
  intros [->|C] Hk Hq; [now left|]. right. intros k' p' H. cbn [s_sto] in H.
  rewrite nth_error_upd in H. destruct ((k =? k') && (k <? length (s_sto s))).
  - injection H as <-. apply Hq. eapply C; eauto.
  - eapply C; eauto.
Qed.

Lemma cpu_same gpu s ob : cpu_ok gpu s -> cpu_ok gpu (Sw (s_sto s) ob).
Proof. intros [->|C]; [now left|right; exact C]. Qed.

Lemma cpu_app gpu s p ob : cpu_ok gpu s -> (gpu = false -> on_dev p = false) ->
  cpu_ok gpu (Sw (s_sto s ++ [p]) ob).
Proof.
  intros [->|C] Hp; [now left|]. destruct gpu; [now left|]. right. intros k q H. cbn [s_sto] in H.
  destruct (Nat.lt_ge_cases k (length (s_sto s))) as [L|L].
  - rewrite nth_error_app1 in H by exact L. eapply C; eauto.
  - rewrite nth_error_app2 in H by exact L. destruct (k - length (s_sto s)) as [|n]; cbn in H.
    + injection H as <-. auto.
    + destruct n; discriminate.
Qed.

(** ** replacing the handle of an object *)
Lemma rel_set_obj (w : world) s g i o h :
  rel w s g -> obj_rel w g o h ->
  rel (set_obj w i (Some o)) (sset_obj s i (Some h)) g.
Proof.
  intros R H.
  constructor; cbn [set_obj w_host w_dev w_cell w_obj sset_obj s_sto s_obj]; try apply R.
  - rewrite !upd_length. apply (r_olen R).
  - intros j. rewrite !nth_error_upd, (r_olen R).
    destruct ((i =? j) && (i <? length (s_obj s))); [exact H|]. apply (r_obj R j).
Qed.

Lemma rel_del_obj (w : world) s g i :
  rel w s g -> rel (set_obj w i None) (sset_obj s i None) g.
Proof.
  intros R.
  constructor; cbn [set_obj w_host w_dev w_cell w_obj sset_obj s_sto s_obj]; try apply R.
  - rewrite !upd_length. apply (r_olen R).
  - intros j. rewrite !nth_error_upd, (r_olen R).
    destruct ((i =? j) && (i <? length (s_obj s))); [exact I|]. apply (r_obj R j).
Qed.

Lemma rel_add_obj (w : world) s g o h :
  rel w s g -> obj_rel w g o h -> rel (add_obj w o) (Sw (s_sto s) (s_obj s ++ [Some h])) g.
Proof.
  intros R H.
  constructor; cbn [add_obj w_host w_dev w_cell w_obj s_sto s_obj]; try apply R.
  - rewrite !app_length, (r_olen R). reflexivity.
  - intros j. destruct (Nat.lt_ge_cases j (length (s_obj s))) as [L|L].
    + rewrite !nth_error_app1 by (rewrite ?(r_olen R); exact L). apply (r_obj R j).
    + rewrite !nth_error_app2 by (rewrite ?(r_olen R); exact L). rewrite (r_olen R).
      destruct (j - length (s_obj s)) as [|n]; cbn; [exact H|]. destruct n; exact I.
Qed.

(** ** new storage *)
Definition zone (L : nat) (vss : list (list V)) : list (nat * nat) :=
  combine (seq L (length vss)) (map (@length V) vss).
Definition rgs (z : list (nat * nat)) : list region := map (fun e => Rg (fst e) 0 (snd e)) z.

Lemma alloc_all_eq vss : forall w : world,
  alloc_all w vss = (set_host w (w_host w ++ vss), zone (length (w_host w)) vss).
Proof.
  induction vss as [|vs t IH]; intros w; cbn [alloc_all alloc].
  - rewrite app_nil_r. destruct w; reflexivity.
  - rewrite IH. cbn [set_host w_host w_dev w_cell w_obj].
    rewrite <- app_assoc, app_length. cbn [app length]. unfold zone. cbn [length seq map combine].
    rewrite Nat.add_1_r. reflexivity.
Qed.

Lemma new_obj_eq (w : world) k rows vs idxs :
  new_obj w k rows vs idxs =
  (Wd (w_host w ++ vs :: idxs) (w_dev w) (w_cell w ++ [false]) (w_obj w),
   Ob k (length (w_host w)) (length vs) (length vs)
      (zone (S (length (w_host w))) idxs) rows (length (w_cell w)) true).
Proof.
  unfold new_obj. cbn [alloc]. rewrite alloc_all_eq. cbn [set_host w_host w_dev w_cell w_obj add_cell].
  rewrite <- app_assoc, app_length, Nat.add_1_r. reflexivity.
Qed.

Lemma new_regions L k rows vs idxs c ow : new_ok k rows vs idxs = true ->
  regions (Ob k L (length vs) (length vs) (zone (S L) idxs) rows c ow) = rgs (zone L (vs :: idxs)).
Proof.
  intros H. unfold regions, rgs, zone. cbn [o_kind o_idx o_nnz o_rows val_region o_buf length seq map combine fst snd].
  unfold val_region. cbn [o_buf o_nnz]. f_equal.
  destruct k; try reflexivity. unfold new_ok in H.
  destruct idxs as [|x [|y [|z t]]]; try discriminate.
  apply andb_true_iff in H. destruct H as [H1 H2]. apply Nat.eqb_eq in H1, H2.
  cbn [length seq map combine fst snd]. rewrite H1, H2. reflexivity.
Qed.

Lemma rgs_bufs L vss : map rg_buf (rgs (zone L vss)) = seq L (length vss).
Proof.
  unfold rgs, zone. rewrite map_map. cbn [rg_buf]. revert L.
  induction vss as [|v t IH]; intros L; cbn [length seq map combine fst]; [reflexivity|].
  f_equal. apply IH.
Qed.

Lemma rgs_host (w : world) vss : forall pre,
  w_host w = pre ++ vss -> Forall2 (host_has w) (rgs (zone (length pre) vss)) vss.
Proof.
  induction vss as [|v t IH]; intros pre E; cbn; constructor.
  - repeat split; cbn [rg_off rg_buf rg_len fst snd].
    + rewrite E, app_length. cbn. lia.
    + unfold hostb. rewrite E, app_nth2, Nat.sub_diag by lia. cbn. apply firstn_all.
  - specialize (IH (pre ++ [v])). rewrite app_length, Nat.add_1_r in IH. apply IH.
    rewrite E, <- app_assoc. reflexivity.
Qed.

Lemma nth_error_snoc A (l : list A) a k x : nth_error (l ++ [a]) k = Some x ->
  (k < length l /\ nth_error l k = Some x) \/ (k = length l /\ x = a).
Proof.
  intros H. destruct (Nat.lt_ge_cases k (length l)) as [L|L].
  - left. rewrite nth_error_app1 in H by exact L. auto.
  - right. rewrite nth_error_app2 in H by exact L.
    destruct (k - length l) as [|n] eqn:E; cbn in H.
    + injection H as <-. split; [lia|reflexivity].
    + destruct n; discriminate.
Qed.

Lemma rel_buf_lt (w : world) s g k e b : rel w s g -> nth_error g k = Some e -> In b (ebufs e) ->
  b < length (w_host w).
Proof.
  intros R Hk Hb.
  assert (Klt : k < length (s_sto s)) by (rewrite <- (r_len R); apply nth_error_Some; congruence).
  destruct (nth_error (s_sto s) k) as [p|] eqn:Ep; [|apply nth_error_None in Ep; lia].
  pose proof (@r_place _ _ _ _ R k e p Hk Ep) as P.
  assert (X : exists c, Forall2 (host_has w) (fst e) c)
    by (destruct p; destruct P as (_ & P & _); eauto).
  destruct X as [c F]. unfold ebufs in Hb. apply in_map_iff in Hb. destruct Hb as (r & <- & Hr).
  clear - F Hr. induction F; [contradiction|]. destruct Hr as [<-|Hr]; auto.
  destruct H as (_ & H & _). exact H.
Qed.

Lemma rel_new (w : world) s g vss : rel w s g ->
  rel (Wd (w_host w ++ vss) (w_dev w) (w_cell w ++ [false]) (w_obj w))
      (Sw (s_sto s ++ [OnHost vss]) (s_obj s))
      (g ++ [(rgs (zone (length (w_host w)) vss), length (w_cell w))]).
Proof.
  intros R. set (w' := Wd (w_host w ++ vss) (w_dev w) (w_cell w ++ [false]) (w_obj w)).
  set (e1 := (rgs (zone (length (w_host w)) vss), length (w_cell w))).
  assert (B1 : ebufs e1 = seq (length (w_host w)) (length vss)) by apply rgs_bufs.
  assert (HB : forall b, b < length (w_host w) -> hostb w' b = hostb w b).
  { intros b Hb. unfold hostb. cbn. now apply app_nth1. }
  assert (Old : forall k e b, nth_error g k = Some e -> In b (ebufs e) -> b < length (w_host w))
    by (intros; eapply rel_buf_lt; eauto).
  constructor; cbn [s_sto s_obj].
  - rewrite !app_length, (r_len R). reflexivity.
  - exact (r_tab R).
  - intros k e H. apply nth_error_snoc in H. destruct H as [[_ H]|[_ ->]].
    + eapply (r_nodup R); eauto.
    + rewrite B1. apply seq_NoDup.
  - intros k k' e e' b H H' Hb Hb'. apply nth_error_snoc in H, H'.
    destruct H as [[L H]|[-> ->]], H' as [[L' H']|[-> ->]].
    + eapply (r_disj R); eauto.
    + exfalso. rewrite B1 in Hb'. apply in_seq in Hb'. pose proof (Old _ _ _ H Hb). lia.
    + exfalso. rewrite B1 in Hb. apply in_seq in Hb. pose proof (Old _ _ _ H' Hb'). lia.
    + reflexivity.
  - intros k k' e e' H H' E. apply nth_error_snoc in H, H'.
    destruct H as [[L H]|[-> ->]], H' as [[L' H']|[-> ->]].
    + eapply (r_cells R); eauto.
    + exfalso. pose proof (@r_cell_lt _ _ _ _ R _ _ H). unfold e1 in E. cbn in E. lia.
    + exfalso. pose proof (@r_cell_lt _ _ _ _ R _ _ H'). unfold e1 in E. cbn in E. lia.
    + reflexivity.
  - intros k e H. cbn. rewrite app_length. cbn. apply nth_error_snoc in H. destruct H as [[_ H]|[_ ->]].
    + pose proof (@r_cell_lt _ _ _ _ R _ _ H). lia.
    + unfold e1. cbn. lia.
  - intros k e p H Hp. apply nth_error_snoc in H, Hp. pose proof (r_len R) as RL.
    destruct H as [[L H]|[Ek ->]], Hp as [[L' Hp]|[Ek' ->]]; try lia.
    + apply place_ext with (w := w).
      * eapply (r_place R); eauto.
      * cbn. rewrite app_length. lia.
      * intros b Hb. apply HB. eapply Old; eauto.
      * reflexivity.
      * cbn. apply app_nth1. eapply (r_cell_lt R); eauto.
    + cbn [place_rel]. unfold e1. cbn [fst snd]. split; [|split].
      * cbn. rewrite app_nth2, Nat.sub_diag by lia. reflexivity.
      * apply rgs_host. reflexivity.
      * apply Forall_forall. intros r Hr. unfold no_dev. cbn [w' w_dev].
        destruct (dlook (w_dev w) (rg_buf r)) eqn:D; [|reflexivity]. exfalso.
        assert (X : dlook (w_dev w) (rg_buf r) <> None) by congruence.
        destruct (@r_dev _ _ _ _ R _ X) as (k1 & e2 & Hk & Hb).
        pose proof (Old _ _ _ Hk Hb).
        assert (In (rg_buf r) (seq (length (w_host w)) (length vss))).
        { rewrite <- rgs_bufs. now apply in_map. }
        apply in_seq in H0. lia.
  - intros b Hb. destruct (@r_dev _ _ _ _ R _ Hb) as (k & e & Hk & Hin).
    exists k, e. split; [|exact Hin]. rewrite nth_error_app1; [exact Hk|].
    apply nth_error_Some. congruence.
  - exact (r_olen R).
  - intros i. pose proof (r_obj R i) as Q. cbn [w' w_obj].
    destruct (nth_error (w_obj w) i) as [[o|]|], (nth_error (s_obj s) i) as [[h|]|]; auto.
    destruct Q as (e & A & B & C & D & E & F & G). exists e. repeat split; auto.
    + rewrite nth_error_app1; [exact A|]. apply nth_error_Some. congruence.
    + rewrite HB; [exact F|]. eapply Old; [exact A|]. unfold ebufs. rewrite <- B.
      rewrite regions_hd. now left.
Qed.

Lemma new_shape L k rows vs idxs c ow : new_ok k rows vs idxs = true ->
  shape (Ob k L (length vs) (length vs) (zone (S L) idxs) rows c ow).
Proof.
  intros H. unfold shape. cbn [o_kind o_idx]. unfold new_ok in H.
  destruct k; destruct idxs as [|x [|y [|z t]]]; try discriminate; try exact I; try reflexivity.
  cbn. eauto.
Qed.

Lemma new_obj_rel (w : world) s g k rows vs idxs : rel w s g -> new_ok k rows vs idxs = true ->
  let '(w1, o) := new_obj w k rows vs idxs in
  exists e, rel w1 (Sw (s_sto s ++ [OnHost (vs :: idxs)]) (s_obj s)) (g ++ [e]) /\
    obj_rel w1 (g ++ [e]) o (Hd k (length (s_sto s)) true) /\
    length g = length (s_sto s).
Proof.
  intros R H. rewrite new_obj_eq. eexists. split; [apply rel_new; exact R|]. split.
  - eexists. cbn [h_sto]. rewrite <- (r_len R). rewrite nth_error_app2, Nat.sub_diag by lia.
    split; [reflexivity|]. cbn [fst snd]. split; [now apply new_regions|].
    cbn [o_cell o_kind o_own o_alloc o_buf h_kind h_own]. repeat split; auto.
    + unfold hostb. cbn [w_host]. rewrite app_nth2, Nat.sub_diag by lia. reflexivity.
    + now apply new_shape.
  - apply (r_len R).
Qed.

(** ** copying between storages *)
Lemma vcopy_dev_all : forall rs ys d z (w : world), tab_ok w ->
  Forall2 (dev_has w) rs d -> Forall2 (dev_has w) ys z ->
  map rg_len rs = map rg_len ys -> NoDup (map rg_buf ys) ->
  (forall b, In b (map rg_buf rs) -> ~ In b (map rg_buf ys)) ->
  exists w', vcopy_all w (combine rs ys) true = Ok w' /\ chg w w' (map rg_buf ys) /\
    w_host w' = w_host w /\ Forall2 (dev_has w') ys d.
Proof.
  induction rs as [|r rs IH]; intros ys d z w T F G L N D; destruct ys as [|y ys]; try discriminate.
  - inversion F; subst. exists w. cbn. repeat split; auto; constructor.
  - inversion F as [|r' d0 rs' dt Hr Hrs]; subst. inversion G as [|y' z0 ys' zt Hy Hys]; subst.
    cbn [map] in L, N. injection L as L0 Lt. inversion N as [|x l Nx Nl]; subst.
    cbn [combine vcopy_all vcopy_]. rewrite (dev_read_has T Hr). cbn [bind].
    destruct (@dev_write_has V w y z0 d0 T Hy) as (w1 & E1 & C1 & D1 & H1).
    { destruct Hr as (_ & Lr & _). congruence. }
    rewrite E1. cbn [bind].
    assert (FR : forall ks qs, (forall k, In k ks -> rg_buf k <> rg_buf y) ->
                 Forall2 (dev_has w) ks qs -> Forall2 (dev_has w1) ks qs).
    { clear - C1. intros ks qs Hne HF. induction HF; constructor.
      - eapply dev_has_frame; [exact C1| |exact H]. cbn. intros [E|[]].
        apply (Hne x); [now left|auto].
      - apply IHHF. intros k Hk. apply Hne. now right. }
    destruct (IH ys dt zt w1 (c_tab C1)) as (w2 & E2 & C2 & D2 & H2); auto.
    + apply FR; [|exact Hrs]. intros k Hk E. apply (D (rg_buf k)).
      * right. now apply in_map.
      * rewrite E. now left.
    + apply FR; [|exact Hys]. intros k Hk E. apply Nx. rewrite <- E. now apply in_map.
    + intros b Hb Hb'. apply (D b); [now right|now right].
    + exists w2. split; [exact E2|]. split; [|split].
      * exact (chg_trans C1 C2).
      * congruence.
      * constructor; [|exact H2]. eapply dev_has_frame; [exact C2|exact Nx|exact H1].
Qed.

Lemma vcopy_host_all : forall rs ys d z (w : world), tab_ok w ->
  Forall2 (host_has w) rs d -> Forall2 (host_has w) ys z ->
  map rg_len rs = map rg_len ys -> NoDup (map rg_buf ys) ->
  (forall b, In b (map rg_buf rs) -> ~ In b (map rg_buf ys)) ->
  exists w', vcopy_all w (combine rs ys) false = Ok w' /\ chg w w' (map rg_buf ys) /\
    w_dev w' = w_dev w /\ Forall2 (host_has w') ys d.
Proof.
  induction rs as [|r rs IH]; intros ys d z w T F G L N D; destruct ys as [|y ys]; try discriminate.
  - inversion F; subst. exists w. cbn. repeat split; auto; constructor.
  - inversion F as [|r' d0 rs' dt Hr Hrs]; subst. inversion G as [|y' z0 ys' zt Hy Hys]; subst.
    cbn [map] in L, N. injection L as L0 Lt. inversion N as [|x l Nx Nl]; subst.
    cbn [combine vcopy_all vcopy_]. rewrite (host_read_has Hr). cbn [bind].
    destruct (@host_write_has V w y z0 d0 T Hy) as (w1 & E1 & C1 & D1 & H1).
    { destruct Hr as (_ & _ & Lr & _). congruence. }
    rewrite E1. cbn [bind].
    assert (FR : forall ks qs, (forall k, In k ks -> rg_buf k <> rg_buf y) ->
                 Forall2 (host_has w) ks qs -> Forall2 (host_has w1) ks qs).
    { clear - C1. intros ks qs Hne HF. induction HF; constructor.
      - eapply host_has_frame; [exact C1| |exact H]. cbn. intros [E|[]].
        apply (Hne x); [now left|auto].
      - apply IHHF. intros k Hk. apply Hne. now right. }
    destruct (IH ys dt zt w1 (c_tab C1)) as (w2 & E2 & C2 & D2 & H2); auto.
    + apply FR; [|exact Hrs]. intros k Hk E. apply (D (rg_buf k)).
      * right. now apply in_map.
      * rewrite E. now left.
    + apply FR; [|exact Hys]. intros k Hk E. apply Nx. rewrite <- E. now apply in_map.
    + intros b Hb Hb'. apply (D b); [now right|now right].
    + exists w2. split; [exact E2|]. split; [|split].
      * exact (chg_trans C1 C2).
      * congruence.
      * constructor; [|exact H2]. eapply host_has_frame; [exact C2|exact Nx|exact H1].
Qed.

Lemma host_lens (w : world) rs c : Forall2 (host_has w) rs c -> map rg_len rs = map (@length V) c.
Proof. intros F. induction F; cbn; [reflexivity|]. f_equal; [|exact IHF]. destruct H as (_ & _ & H & _). auto. Qed.

Lemma copy_new_ok (o : obj) : shape o -> o_kind o <> KTcrs ->
  new_ok (o_kind o) (o_rows o) (repeat dv (o_nnz o))
    (map (fun r => repeat dv (rg_len r)) (tl (regions o))) = true.
Proof.
  intros S N. unfold shape in S. unfold regions.
  destruct (o_kind o) eqn:K; try congruence.
  - rewrite S. reflexivity.
  - rewrite S. reflexivity.
  - destruct S as ([c1 c2] & [r1 r2] & ->). cbn. rewrite !repeat_length, !Nat.eqb_refl. reflexivity.
Qed.

Lemma upd_last A (l : list A) a b : upd (l ++ [a]) (length l) b = l ++ [b].
Proof. induction l as [|x l IH]; cbn; [reflexivity|]. now rewrite IH. Qed.

Lemma nth_error_last A (l : list A) a : nth_error (l ++ [a]) (length l) = Some a.
Proof. rewrite nth_error_app2, Nat.sub_diag by lia. reflexivity. Qed.

Lemma zero_lens o : map (@length V) (repeat dv (o_nnz o) ::
    map (fun r => repeat dv (rg_len r)) (tl (regions o))) = map rg_len (regions o).
Proof.
  rewrite (regions_hd o) at 2. cbn [map]. rewrite repeat_length. f_equal.
  rewrite map_map. apply map_ext. intros r. apply repeat_length.
Qed.

Lemma rgs_lens L vss : map rg_len (rgs (zone L vss)) = map (@length V) vss.
Proof.
  unfold rgs, zone. rewrite map_map. cbn [rg_len]. revert L.
  induction vss as [|v t IH]; intros L; cbn [length seq map combine snd]; [reflexivity|].
  f_equal. apply IH.
Qed.

Lemma obj_uses (w : world) s g o h e p : rel w s g ->
  nth_error g (h_sto h) = Some e -> nth_error (s_sto s) (h_sto h) = Some p ->
  regions o = fst e -> o_cell o = snd e -> uses w g o (h_sto h) e p.
Proof.
  intros R A B C D. pose proof (@r_place _ _ _ _ R _ _ _ A B) as P.
  repeat split; auto. unfold status. rewrite D. destruct p; destruct P as (P & _); exact P.
Qed.

Lemma copy_rel (w : world) s g gpu x h p : rel w s g -> cpu_ok gpu s -> sget s x = Some (h, p) ->
  h_kind h <> KTcrs ->
  exists o w' g', get_obj w x = Ok o /\ copy_ctor dv gpu w o = Ok w' /\
    rel w' (sadd s (h_kind h) p) g'.
Proof.
  intros R CP Hs NK.
  destruct (sget_rel x R Hs) as (o & e & G1 & G2 & G3 & G4 & G5 & G6 & G7 & G8 & G9 & G10 & G11 & G12 & G13).
  set (zs := repeat dv (o_nnz o) :: map (fun r => repeat dv (rg_len r)) (tl (regions o))).
  assert (NO : new_ok (o_kind o) (o_rows o) (repeat dv (o_nnz o))
            (map (fun r => repeat dv (rg_len r)) (tl (regions o))) = true)
    by (apply copy_new_ok; congruence).
  pose proof (@new_obj_rel w s g _ _ _ _ R NO) as NR.
  exists o.
  assert (X : exists w' g', copy_ctor dv gpu w o = Ok w' /\ rel w' (sadd s (h_kind h) p) g').
  2:{ destruct X as (w' & g' & X1 & X2). eauto. }
  assert (CC : copy_ctor dv gpu w o =
    let '(w1, n) := new_obj w (o_kind o) (o_rows o) (repeat dv (o_nnz o))
                      (map (fun r => repeat dv (rg_len r)) (tl (regions o))) in
    w2 <- (if gpu && status w o
           then w2 <- send_ gpu w1 n ;; vcopy_all w2 (combine (regions o) (regions n)) true
           else Ok w1) ;;
    w3 <- vcopy_all w2 (combine (regions o) (regions n)) false ;;
    Ok (add_obj w3 n)).
  { unfold copy_ctor. destruct (o_kind o); [reflexivity..|congruence]. }
  rewrite CC. clear CC.
  destruct (new_obj w (o_kind o) (o_rows o) (repeat dv (o_nnz o))
      (map (fun r => repeat dv (rg_len r)) (tl (regions o)))) as [w1 n] eqn:EN.
  destruct NR as (en & R1 & OR & GL). fold zs in R1.
  destruct OR as (en' & A1 & A2 & A3 & A4 & A5 & A6 & A7). cbn [h_sto h_kind h_own] in *.
  rewrite <- GL, nth_error_last in A1. injection A1 as <-.
  set (K := length (s_sto s)) in *.
  set (s1 := Sw (s_sto s ++ [OnHost zs]) (s_obj s)) in *. set (g1 := g ++ [en]) in *.
  assert (GK : nth_error g1 K = Some en) by (unfold g1; rewrite <- GL; apply nth_error_last).
  assert (SK : nth_error (s_sto s1) K = Some (OnHost zs)) by apply nth_error_last.
  assert (HK : h_sto h < K).
  { apply nth_error_Some. unfold K. congruence. }
  assert (GX : nth_error g1 (h_sto h) = Some e)
    by (unfold g1; rewrite nth_error_app1 by lia; exact G5).
  assert (SX : forall q, nth_error (upd (s_sto s1) K q) (h_sto h) = Some p).
  { intros q. rewrite nth_error_upd_ne by lia. cbn. rewrite nth_error_app1 by exact HK. exact G4. }
  assert (LEN : map rg_len (fst e) = map rg_len (fst en)).
  { rewrite <- G6, <- A2. rewrite <- zero_lens. fold zs.
    pose proof (@r_place _ _ _ _ R1 _ _ _ GK SK) as P. destruct P as (_ & P & _).
    symmetry. rewrite A2. exact (host_lens P). }
  assert (NDn : NoDup (ebufs en)) by (eapply (r_nodup R1); eauto).
  assert (DJ : forall b, In b (ebufs e) -> ~ In b (ebufs en)).
  { intros b Hb Hb'. assert (h_sto h = K) by (eapply (r_disj R1); eauto). lia. }
  rewrite G6, A2.
  (* after the device part *)
  assert (Y : exists w2, (if gpu && status w o
           then w2 <- send_ gpu w1 n ;; vcopy_all w2 (combine (fst e) (fst en)) true
           else Ok w1) = Ok w2 /\
     exists q, rel w2 (Sw (upd (s_sto s1) K q) (s_obj s)) g1 /\
       match p with OnHost _ => q = OnHost zs | OnDev _ d => q = OnDev zs d end).
  { rewrite G13. destruct p as [c|hc d]; cbn [on_dev].
    - rewrite andb_false_r. exists w1. split; [reflexivity|]. exists (OnHost zs).
      split; [|reflexivity]. rewrite (upd_same _ _ SK). exact R1.
    - destruct CP as [->|CP]; [|specialize (CP _ _ G4); discriminate]. cbn [andb].
      assert (U : uses w1 g1 n K en (OnHost zs)).
      { split; [exact GK|]. split; [exact A2|]. split; [exact A3|].
        pose proof (@r_place _ _ _ _ R1 _ _ _ GK SK) as P. split; [exact P|].
        unfold status. rewrite A3. destruct P as (P & _). exact P. }
      destruct (send_rel R1 U) as (w2 & E2 & R2). rewrite E2. cbn [bind].
      cbn [s_obj s1] in R2.
      pose proof (@r_place _ _ _ _ R2 _ _ _ GX (SX _)) as PX.
      assert (PN : place_rel w2 en (OnDev zs zs)).
      { eapply (r_place R2); [exact GK|]. cbn [s_sto]. apply nth_error_upd_eq.
        cbn. rewrite app_length. cbn. unfold K. lia. }
      destruct PX as (PX0 & PX1 & PX2), PN as (PN0 & PN1 & PN2).
      destruct (@vcopy_dev_all _ _ _ _ w2 (r_tab R2) PX2 PN2 LEN NDn DJ) as (w3 & E3 & C3 & H3 & F3).
      exists w3. split; [exact E3|]. exists (OnDev zs d). split; [|reflexivity].
      assert (R3 := @rel_sto_chg V w2 _ g1 w3 K en (OnDev zs d) R2 GK C3). cbn [s_sto s_obj] in R3.
      assert (UU : forall a b : storage, upd (upd (s_sto s1) K a) K b = upd (s_sto s1) K b).
      { intros a b. cbn. unfold K. rewrite !upd_last. reflexivity. }
      rewrite UU in R3. apply R3. cbn [place_rel]. split; [rewrite (c_cell C3); exact PN0|].
      split; [|exact F3]. eapply Forall2_imp; [|exact PN1]. intros r y Hy.
      unfold host_has, hostb in *. rewrite H3. exact Hy. }
  destruct Y as (w2 & E2 & q & R2 & Hq). rewrite E2. cbn [bind].
  assert (KL : K < length (s_sto s1)) by (cbn; rewrite app_length; cbn; unfold K; lia).
  pose proof (@r_place _ _ _ _ R2 _ _ _ GX (SX _)) as PX.
  assert (PN : place_rel w2 en q).
  { eapply (r_place R2); [exact GK|]. cbn [s_sto]. now apply nth_error_upd_eq. }
  assert (HX : exists c, Forall2 (host_has w2) (fst e) c /\
     match p with OnHost c' => c = c' | OnDev c' _ => c = c' end).
  { destruct p; destruct PX as (_ & PX & _); eauto. }
  destruct HX as (c & HX & Hc).
  assert (HN : Forall2 (host_has w2) (fst en) zs).
  { destruct p; subst q; destruct PN as (_ & PN & _); exact PN. }
  destruct (@vcopy_host_all _ _ _ _ w2 (r_tab R2) HX HN LEN NDn DJ) as (w3 & E3 & C3 & D3 & F3).
  rewrite E3. cbn [bind].
  assert (R3 : rel w3 (Sw (s_sto s ++ [p]) (s_obj s)) g1).
  { assert (R3 := @rel_sto_chg V w2 _ g1 w3 K en p R2 GK C3). cbn [s_sto s_obj] in R3.
    assert (UU : forall a b : storage, upd (upd (s_sto s1) K a) K b = s_sto s ++ [b]).
    { intros a b. cbn. unfold K. rewrite !upd_last. reflexivity. }
    rewrite UU in R3. apply R3.
    destruct p as [c'|c' d']; subst q c; destruct PN as (PN0 & PN1 & PN2); cbn [place_rel].
    - split; [rewrite (c_cell C3); exact PN0|]. split; [exact F3|].
      apply Forall_forall. intros r Hr. rewrite Forall_forall in PN2. unfold no_dev. rewrite D3.
      apply PN2. exact Hr.
    - split; [rewrite (c_cell C3); exact PN0|]. split; [exact F3|].
      eapply Forall2_imp; [|exact PN2]. intros r y Hy. unfold dev_has in *. rewrite D3. exact Hy. }
  exists (add_obj w3 n), g1. split; [reflexivity|]. unfold sadd.
  change (s_sto s ++ [p]) with (s_sto (Sw (s_sto s ++ [p]) (s_obj s))) at 1.
  apply (rel_add_obj (s := Sw (s_sto s ++ [p]) (s_obj s))); [exact R3|].
  exists en. cbn [h_sto h_kind h_own]. fold K.
  assert (NK2 : o_kind n = h_kind h).
  { rewrite new_obj_eq in EN. injection EN as _ <-. cbn. exact G8. }
  repeat split; auto.
  assert (Hb : length (hostb w3 (o_buf n)) = length (hostb w1 (o_buf n))).
  { rewrite (c_blen C3).
    (* buffers keep their length through the device part *)
    clear - E2 EN R1. revert E2. destruct (gpu && status w o); [|intros E; injection E as <-; reflexivity].
    intros E. apply bind_ok in E. destruct E as (w2' & E1 & E2).
    assert (HH : forall f rs (a b : world), (forall a r b, f a r = Ok b -> w_host b = w_host a) ->
              each_ f a rs = Ok b -> w_host b = w_host a).
    { intros f rs. induction rs as [|r rs IH]; intros a b Hf H; cbn [each_] in H.
      - injection H as <-. reflexivity.
      - apply bind_ok in H. destruct H as (c & H1 & H2). rewrite (IH _ _ Hf H2). eapply Hf; eauto. }
    assert (DW : forall (a : world) r vs b, dev_write a r vs = Ok b -> w_host b = w_host a).
    { intros a r vs b H. unfold dev_write in H. destruct (rg_len r =? 0); [injection H as <-; reflexivity|].
      destruct (find (covers r) (w_dev a)); [|discriminate]. apply bind_ok in H.
      destruct H as (dd & _ & H). injection H as <-. reflexivity. }
    assert (W12 : w_host w2' = w_host w1).
    { unfold send_ in E1. destruct gpu; [|injection E1 as <-; reflexivity].
      destruct (status w1 n).
      - eapply HH; [|exact E1]. intros a r b H. unfold update_to in H.
        destruct (rg_len r =? 0); [injection H as <-; reflexivity|].
        destruct (find (covers r) (w_dev a)).
        + apply bind_ok in H. destruct H as (vs & _ & H). eapply DW; eauto.
        + destruct (existsb (overlaps r) (w_dev a)); [discriminate|]. injection H as <-. reflexivity.
      - apply bind_ok in E1. destruct E1 as (wx & E1 & E3). injection E3 as <-. cbn.
        eapply HH; [|exact E1]. intros a r b H. unfold enter_to in H.
        destruct (rg_len r =? 0); [injection H as <-; reflexivity|].
        destruct (find (covers r) (w_dev a)).
        + injection H as <-. reflexivity.
        + destruct (existsb (overlaps r) (w_dev a)); [discriminate|].
          apply bind_ok in H. destruct H as (vs & _ & H). injection H as <-. reflexivity. }
    assert (W23 : w_host w2 = w_host w2').
    { clear - E2 DW. revert w2' E2. generalize (combine (fst e) (fst en)). intros l.
      induction l as [|[a y] l IH]; intros w2' H; cbn [vcopy_all] in H.
      - injection H as <-. reflexivity.
      - apply bind_ok in H. destruct H as (c & H1 & H2). rewrite (IH _ H2).
        cbn [vcopy_] in H1. apply bind_ok in H1. destruct H1 as (vs & _ & H1). eapply DW; eauto. }
    unfold hostb. rewrite W23, W12. reflexivity. }
  rewrite Hb. exact A6.
Qed.

End GpuProof3.

(** * GpuProof2: the OpenMP machine simulates the two-copy machine. *)
From Verif Require Import Base GpuModel GpuSpec GpuProof.
Set Implicit Arguments.

Section GpuProof2.
Variable V : Type.
Variable dv : V.
Local Notation world := (world V).
Local Notation sworld := (sworld V).
Local Notation storage := (storage V).

(** the sections and the status cell of every storage *)
Definition ghost := list (list region * nat).
Definition ebufs (e : list region * nat) : list nat := map rg_buf (fst e).

Definition place_rel (w : world) (e : list region * nat) (p : storage) : Prop :=
  match p with
  | OnHost c => nth (snd e) (w_cell w) false = false /\
                Forall2 (host_has w) (fst e) c /\ Forall (no_dev w) (fst e)
  | OnDev h d => nth (snd e) (w_cell w) false = true /\
                 Forall2 (host_has w) (fst e) h /\ Forall2 (dev_has w) (fst e) d
  end.

Definition shape (o : obj) : Prop :=
  match o_kind o with
  | KVec | KDense => o_idx o = []
  | KCrs => exists c r, o_idx o = [c; r]
  | KTcrs => True
  end.

Definition obj_rel (w : world) (g : ghost) (o : obj) (h : handle) : Prop :=
  exists e, nth_error g (h_sto h) = Some e /\ regions o = fst e /\ o_cell o = snd e /\
    o_kind o = h_kind h /\ o_own o = h_own h /\
    o_alloc o = length (hostb w (o_buf o)) /\ shape o.

Record rel (w : world) (s : sworld) (g : ghost) : Prop := {
  r_len : length g = length (s_sto s);
  r_tab : tab_ok w;
  r_nodup : forall k e, nth_error g k = Some e -> NoDup (ebufs e);
  r_disj : forall k k' e e' b, nth_error g k = Some e -> nth_error g k' = Some e' ->
             In b (ebufs e) -> In b (ebufs e') -> k = k';
  r_cells : forall k k' e e', nth_error g k = Some e -> nth_error g k' = Some e' ->
             snd e = snd e' -> k = k';
  r_cell_lt : forall k e, nth_error g k = Some e -> snd e < length (w_cell w);
  r_place : forall k e p, nth_error g k = Some e -> nth_error (s_sto s) k = Some p ->
             place_rel w e p;
  r_dev : forall b, dlook (w_dev w) b <> None ->
             exists k e, nth_error g k = Some e /\ In b (ebufs e);
  r_olen : length (w_obj w) = length (s_obj s);
  r_obj : forall i, match nth_error (w_obj w) i, nth_error (s_obj s) i with
                    | Some (Some o), Some (Some h) => obj_rel w g o h
                    | Some None, Some None => True
                    | None, None => True
                    | _, _ => False
                    end }.

Lemma host_has_ext (w w' : world) r c :
  host_has w r c -> length (w_host w) <= length (w_host w') ->
  hostb w' (rg_buf r) = hostb w (rg_buf r) -> host_has w' r c.
Proof.
  intros (A & B & L & E) HL HB. repeat split; auto; [lia|]. rewrite HB. exact E.
Qed.

Lemma place_ext (w w' : world) e p :
  place_rel w e p -> length (w_host w) <= length (w_host w') ->
  (forall b, In b (ebufs e) -> hostb w' b = hostb w b) ->
  (forall b, In b (ebufs e) -> dlook (w_dev w') b = dlook (w_dev w) b) ->
  nth (snd e) (w_cell w') false = nth (snd e) (w_cell w) false ->
  place_rel w' e p.
Proof.
  intros H HL HB HD HC.
  assert (F2h : forall c, Forall2 (host_has w) (fst e) c -> Forall2 (host_has w') (fst e) c).
  { intros c. unfold ebufs in HB. revert c HB. induction (fst e) as [|r rs IH]; intros c HB F;
      inversion F; subst; constructor.
    - eapply host_has_ext; eauto. apply HB. now left.
    - apply IH; auto. intros b Hb. apply HB. now right. }
  destruct p as [c|hc d]; destruct H as (C & Hh & Hd); (split; [congruence|split; [auto|]]).
  - unfold ebufs in HD. apply Forall_forall. intros r Hr. rewrite Forall_forall in Hd.
    specialize (Hd r Hr). unfold no_dev in *. rewrite HD; auto. now apply in_map.
  - unfold ebufs in HD. clear - Hd HD. revert d Hd HD. induction (fst e) as [|r rs IH]; intros d F HD;
      inversion F as [|r' d0 rs' dt HR HF]; subst; constructor.
    + destruct HR as (A & L & E). repeat split; auto. rewrite HD; auto. now left.
    + apply IH; auto. intros b Hb. apply HD. now right.
Qed.

Lemma nth_error_upd_eq A (l : list A) i v : i < length l -> nth_error (upd l i v) i = Some v.
Proof. intros H. rewrite nth_error_upd, Nat.eqb_refl, (proj2 (Nat.ltb_lt _ _) H). reflexivity. Qed.
Lemma nth_error_upd_ne A (l : list A) i j v : i <> j -> nth_error (upd l i v) j = nth_error l j.
Proof. intros H. rewrite nth_error_upd, (proj2 (Nat.eqb_neq _ _) H). reflexivity. Qed.

(** storage [k] changes, nothing else does *)
Lemma rel_sto (w : world) s g w' k e p' :
  rel w s g -> nth_error g k = Some e ->
  w_obj w' = w_obj w -> length (w_host w') = length (w_host w) ->
  (forall b, length (hostb w' b) = length (hostb w b)) ->
  (forall b, ~ In b (ebufs e) -> hostb w' b = hostb w b) ->
  (forall b, ~ In b (ebufs e) -> dlook (w_dev w') b = dlook (w_dev w) b) ->
  tab_ok w' -> length (w_cell w') = length (w_cell w) ->
  (forall c, c <> snd e -> nth c (w_cell w') false = nth c (w_cell w) false) ->
  place_rel w' e p' ->
  rel w' (Sw (upd (s_sto s) k p') (s_obj s)) g.
Proof.
  intros R Hk HO HL HBL HH HD T HCL HC HP.
  assert (Klt : k < length (s_sto s)).
  { rewrite <- (r_len R). apply nth_error_Some. congruence. }
  constructor; cbn [s_sto s_obj]; try apply R; auto.
  - rewrite upd_length. apply (r_len R).
  - intros k' e' H. rewrite HCL. eapply (r_cell_lt R). exact H.
  - intros k' e' p'' H1 H2. destruct (Nat.eq_dec k k') as [<-|N].
    + rewrite nth_error_upd_eq in H2 by exact Klt. assert (e' = e) by congruence. subst.
      injection H2 as <-. exact HP.
    + rewrite nth_error_upd_ne in H2 by exact N.
      apply place_ext with (w := w).
      * eapply (r_place R); eauto.
      * lia.
      * intros b Hb. apply HH. intros X. apply N. exact (@r_disj _ _ _ R k k' e e' b Hk H1 X Hb).
      * intros b Hb. apply HD. intros X. apply N. exact (@r_disj _ _ _ R k k' e e' b Hk H1 X Hb).
      * apply HC. intros X. apply N. symmetry. exact (@r_cells _ _ _ R k' k e' e H1 Hk X).
  - intros b Hb. destruct (in_dec Nat.eq_dec b (ebufs e)) as [I|I].
    + exists k, e. auto.
    + rewrite HD in Hb by exact I. exact (@r_dev _ _ _ R b Hb).
  - rewrite HO. apply (r_olen R).
  - intros i. rewrite HO. pose proof (r_obj R i) as Q.
    destruct (nth_error (w_obj w) i) as [[o|]|], (nth_error (s_obj s) i) as [[h|]|]; auto.
    destruct Q as (e' & A & B & C & D & E & F & G). exists e'. repeat split; auto.
    rewrite HBL. exact F.
Qed.

Lemma rel_sto_chg (w : world) s g w' k e p' :
  rel w s g -> nth_error g k = Some e -> chg w w' (ebufs e) -> place_rel w' e p' ->
  rel w' (Sw (upd (s_sto s) k p') (s_obj s)) g.
Proof.
  intros R Hk C HP. eapply rel_sto; eauto; try apply C.
  - rewrite (c_cell C). reflexivity.
  - intros c _. rewrite (c_cell C). reflexivity.
Qed.

Lemma rel_sto_cell (w : world) s g w1 k e p' b :
  rel w s g -> nth_error g k = Some e -> chg w w1 (ebufs e) ->
  place_rel (set_cell w1 (snd e) b) e p' ->
  rel (set_cell w1 (snd e) b) (Sw (upd (s_sto s) k p') (s_obj s)) g.
Proof.
  intros R Hk C HP. eapply rel_sto; eauto; cbn [set_cell w_obj w_host w_dev w_cell]; try apply C.
  - rewrite upd_length, (c_cell C). reflexivity.
  - intros c Hc. rewrite nth_upd_other by auto. rewrite (c_cell C). reflexivity.
Qed.

Lemma sget_rel (w : world) s g i h p : rel w s g -> sget s i = Some (h, p) ->
  exists o e, get_obj w i = Ok o /\ nth_error (w_obj w) i = Some (Some o) /\
    nth_error (s_obj s) i = Some (Some h) /\ nth_error (s_sto s) (h_sto h) = Some p /\
    nth_error g (h_sto h) = Some e /\ regions o = fst e /\ o_cell o = snd e /\
    o_kind o = h_kind h /\ o_own o = h_own h /\
    o_alloc o = length (hostb w (o_buf o)) /\ shape o /\
    place_rel w e p /\ status w o = on_dev p.
Proof.
  intros R H. unfold sget in H. pose proof (r_obj R i) as Q.
  destruct (nth_error (s_obj s) i) as [[h'|]|] eqn:E1; try discriminate.
  destruct (nth_error (s_sto s) (h_sto h')) as [p'|] eqn:E2; try discriminate.
  injection H as -> ->.
  destruct (nth_error (w_obj w) i) as [[o|]|] eqn:E3; try contradiction.
  destruct Q as (e & A & B & C & D & E & F & G).
  pose proof (@r_place _ _ _ R _ _ _ A E2) as P.
  exists o, e. unfold get_obj. rewrite E3. repeat split; auto.
  unfold status. rewrite C. destruct p; destruct P as (P & _); exact P.
Qed.

(** ** pairing lists *)
Lemma zip2 B (P Q : region -> B -> Prop) rs (h d : list B) :
  Forall2 P rs h -> Forall2 Q rs d ->
  Forall2 (fun r x => P r (fst x) /\ Q r (snd x)) rs (combine h d).
Proof.
  intros H. revert d. induction H; intros d F; inversion F; subst; cbn; constructor; auto.
Qed.
Lemma unzip1 B (P : region -> B -> Prop) rs (h d : list B) : length h = length d ->
  Forall2 (fun r x => P r (fst x)) rs (combine h d) -> Forall2 P rs h.
Proof.
  revert rs d. induction h as [|a h IH]; intros rs [|b d] L F; try discriminate;
    inversion F; subst; constructor; eauto.
Qed.
Lemma unzip2 B (P : region -> B -> Prop) rs (h d : list B) : length h = length d ->
  Forall2 (fun r x => P r (snd x)) rs (combine h d) -> Forall2 P rs d.
Proof.
  revert rs d. induction h as [|a h IH]; intros rs [|b d] L F; try discriminate;
    inversion F; subst; constructor; eauto.
Qed.
Lemma Forall2_imp A B (P Q : A -> B -> Prop) l m :
  (forall a b, P a b -> Q a b) -> Forall2 P l m -> Forall2 Q l m.
Proof. intros H F. induction F; constructor; auto. Qed.
Lemma Forall2_left A B (P : A -> Prop) l (m : list B) : Forall2 (fun a _ => P a) l m -> Forall P l.
Proof. intros F. induction F; constructor; auto. Qed.
Lemma Forall2_len A B (P : A -> B -> Prop) l m : Forall2 P l m -> length l = length m.
Proof. intros F. induction F; cbn; auto. Qed.
Lemma Forall2_withleft A B (P : A -> Prop) (Q : A -> B -> Prop) l m :
  Forall P l -> Forall2 Q l m -> Forall2 (fun a b => P a /\ Q a b) l m.
Proof. intros F G. induction G; inversion F; subst; constructor; auto. Qed.

(** ** communication on a storage *)
Lemma enter_all (w : world) e c : tab_ok w -> NoDup (ebufs e) ->
  Forall2 (host_has w) (fst e) c -> Forall (no_dev w) (fst e) ->
  exists w', each_ (@enter_to V) w (fst e) = Ok w' /\ chg w w' (ebufs e) /\
    Forall2 (host_has w') (fst e) c /\ Forall2 (dev_has w') (fst e) c.
Proof.
  intros T N H D.
  destruct (@each_gen V _ (@enter_to V) (fun w r c => no_dev w r /\ host_has w r c)
     (fun w r c => host_has w r c /\ dev_has w r c)) with (rs := fst e) (l := c) (w := w)
     as (w' & E & C & F); auto.
  - intros w1 r a T1 [P1 P2]. destruct (enter_spec T1 P2 P1) as (w2 & A & B & D1 & D2). eauto.
  - intros w1 w2 r a bs C Nb [P1 P2].
    split; [eapply no_dev_frame | eapply host_has_frame]; eauto.
  - intros w1 w2 r a bs C Nb [P1 P2].
    split; [eapply host_has_frame | eapply dev_has_frame]; eauto.
  - apply Forall2_withleft; auto.
  - exists w'. repeat split; auto; try apply C; eapply Forall2_imp; try exact F; cbn; tauto.
Qed.

Lemma pair_frame w1 w2 r (a : list V * list V) bs :
  chg w1 w2 bs -> ~ In (rg_buf r) bs ->
  host_has w1 r (fst a) /\ dev_has w1 r (snd a) -> host_has w2 r (fst a) /\ dev_has w2 r (snd a).
Proof.
  intros C Nb [P1 P2]. split; [eapply host_has_frame | eapply dev_has_frame]; eauto.
Qed.

Lemma exit_all copy (w : world) e h d : tab_ok w -> NoDup (ebufs e) ->
  Forall2 (host_has w) (fst e) h -> Forall2 (dev_has w) (fst e) d ->
  exists w', each_ (@exit_data V copy) w (fst e) = Ok w' /\ chg w w' (ebufs e) /\
    Forall2 (host_has w') (fst e) (if copy then d else h) /\ Forall (no_dev w') (fst e).
Proof.
  intros T N H D.
  assert (L : length h = length d) by (apply Forall2_len in H, D; congruence).
  destruct (@each_gen V _ (@exit_data V copy)
     (fun w r x => host_has w r (fst x) /\ dev_has w r (snd x))
     (fun w r x => host_has w r (if copy then snd x else fst x) /\ no_dev w r))
     with (rs := fst e) (l := combine h d) (w := w) as (w' & E & C & F); auto.
  - intros w1 r a T1 [P1 P2]. exact (exit_spec copy T1 P1 P2).
  - intros. eapply pair_frame; eauto.
  - intros w1 w2 r a bs C Nb [P1 P2].
    split; [eapply host_has_frame | eapply no_dev_frame]; eauto.
  - apply zip2; auto.
  - exists w'. split; [exact E|]. split; [exact C|]. split.
    + destruct copy.
      * eapply unzip2; [exact L|]. eapply Forall2_imp; [|exact F]. cbn. tauto.
      * eapply unzip1; [exact L|]. eapply Forall2_imp; [|exact F]. cbn. tauto.
    + eapply Forall2_left. eapply Forall2_imp; [|exact F]. cbn. tauto.
Qed.

Lemma update_all (to : bool) (w : world) e h d : tab_ok w -> NoDup (ebufs e) ->
  Forall2 (host_has w) (fst e) h -> Forall2 (dev_has w) (fst e) d ->
  exists w', each_ (if to then @update_to V else @update_from V) w (fst e) = Ok w' /\
    chg w w' (ebufs e) /\
    Forall2 (host_has w') (fst e) (if to then h else d) /\
    Forall2 (dev_has w') (fst e) (if to then h else d).
Proof.
  intros T N H D.
  assert (L : length h = length d) by (apply Forall2_len in H, D; congruence).
  destruct (@each_gen V _ (if to then @update_to V else @update_from V)
     (fun w r x => host_has w r (fst x) /\ dev_has w r (snd x))
     (fun w r x => host_has w r (if to then fst x else snd x) /\
                   dev_has w r (if to then fst x else snd x)))
     with (rs := fst e) (l := combine h d) (w := w) as (w' & E & C & F); auto.
  - intros w1 r a T1 [P1 P2]. destruct to; [exact (update_to_spec T1 P1 P2)|exact (update_from_spec T1 P1 P2)].
  - intros. eapply pair_frame; eauto.
  - intros w1 w2 r a bs C Nb [P1 P2].
    split; [eapply host_has_frame | eapply dev_has_frame]; eauto.
  - apply zip2; auto.
  - exists w'. split; [exact E|]. split; [exact C|]. destruct to; split.
    + eapply unzip1; [exact L|]. eapply Forall2_imp; [|exact F]. cbn. tauto.
    + eapply unzip1; [exact L|]. eapply Forall2_imp; [|exact F]. cbn. tauto.
    + eapply unzip2; [exact L|]. eapply Forall2_imp; [|exact F]. cbn. tauto.
    + eapply unzip2; [exact L|]. eapply Forall2_imp; [|exact F]. cbn. tauto.
Qed.

Lemma place_set_cell (w : world) e p b : snd e < length (w_cell w) ->
  (match p with OnHost c => b = false /\ Forall2 (host_has w) (fst e) c /\ Forall (no_dev w) (fst e)
   | OnDev h d => b = true /\ Forall2 (host_has w) (fst e) h /\ Forall2 (dev_has w) (fst e) d end) ->
  place_rel (set_cell w (snd e) b) e p.
Proof.
  intros L. destruct p; cbn [place_rel set_cell w_cell]; intros (-> & A & B);
    (split; [now apply nth_upd_same|split; [exact A|exact B]]).
Qed.

(** a storage, its object and the object's sections *)
Definition uses (w : world) (g : ghost) (o : obj) (k : nat) (e : list region * nat) (p : storage) : Prop :=
  nth_error g k = Some e /\ regions o = fst e /\ o_cell o = snd e /\
  place_rel w e p /\ status w o = on_dev p.

Lemma send_rel (w : world) s g o k e p : rel w s g -> uses w g o k e p ->
  exists w', send_ true w o = Ok w' /\
    rel w' (Sw (upd (s_sto s) k (match p with OnHost c => OnDev c c | OnDev h _ => OnDev h h end))
               (s_obj s)) g.
Proof.
  intros R (Hk & Hr & Hc & P & S). unfold send_. rewrite S, Hr, Hc.
  pose proof (@r_nodup _ _ _ R k e Hk) as N. pose proof (@r_cell_lt _ _ _ R k e Hk) as CL.
  destruct p as [c|h d]; cbn [on_dev]; destruct P as (P0 & P1 & P2).
  - destruct (@enter_all w e c (r_tab R) N P1 P2) as (w' & E & C & F1 & F2).
    rewrite E. cbn [bind]. eexists. split; [reflexivity|].
    eapply rel_sto_cell; eauto. apply place_set_cell; [rewrite (c_cell C); exact CL|]. auto.
  - destruct (@update_all true w e h d (r_tab R) N P1 P2) as (w' & E & C & F1 & F2).
    exists w'. split; [exact E|]. eapply rel_sto_chg; eauto.
    cbn. rewrite (c_cell C). auto.
Qed.

Lemma upd_same A (l : list A) i v : nth_error l i = Some v -> upd l i v = l.
Proof.
  revert i. induction l as [|a l IH]; intros [|i] H; cbn in *; try congruence.
  f_equal. auto.
Qed.

Lemma rel_same (w : world) s g k p : rel w s g -> nth_error (s_sto s) k = Some p ->
  rel w (Sw (upd (s_sto s) k p) (s_obj s)) g.
Proof. intros R H. rewrite (upd_same _ _ H). destruct s. exact R. Qed.

Lemma recv_rel (w : world) s g o k e p : rel w s g -> uses w g o k e p ->
  nth_error (s_sto s) k = Some p ->
  exists w', recv_ true w o = Ok w' /\
    rel w' (Sw (upd (s_sto s) k (match p with OnDev _ d => OnHost d | _ => p end)) (s_obj s)) g.
Proof.
  intros R (Hk & Hr & Hc & P & S) Hp. unfold recv_. rewrite S, Hr, Hc.
  pose proof (@r_nodup _ _ _ R k e Hk) as N. pose proof (@r_cell_lt _ _ _ R k e Hk) as CL.
  destruct p as [c|h d]; cbn [on_dev].
  - exists w. split; [reflexivity|]. now apply rel_same.
  - destruct P as (P0 & P1 & P2).
    destruct (@exit_all true w e h d (r_tab R) N P1 P2) as (w' & E & C & F1 & F2).
    rewrite E. cbn [bind]. eexists. split; [reflexivity|].
    eapply rel_sto_cell; eauto. apply place_set_cell; [rewrite (c_cell C); exact CL|]. auto.
Qed.

Lemma free_rel (w : world) s g o k e p : rel w s g -> uses w g o k e p ->
  nth_error (s_sto s) k = Some p ->
  exists w', device_free_ true w o = Ok w' /\
    rel w' (Sw (upd (s_sto s) k (match p with OnDev h _ => OnHost h | _ => p end)) (s_obj s)) g.
Proof.
  intros R (Hk & Hr & Hc & P & S) Hp. unfold device_free_. rewrite S, Hr, Hc.
  pose proof (@r_nodup _ _ _ R k e Hk) as N. pose proof (@r_cell_lt _ _ _ R k e Hk) as CL.
  destruct p as [c|h d]; cbn [on_dev].
  - exists w. split; [reflexivity|]. now apply rel_same.
  - destruct P as (P0 & P1 & P2).
    destruct (@exit_all false w e h d (r_tab R) N P1 P2) as (w' & E & C & F1 & F2).
    rewrite E. cbn [bind]. eexists. split; [reflexivity|].
    eapply rel_sto_cell; eauto. apply place_set_cell; [rewrite (c_cell C); exact CL|]. auto.
Qed.

Lemma nonfree_rel (w : world) s g o k e p : rel w s g -> uses w g o k e p ->
  nth_error (s_sto s) k = Some p ->
  exists w', nonfree_recv_ true w o = Ok w' /\
    rel w' (Sw (upd (s_sto s) k (match p with OnDev _ d => OnDev d d | _ => p end)) (s_obj s)) g.
Proof.
  intros R (Hk & Hr & Hc & P & S) Hp. unfold nonfree_recv_. rewrite S, Hr.
  pose proof (@r_nodup _ _ _ R k e Hk) as N.
  destruct p as [c|h d]; cbn [on_dev].
  - exists w. split; [reflexivity|]. now apply rel_same.
  - destruct P as (P0 & P1 & P2).
    destruct (@update_all false w e h d (r_tab R) N P1 P2) as (w' & E & C & F1 & F2).
    exists w'. split; [exact E|]. eapply rel_sto_chg; eauto.
    cbn. rewrite (c_cell C). auto.
Qed.

(** ** writing values *)
Lemma regions_hd o : regions o = val_region o :: tl (regions o).
Proof. reflexivity. Qed.

Lemma current_vals (w : world) e p r0 rt : place_rel w e p -> fst e = r0 :: rt ->
  length (vals (current p)) = rg_len r0 /\
  exists ct, current p = vals (current p) :: ct.
Proof.
  intros P E. destruct p as [c|h d]; destruct P as (_ & P1 & P2); rewrite E in *; cbn [current].
  - inversion P1 as [|a b l m HA HB]; subst. cbn. destruct HA as (_ & _ & L & _). eauto.
  - inversion P2 as [|a b l m HA HB]; subst. cbn. destruct HA as (_ & L & _). eauto.
Qed.

Lemma head_frame (P : world -> region -> list V -> Prop) w w' r0 rt c0 c0' ct :
  (forall r c, ~ In (rg_buf r) [rg_buf r0] -> P w r c -> P w' r c) ->
  NoDup (map rg_buf (r0 :: rt)) ->
  Forall2 (P w) (r0 :: rt) (c0 :: ct) -> P w' r0 c0' -> Forall2 (P w') (r0 :: rt) (c0' :: ct).
Proof.
  intros F N H H0. inversion H as [|a b l m HA HB]; subst. constructor; [exact H0|].
  cbn [map] in N. inversion N as [|x y Nx Ny]; subst.
  assert (G : forall ks zs, incl ks rt -> Forall2 (P w) ks zs -> Forall2 (P w') ks zs).
  { clear - F Nx. intros ks zs Hi HF. induction HF; constructor.
    - apply F; auto. cbn. intros [E|[]]. apply Nx. rewrite E. apply in_map, Hi. now left.
    - apply IHHF. intros z Hz. apply Hi. now right. }
  apply (G rt ct); auto. apply incl_refl.
Qed.

Definition side_write (dev : bool) (w : world) (r : region) (vs : list V) : res world :=
  if dev then dev_write w r vs else host_write w r vs.

Lemma write_vals (w : world) s g o k e p lo vs : rel w s g -> uses w g o k e p ->
  lo + length vs <= length (vals (current p)) ->
  exists w', side_write (on_dev p) w (Rg (o_buf o) lo (length vs)) vs = Ok w' /\
    chg w w' (ebufs e) /\
    place_rel w' e (set_current p (set_vals (current p)
      (firstn lo (vals (current p)) ++ vs ++ skipn (lo + length vs) (vals (current p))))) /\
    rel w' (Sw (upd (s_sto s) k (set_current p (set_vals (current p)
      (firstn lo (vals (current p)) ++ vs ++ skipn (lo + length vs) (vals (current p)))))) (s_obj s)) g.
Proof.
  intros R (Hk & Hr & Hc & P & S) Hl.
  assert (Ee : fst e = val_region o :: tl (regions o)) by (rewrite <- Hr; reflexivity).
  pose proof (@r_nodup _ _ _ R k e Hk) as N.
  destruct (@current_vals w e p _ _ P Ee) as (L & ct & Ec).
  assert (X : exists w', side_write (on_dev p) w (Rg (o_buf o) lo (length vs)) vs = Ok w' /\
    chg w w' (ebufs e) /\
    place_rel w' e (set_current p (set_vals (current p)
      (firstn lo (vals (current p)) ++ vs ++ skipn (lo + length vs) (vals (current p)))))).
  { unfold ebufs in N. rewrite Ee in N.
    assert (I : incl [rg_buf (val_region o)] (ebufs e)).
    { unfold ebufs. rewrite Ee. intros b Hb. destruct Hb as [<-|[]]. now left. }
    destruct p as [c|h d]; cbn [on_dev side_write current set_current] in *;
      destruct P as (P0 & P1 & P2).
    - rewrite Ec in P1. rewrite Ee in P1. pose proof P1 as P1'.
      inversion P1' as [|a b l m HA HB]; subst. clear P1'.
      destruct (@host_write_sub V w (val_region o) (vals c) lo vs (r_tab R) HA Hl)
        as (w' & E & C & D & HH).
      exists w'. split; [exact E|]. split; [eapply chg_mono; eauto|].
      cbn [place_rel]. split; [rewrite (c_cell C); exact P0|]. split.
      + rewrite Ee. rewrite Ec. cbn [set_vals].
        apply (@head_frame (@host_has V) w w') with (c0 := vals c); auto.
        intros r x Nr Hx. eapply host_has_frame; eauto.
      + apply Forall_forall. intros r Hrr. rewrite Forall_forall in P2.
        unfold no_dev. rewrite D. apply P2. exact Hrr.
    - rewrite Ec in P2. rewrite Ee in P2. pose proof P2 as P2'.
      inversion P2' as [|a b l m HA HB]; subst. clear P2'.
      destruct (@dev_write_sub V w (val_region o) (vals d) lo vs (r_tab R) HA Hl)
        as (w' & E & C & D & HH).
      exists w'. split; [exact E|]. split; [eapply chg_mono; eauto|].
      cbn [place_rel]. split; [rewrite (c_cell C); exact P0|]. split.
      + eapply Forall2_imp; [|exact P1]. intros r x Hx.
        unfold host_has, hostb in *. rewrite D. exact Hx.
      + rewrite Ee. rewrite Ec. cbn [set_vals].
        apply (@head_frame (@dev_has V) w w') with (c0 := vals d); auto.
        intros r x Nr Hx. eapply dev_has_frame; eauto. }
  destruct X as (w' & E & C & PP). exists w'. split; [exact E|]. split; [exact C|].
  split; [exact PP|]. eapply rel_sto_chg; eauto.
Qed.

(** ** reading *)
Lemma mapM_ok A B (f : A -> res B) l m : Forall2 (fun a b => f a = Ok b) l m -> mapM f l = Ok m.
Proof. intros F. induction F; cbn [mapM]; [reflexivity|]. now rewrite H, IHF. Qed.

Lemma read_current (w : world) s g o k e p win : rel w s g -> uses w g o k e p ->
  win_ok (current p) win = true ->
  mapM (side_read (on_dev p) w) (operand_regions o win) = Ok (win_read (current p) win).
Proof.
  intros R (Hk & Hr & Hc & P & S) Hw.
  assert (Ee : fst e = val_region o :: tl (regions o)) by (rewrite <- Hr; reflexivity).
  destruct win as [[lo len]|]; cbn [operand_regions win_read].
  - cbn [win_ok] in Hw. apply Nat.leb_le in Hw. cbn [mapM].
    destruct (@current_vals w e p _ _ P Ee) as (L & ct & Ec).
    destruct p as [c|h d]; cbn [on_dev side_read current] in *; destruct P as (P0 & P1 & P2).
    + rewrite Ec, Ee in P1. inversion P1 as [|a b l m HA HB]; subst.
      change (o_buf o) with (rg_buf (val_region o)).
      rewrite (@host_read_sub V w (val_region o) (vals c) lo len HA Hw). reflexivity.
    + rewrite Ec, Ee in P2. inversion P2 as [|a b l m HA HB]; subst.
      change (o_buf o) with (rg_buf (val_region o)).
      rewrite (@dev_read_sub V w (val_region o) (vals d) lo len (r_tab R) HA Hw). reflexivity.
  - rewrite Hr. apply mapM_ok.
    destruct p as [c|h d]; cbn [on_dev side_read current]; destruct P as (P0 & P1 & P2).
    + eapply Forall2_imp; [|exact P1]. intros r x. apply host_read_has.
    + eapply Forall2_imp; [|exact P2]. intros r x. apply dev_read_has. apply (r_tab R).
Qed.

End GpuProof2.

(** * StreamProof: proof support for C118. *)
From Coq Require Import String.
From Verif Require Import Base StreamModel StreamSpec.
Set Implicit Arguments.
Local Open Scope list_scope.
Local Open Scope nat_scope.

Section P.
Variable L : Type.
Notation op := (op L).
Notation world := (world L).

Lemma exec_app (h1 h2 : list op) (w : world) : exec (h1 ++ h2) w = match exec h1 w with Some w => exec h2 w | None => None end.
Proof. revert w. induction h1 as [|o h1 IH]; intros w; cbn; auto. destruct (step o w); auto. Qed.
Lemma made_app (h1 h2 : list op) : made (h1 ++ h2) = made h1 + made h2.
Proof. unfold made. now rewrite filter_app, app_length. Qed.
Lemma opened_app (h1 h2 : list op) : opened (h1 ++ h2) = opened h1 + opened h2.
Proof. unfold opened. now rewrite filter_app, app_length. Qed.

Lemma getsol_lt (w : world) i s : getsol w i = Some s -> i < length (w_sols w).
Proof. unfold getsol. intros H. apply nth_error_Some. intros E. rewrite E in H. discriminate. Qed.
Lemma getsol_set (w : world) i j v : i < length (w_sols w) -> getsol (setsol w i v) j = if i =? j then v else getsol w j.
Proof.
  intros H. unfold getsol, setsol. cbn. rewrite nth_error_upd, (proj2 (Nat.ltb_lt _ _) H), andb_true_r. destruct (i =? j); auto. now destruct v.
Qed.
Lemma getsol_add (w : world) s j : getsol (addsol w s) j = if j =? length (w_sols w) then Some s else getsol w j.
Proof.
  unfold getsol, addsol. cbn. destruct (Nat.eqb_spec j (length (w_sols w))) as [->|N].
  - rewrite nth_error_app2, Nat.sub_diag by lia. reflexivity.
  - destruct (Nat.lt_ge_cases j (length (w_sols w))).
    + now rewrite nth_error_app1.
    + rewrite nth_error_app2 by lia. destruct (j - length (w_sols w)) as [|[|k]] eqn:E; [lia| |]; cbn; rewrite (proj2 (nth_error_None _ _)) by lia; reflexivity.
Qed.

(** the invariant; [all] is the whole program, [h] what has been executed *)
Record Inv (all h : list op) (w : world) : Prop := {
  i_sols : length (w_sols w) = made h;
  i_live : forall i, i < made h -> ~ In (Destroy i) h -> exists s, getsol w i = Some s;
  i_dead : forall i s, getsol w i = Some s -> ~ In (Destroy i) h;
  i_dlt : forall i, In (Destroy i) h -> i < made h;
  i_streams : length (w_streams w) = opened h;
  i_uninit : forall i s, getsol w i = Some s -> so_ptr s = Uninit -> so_file s = ""%string /\ so_flag s = false;
  i_file : forall i s k, getsol w i = Some s -> so_ptr s = File k -> exists r, nth_error (w_streams w) k = Some r /\ st_live r = true /\ st_name r = so_file s;
  i_one : forall i j s t k, getsol w i = Some s -> getsol w j = Some t -> so_ptr s = File k -> so_ptr t = File k -> i = j;
  i_none : forall i s k, getsol w i = Some s -> (forall n ok, ~ In (SetFile i n ok) all) -> so_ptr s <> File k
}.
Lemma inv_start all : Inv all [] start.
Proof.
  assert (G : forall i, getsol (L:=L) start i = None) by (intros [|i]; reflexivity).
  constructor; try reflexivity; intros *; try (rewrite G; discriminate). unfold made. cbn. lia. intros [].
Qed.

Lemma in_snoc {A} (x : A) h o : In x (h ++ [o]) <-> In x h \/ o = x.
Proof. rewrite in_app_iff. cbn. tauto. Qed.
Lemma made_snoc (h : list op) o : made (h ++ [o]) = made h + if makes o then 1 else 0.
Proof. rewrite made_app. unfold made at 2. cbn. now destruct (makes o). Qed.
Lemma opened_snoc (h : list op) o : opened (h ++ [o]) = opened h + if is_file o then 1 else 0.
Proof. rewrite opened_app. unfold opened at 2. cbn. now destruct (is_file o). Qed.

(** a step that only changes the settings of object i *)
Lemma inv_set all h (w : world) o i s s' extra :
  Inv all h w -> getsol w i = Some s -> makes o = false -> (forall j, o <> Destroy j) -> length extra = (if is_file o then 1 else 0) ->
  (so_ptr s' = Uninit -> so_file s' = ""%string /\ so_flag s' = false) ->
  (forall k, so_ptr s' = File k -> (k = length (w_streams w) /\ exists r, extra = [r] /\ st_live r = true /\ st_name r = so_file s') ) ->
  ((forall n ok, ~ In (SetFile i n ok) all) -> forall k, so_ptr s' <> File k) ->
  Inv all (h ++ [o]) (mkWorld (w_cout w) (w_streams w ++ extra) (upd (w_sols w) i (Some s'))).
Proof.
  intros I G M D X U Fl N. pose proof (getsol_lt _ _ G) as Li.
  set (w' := mkWorld _ _ _).
  assert (GS : forall j, getsol w' j = if i =? j then Some s' else getsol w j) by (intros j; exact (getsol_set w j (Some s') Li)).
  assert (ND : forall j, In (Destroy j) (h ++ [o]) <-> In (Destroy j) h).
  { intros j. rewrite in_snoc. split; [intros [H|H]; [auto|now apply D in H]|auto]. }
  constructor.
  - cbn. rewrite upd_length, made_snoc, M, (i_sols I). lia.
  - intros j Hj Hd. rewrite made_snoc, M in Hj. rewrite ND in Hd. rewrite GS. destruct (i =? j); eauto. apply (i_live I); auto; lia.
  - intros j t Hj. rewrite ND. rewrite GS in Hj. destruct (Nat.eqb_spec i j) as [<-|E]; eapply i_dead; eauto.
  - intros j Hj. rewrite ND in Hj. rewrite made_snoc. pose proof (i_dlt I _ Hj). lia.
  - cbn. rewrite app_length, opened_snoc, X, (i_streams I). lia.
  - intros j t Hj. rewrite GS in Hj. destruct (Nat.eqb_spec i j) as [<-|E]; [injection Hj as <-; auto|eapply i_uninit; eauto].
  - intros j t k Hj Hp. rewrite GS in Hj. destruct (Nat.eqb_spec i j) as [<-|E].
    + injection Hj as <-. destruct (Fl k Hp) as (-> & r & -> & R1 & R2). exists r. cbn. rewrite nth_error_app2, Nat.sub_diag by lia. auto.
    + destruct (@i_file _ _ _ I _ _ _ Hj Hp) as (r & R1 & R2). exists r. cbn. rewrite nth_error_app1; auto. apply nth_error_Some. congruence.
  - intros j1 j2 t1 t2 k H1 H2 P1 P2. rewrite GS in H1, H2.
    destruct (Nat.eqb_spec i j1) as [<-|E1], (Nat.eqb_spec i j2) as [<-|E2]; auto.
    + injection H1 as <-. destruct (Fl k P1) as (-> & _). destruct (@i_file _ _ _ I _ _ _ H2 P2) as (r & R1 & _). assert (length (w_streams w) < length (w_streams w)) by (apply nth_error_Some; congruence). lia.
    + injection H2 as <-. destruct (Fl k P2) as (-> & _). destruct (@i_file _ _ _ I _ _ _ H1 P1) as (r & R1 & _). assert (length (w_streams w) < length (w_streams w)) by (apply nth_error_Some; congruence). lia.
    + eapply i_one; eauto.
  - intros j t k Hj Hn. rewrite GS in Hj. destruct (Nat.eqb_spec i j) as [<-|E]; [injection Hj as <-; auto|eapply i_none; eauto].
Qed.
(** a new object *)
Lemma inv_add all h (w : world) o s : Inv all h w -> makes o = true -> is_file o = false -> (forall j, o <> Destroy j) ->
  (so_ptr s = Uninit -> so_file s = ""%string /\ so_flag s = false) -> (forall k, so_ptr s <> File k) ->
  Inv all (h ++ [o]) (addsol w s).
Proof.
  intros I M X D U Fl.
  assert (ND : forall j, In (Destroy j) (h ++ [o]) <-> In (Destroy j) h).
  { intros j. rewrite in_snoc. split; [intros [H|H]; [auto|now apply D in H]|auto]. }
  constructor.
  - cbn. rewrite app_length, made_snoc, M, (i_sols I). reflexivity.
  - intros j Hj Hd. rewrite made_snoc, M in Hj. rewrite ND in Hd. rewrite getsol_add, (i_sols I). destruct (Nat.eqb_spec j (made h)); eauto. apply (i_live I); auto; lia.
  - intros j s' Hj. rewrite ND. rewrite getsol_add, (i_sols I) in Hj. destruct (Nat.eqb_spec j (made h)) as [->|E]; [|eapply i_dead; eauto].
    intros HI. pose proof (i_dlt I _ HI). lia.
  - intros j Hj. rewrite ND in Hj. rewrite made_snoc. pose proof (i_dlt I _ Hj). lia.
  - cbn. rewrite opened_snoc, X, (i_streams I). lia.
  - intros j s' Hj. rewrite getsol_add in Hj. destruct (j =? _); [injection Hj as <-; auto|eapply i_uninit; eauto].
  - intros j s' k Hj Hp. rewrite getsol_add in Hj. destruct (j =? _); [injection Hj as <-; now apply Fl in Hp|]. exact (@i_file _ _ _ I _ _ _ Hj Hp).
  - intros j1 j2 t1 t2 k H1 H2 P1 P2. rewrite getsol_add in H1, H2. destruct (j1 =? _); [injection H1 as <-; now apply Fl in P1|]. destruct (j2 =? _); [injection H2 as <-; now apply Fl in P2|].
    eapply i_one; eauto.
  - intros j s' k Hj Hn. rewrite getsol_add in Hj. destruct (j =? _); [injection Hj as <-; auto|eapply i_none; eauto].
Qed.
(** printing, and the bookkeeping of streams *)
Lemma inv_streams all h (w : world) o c' st' : Inv all h w -> makes o = false -> is_file o = false -> (forall j, o <> Destroy j) ->
  length st' = length (w_streams w) ->
  (forall k r, nth_error (w_streams w) k = Some r -> st_live r = true -> exists r', nth_error st' k = Some r' /\ st_live r' = true /\ st_name r' = st_name r) ->
  Inv all (h ++ [o]) (mkWorld c' st' (w_sols w)).
Proof.
  intros I M X D LS HS.
  assert (ND : forall j, In (Destroy j) (h ++ [o]) <-> In (Destroy j) h).
  { intros j. rewrite in_snoc. split; [intros [H|H]; [auto|now apply D in H]|auto]. }
  assert (G : forall j, getsol (mkWorld c' st' (w_sols w)) j = getsol w j) by reflexivity.
  constructor.
  - cbn. rewrite made_snoc, M, (i_sols I). lia.
  - intros j Hj Hd. rewrite made_snoc, M in Hj. rewrite ND in Hd. rewrite G. apply (i_live I); auto; lia.
  - intros j s Hj. rewrite ND. rewrite G in Hj. eapply i_dead; eauto.
  - intros j Hj. rewrite ND in Hj. rewrite made_snoc. pose proof (i_dlt I _ Hj). lia.
  - cbn. rewrite LS, opened_snoc, X, (i_streams I). lia.
  - intros j s. rewrite G. apply (i_uninit I).
  - intros j s k Hj Hp. rewrite G in Hj. destruct (@i_file _ _ _ I _ _ _ Hj Hp) as (r & R1 & R2 & R3). destruct (HS k r R1 R2) as (r' & Q1 & Q2 & Q3). exists r'. rewrite Q3. auto.
  - intros j1 j2 t1 t2 k. rewrite !G. apply (i_one I).
  - intros j s k. rewrite G. apply (i_none I).
Qed.
(** the destructor *)
Lemma inv_destroy all h (w : world) i s st' : Inv all h w -> getsol w i = Some s -> length st' = length (w_streams w) ->
  (forall k, so_ptr s <> File k -> nth_error st' k = nth_error (w_streams w) k) ->
  Inv all (h ++ [Destroy i]) (setsol (mkWorld (w_cout w) st' (w_sols w)) i None).
Proof.
  intros I G LS HS. pose proof (getsol_lt _ _ G) as Li. set (w' := setsol _ _ _).
  assert (GS : forall j, getsol w' j = if i =? j then None else getsol w j).
  { intros j. unfold w'. rewrite getsol_set by (cbn; auto). destruct (i =? j); reflexivity. }
  constructor.
  - cbn. rewrite upd_length, made_snoc, (i_sols I). cbn. lia.
  - intros j Hj Hd. rewrite made_snoc in Hj. cbn in Hj. rewrite in_snoc in Hd. rewrite GS. destruct (Nat.eqb_spec i j) as [->|E]; [now destruct Hd; right|]. apply (i_live I); [lia|tauto].
  - intros j t Hj. rewrite GS in Hj. destruct (Nat.eqb_spec i j) as [->|E]; [discriminate|]. rewrite in_snoc. intros [H|H]; [|injection H as ->; auto]. revert H. eapply i_dead; eauto.
  - intros j Hj. rewrite in_snoc in Hj. rewrite made_snoc. cbn. destruct Hj as [Hj|Hj]; [pose proof (i_dlt I _ Hj); lia|]. injection Hj as <-. rewrite <- (i_sols I). lia.
  - cbn. rewrite LS, opened_snoc, (i_streams I). cbn. lia.
  - intros j t Hj. rewrite GS in Hj. destruct (i =? j); [discriminate|]. eapply i_uninit; eauto.
  - intros j t k Hj Hp. rewrite GS in Hj. destruct (Nat.eqb_spec i j) as [->|E]; [discriminate|]. cbn. rewrite HS; [exact (@i_file _ _ _ I _ _ _ Hj Hp)|].
    intros Q. apply E. eapply i_one; eauto.
  - intros j1 j2 t1 t2 k H1 H2 P1 P2. rewrite GS in H1, H2. destruct (i =? j1); [discriminate|]. destruct (i =? j2); [discriminate|]. eapply i_one; eauto.
  - intros j t k Hj Hn. rewrite GS in Hj. destruct (i =? j); [discriminate|]. eapply i_none; eauto.
Qed.

Lemma inv_step all h (w : world) o t : Inv all h w -> all = h ++ o :: t -> proper all -> copies_harmless all ->
  exists w', step o w = Some w' /\ Inv all (h ++ [o]) w'.
Proof.
  intros I AL PR CH.
  assert (EX : forall i, In i (needs o) -> exists s, getsol w i = Some s).
  { intros i Hi. destruct (PR h o t AL i Hi) as (B1 & B2). now apply (i_live I). }
  assert (IN : In o all) by (rewrite AL; apply in_elt).
  destruct o as [|i f|i n ok|i ls|i|i j|i]; cbn [needs] in EX; try (destruct (EX i) as (s & G); [now left|]); cbn [step]; try rewrite G.
  - eexists; split; [reflexivity|]. apply inv_add; auto; try discriminate.
  - eexists; split; [reflexivity|]. unfold set_print, setsol. rewrite <- (app_nil_r (w_streams w)) at 1. eapply inv_set; eauto; try discriminate.
  - eexists; split; [reflexivity|]. unfold set_file, setsol. cbn [w_cout w_streams w_sols]. eapply inv_set; eauto; try discriminate.
    intros k Hk. cbn in Hk. injection Hk as <-. split; auto. eexists; split; [reflexivity|]. cbn. auto.
  - unfold print. destruct (so_flag s) eqn:Fl.
    + destruct (so_ptr s) as [| |k] eqn:Pt.
      * destruct (@i_uninit _ _ _ I _ _ G Pt). congruence.
      * eexists; split; [reflexivity|]. apply inv_streams; auto; try discriminate. eauto.
      * destruct (@i_file _ _ _ I _ _ _ G Pt) as (r & R1 & R2 & R3). rewrite R1. destruct r as [nm okk old lv]. cbn in R2. subst lv.
        eexists; split; [reflexivity|]. apply inv_streams; auto; try discriminate; [now rewrite upd_length|].
        intros k' r' Q1 Q2. rewrite nth_error_upd. destruct (Nat.eqb_spec k k') as [<-|E]; cbn [andb]; eauto.
        rewrite R1 in Q1. injection Q1 as <-. assert (k < length (w_streams w)) by (apply nth_error_Some; congruence). rewrite (proj2 (Nat.ltb_lt _ _)) by auto. eauto.
    + eexists; split; [reflexivity|]. destruct w as [c0 st0 so0]. apply (@inv_streams all h (mkWorld c0 st0 so0)); auto; try discriminate. eauto.
  - eexists; split; [reflexivity|]. apply inv_add; auto; try discriminate; [eapply i_uninit; eauto|]. intros k. eapply i_none; eauto.
  - destruct (EX j) as (s2 & G2); [now right; left|]. rewrite G2. eexists; split; [reflexivity|]. unfold setsol. rewrite <- (app_nil_r (w_streams w)) at 1.
    assert (NF : forall k, so_ptr s <> File k) by (intros k; eapply i_none; eauto).
    eapply inv_set; eauto; try discriminate; [eapply i_uninit; eauto|]. intros k Hk. now apply NF in Hk.
  - unfold destroy. destruct (String.eqb_spec (so_file s) "") as [E|E].
    + eexists; split; [reflexivity|]. destruct w as [c0 st0 so0]. eapply (@inv_destroy all h (mkWorld c0 st0 so0)); eauto.
    + destruct (so_ptr s) as [| |k] eqn:Pt.
      * destruct (@i_uninit _ _ _ I _ _ G Pt). congruence.
      * eexists; split; [reflexivity|]. destruct w as [c0 st0 so0]. eapply (@inv_destroy all h (mkWorld c0 st0 so0)); eauto.
      * destruct (@i_file _ _ _ I _ _ _ G Pt) as (r & R1 & R2 & R3). rewrite R1. destruct r as [nm okk old lv]. cbn in R2. subst lv.
        eexists; split; [reflexivity|]. eapply inv_destroy; eauto; [now rewrite upd_length|].
        intros k' Hk. rewrite nth_error_upd. destruct (Nat.eqb_spec k k') as [<-|N]; [congruence|reflexivity].
Qed.
Lemma exec_inv all : proper all -> copies_harmless all -> forall h t, all = h ++ t -> exists w, exec h start = Some w /\ Inv all h w.
Proof.
  intros PR CH h. induction h as [|o h IH] using rev_ind; intros t AL.
  - exists start. split; auto. apply inv_start.
  - rewrite <- app_assoc in AL. cbn in AL. destruct (IH _ AL) as (w & E & I). destruct (@inv_step all h w o t I AL PR CH) as (w' & E' & I').
    exists w'. split; auto. rewrite exec_app, E. cbn. now rewrite E'.
Qed.

(** ** what later calls keep *)
Definition notcopy (o : op) : Prop := match o with Copy _ | Assign _ _ => False | _ => True end.
Lemma no_copies_each (h : list op) : no_copies h -> forall o, In o h -> notcopy o.
Proof. intros H o Ho. destruct o as [| | | |i|i j|]; cbn; auto; [now destruct (H i 0) as (H1 & _)|now destruct (H i j) as (_ & H1)]. Qed.

Lemma step_sol o (w w' : world) i s' : notcopy o -> step o w = Some w' -> getsol w' i = Some s' ->
  (exists s, getsol w i = Some s /\ (sets i o = false -> s' = s) /\ (prints i o = false -> so_flag s' = so_flag s)) \/ (o = New /\ i = length (w_sols w) /\ s' = mkSol false "" Uninit).
Proof.
  intros NC E G. destruct o as [|a f|a n ok|a ls|a|a b|a]; cbn [step notcopy] in *; try now destruct NC.
  - injection E as <-. rewrite getsol_add in G. destruct (Nat.eqb_spec i (length (w_sols w))); [injection G as <-; auto|left; eauto].
  - destruct (getsol w a) as [s|] eqn:Ga; [|discriminate]. injection E as <-. unfold set_print in G. rewrite getsol_set in G by (eapply getsol_lt; eauto).
    left. destruct (Nat.eqb_spec a i) as [<-|N]; [|exists s'; auto]. injection G as <-. exists s. cbn. rewrite Nat.eqb_refl. repeat split; auto; discriminate.
  - destruct (getsol w a) as [s|] eqn:Ga; [|discriminate]. injection E as <-. unfold set_file in G. change (getsol (setsol w a (Some (mkSol (so_flag s) n (File (length (w_streams w)))))) i = Some s') in G.
    rewrite getsol_set in G by (eapply getsol_lt; eauto).
    left. destruct (Nat.eqb_spec a i) as [<-|N]; [|exists s'; auto]. injection G as <-. exists s. cbn. rewrite Nat.eqb_refl. repeat split; auto; discriminate.
  - destruct (getsol w a) as [s|] eqn:Ga; [|discriminate]. left. exists s'. split; [|auto]. revert E. unfold print.
    destruct (so_flag s); [|congruence]. destruct (so_ptr s) as [| |k]; [discriminate|intros E; injection E as <-; exact G|].
    destruct (nth_error (w_streams w) k) as [[nm okk old [|]]|]; try discriminate. intros E; injection E as <-. exact G.
  - destruct (getsol w a) as [s|] eqn:Ga; [|discriminate]. pose proof (getsol_lt _ _ Ga) as La. left. exists s'. split; [|auto].
    assert (Q : forall (c : list L) st, getsol (setsol (mkWorld c st (w_sols w)) a None) i = Some s' -> getsol w i = Some s').
    { intros c st H. rewrite getsol_set in H by auto. destruct (a =? i); [discriminate|exact H]. }
    revert E. unfold destroy. destruct (so_file s =? "")%string; [intros E; injection E as <-; apply (Q (w_cout w) (w_streams w)); destruct w; exact G|].
    destruct (so_ptr s) as [| |k]; [discriminate|intros E; injection E as <-; apply (Q (w_cout w) (w_streams w)); destruct w; exact G|].
    destruct (nth_error (w_streams w) k) as [[nm okk old [|]]|]; try discriminate. intros E; injection E as <-. eapply Q; eauto.
Qed.
Lemma exec_sol h (w w' : world) i s' : (forall o, In o h -> notcopy o) -> exec h w = Some w' -> getsol w' i = Some s' -> i < length (w_sols w) ->
  exists s, getsol w i = Some s /\ (untouched i h -> s' = s) /\ (flag_untouched i h -> so_flag s' = so_flag s).
Proof.
  revert w. induction h as [|o h IH]; intros w NC E G Li; cbn [exec] in E.
  - injection E as <-. eauto.
  - destruct (step o w) as [w1|] eqn:E1; [|discriminate].
    assert (L1 : length (w_sols w) <= length (w_sols w1)).
    { clear - E1. destruct o as [|a f|a n ok|a ls|a|a b|a]; cbn [step] in E1.
      - injection E1 as <-. cbn. rewrite app_length. lia.
      - destruct (getsol w a); [|discriminate]. injection E1 as <-. cbn. rewrite upd_length. lia.
      - destruct (getsol w a); [|discriminate]. injection E1 as <-. cbn. rewrite upd_length. lia.
      - destruct (getsol w a) as [s|]; [|discriminate]. revert E1. unfold print. destruct (so_flag s); [|intros H; injection H as <-; lia].
        destruct (so_ptr s) as [| |k]; [discriminate|intros H; injection H as <-; cbn; lia|].
        destruct (nth_error (w_streams w) k) as [[nm okk old [|]]|]; try discriminate. intros H; injection H as <-. cbn; lia.
      - destruct (getsol w a); [|discriminate]. injection E1 as <-. cbn. rewrite app_length. lia.
      - destruct (getsol w a); [|discriminate]. destruct (getsol w b); [|discriminate]. injection E1 as <-. cbn. rewrite upd_length. lia.
      - destruct (getsol w a) as [s|]; [|discriminate]. revert E1. unfold destroy. destruct (so_file s =? "")%string; [intros H; injection H as <-; cbn; rewrite upd_length; lia|].
        destruct (so_ptr s) as [| |k]; [discriminate|intros H; injection H as <-; cbn; rewrite upd_length; lia|].
        destruct (nth_error (w_streams w) k) as [[nm okk old [|]]|]; try discriminate. intros H; injection H as <-. cbn. rewrite upd_length; lia. }
    destruct (IH w1) as (s1 & G1 & K1 & K2); auto; [intros; apply NC; now right|lia|].
    destruct (@step_sol o w w1 i s1 (NC o (or_introl eq_refl)) E1 G1) as [(s & G0 & K3 & K4)|(-> & -> & _)]; [|lia].
    exists s. split; auto. split; intros U.
    + rewrite K1 by (intros x Hx; apply U; now right). apply K3. apply U. now left.
    + rewrite K2 by (intros x Hx; apply U; now right). apply K4. apply U. now left.
Qed.
(** without a call of set_print_rhistory the flag is off *)
Lemma flag_default h (w : world) i s : (forall o, In o h -> notcopy o) -> exec h start = Some w -> getsol w i = Some s -> flag_untouched i h -> so_flag s = false.
Proof.
  revert w s. induction h as [|o h IH] using rev_ind; intros w s NC E G U.
  - injection E as <-. destruct i; discriminate.
  - rewrite exec_app in E. destruct (exec h start) as [w1|] eqn:E1; [|discriminate]. cbn in E. destruct (step o w1) as [w2|] eqn:E2; [|discriminate]. injection E as <-.
    destruct (@step_sol o w1 w2 i s) as [(s0 & G0 & _ & K)|(_ & _ & ->)]; auto; [apply NC; apply in_elt|].
    rewrite K by (apply U; apply in_elt). apply (IH w1); auto; [intros x Hx; apply NC; apply in_app_iff; auto|intros x Hx; apply U; apply in_app_iff; auto].
Qed.
(** streams: the number, the names and the success of opening *)
Lemma step_streams o (w w' : world) k r : step o w = Some w' -> nth_error (w_streams w) k = Some r ->
  exists r', nth_error (w_streams w') k = Some r' /\ st_name r' = st_name r /\ st_ok r' = st_ok r.
Proof.
  intros E R. assert (Lk : k < length (w_streams w)) by (apply nth_error_Some; congruence).
  destruct o as [|a f|a n ok|a ls|a|a b|a]; cbn [step] in E; try (injection E as <-; eauto; fail); (destruct (getsol w a) as [s|]; [|discriminate]).
  - injection E as <-. eauto.
  - injection E as <-. exists r. cbn. rewrite nth_error_app1; auto.
  - revert E. unfold print. destruct (so_flag s); [|intros H; injection H as <-; eauto].
    destruct (so_ptr s) as [| |m]; [discriminate|intros H; injection H as <-; eauto|].
    destruct (nth_error (w_streams w) m) as [[nm okk old [|]]|] eqn:Em; try discriminate. intros H; injection H as <-. cbn. rewrite nth_error_upd.
    destruct (Nat.eqb_spec m k) as [->|N]; cbn [andb]; eauto. rewrite (proj2 (Nat.ltb_lt _ _) Lk). rewrite R in Em. injection Em as ->. eauto.
  - injection E as <-. eauto.
  - destruct (getsol w b); [|discriminate]. injection E as <-. eauto.
  - revert E. unfold destroy. destruct (so_file s =? "")%string; [intros H; injection H as <-; eauto|].
    destruct (so_ptr s) as [| |m]; [discriminate|intros H; injection H as <-; eauto|].
    destruct (nth_error (w_streams w) m) as [[nm okk old [|]]|] eqn:Em; try discriminate. intros H; injection H as <-. cbn. rewrite nth_error_upd.
    destruct (Nat.eqb_spec m k) as [->|N]; cbn [andb]; eauto. rewrite (proj2 (Nat.ltb_lt _ _) Lk). rewrite R in Em. injection Em as ->. eauto.
Qed.
Lemma exec_streams h (w w' : world) k r : exec h w = Some w' -> nth_error (w_streams w) k = Some r ->
  exists r', nth_error (w_streams w') k = Some r' /\ st_name r' = st_name r /\ st_ok r' = st_ok r.
Proof.
  revert w r. induction h as [|o h IH]; intros w r E R; cbn [exec] in E; [injection E as <-; eauto|].
  destruct (step o w) as [w1|] eqn:E1; [|discriminate]. destruct (@step_streams o w w1 k r E1 R) as (r1 & R1 & N1 & O1).
  destruct (IH _ _ E R1) as (r2 & R2 & N2 & O2). exists r2. rewrite N2, O2. auto.
Qed.
End P.

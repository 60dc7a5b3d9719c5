(** * GpuProof5: simulation of every call and every program. *)
From Verif Require Import Base GpuModel GpuSpec GpuProof GpuProof2 GpuProof3 GpuProof4.
Set Implicit Arguments.

Section GpuProof5.
Variable V : Type.
Variable dv : V.
Local Notation world := (world V).
Local Notation sworld := (sworld V).
Local Notation storage := (storage V).

Lemma sget_uses (w : world) s g i h p : rel w s g -> sget s i = Some (h, p) ->
  exists o e, get_obj w i = Ok o /\ uses w g o (h_sto h) e p /\
    nth_error (w_obj w) i = Some (Some o) /\
    nth_error (s_obj s) i = Some (Some h) /\ nth_error (s_sto s) (h_sto h) = Some p /\
    o_kind o = h_kind h /\ o_own o = h_own h /\
    o_alloc o = length (hostb w (o_buf o)) /\ shape o.
Proof.
  intros R H. destruct (sget_rel i R H) as (o & e & G1 & G2 & G3 & G4 & G5 & G6 & G7 & G8 & G9 & G10 & G11 & G12 & G13).
  exists o, e. unfold uses. repeat split; auto.
Qed.

Lemma uses_nnz (w : world) g o k e p : uses w g o k e p -> o_nnz o = length (vals (current p)).
Proof.
  intros (A & B & C & D & E). rewrite regions_hd in B.
  destruct (@current_vals V w e p _ _ D (eq_sym B)) as (L & _). cbn in L. auto.
Qed.

Lemma upd_splice A (l : list A) k v : k < length l ->
  upd l k v = firstn k l ++ [v] ++ skipn (k + 1) l.
Proof.
  revert k. induction l as [|x l IH]; intros [|k] H; cbn in H; try lia.
  - reflexivity.
  - cbn. f_equal. apply IH. lia.
Qed.

Lemma cpu_host gpu s k p : cpu_ok gpu s -> nth_error (s_sto s) k = Some p ->
  gpu = true \/ exists c : contents V, p = OnHost c.
Proof.
  intros [E|C] H; [now left|]. right. specialize (C _ _ H). destruct p; [eauto|discriminate].
Qed.

(** communication calls *)
Lemma comm_sim gpu (w : world) s g i (f : bool -> world -> obj -> res world) (tr : storage -> storage) :
  rel w s g -> cpu_ok gpu s ->
  (forall o k e p, uses w g o k e p -> nth_error (s_sto s) k = Some p ->
     exists w', f true w o = Ok w' /\ rel w' (Sw (upd (s_sto s) k (tr p)) (s_obj s)) g) ->
  (forall o, f false w o = Ok w) ->
  (forall c, tr (OnHost c) = OnHost c) ->
  forall h p, sget s i = Some (h, p) ->
  exists w', (o <- get_obj w i ;; w1 <- f gpu w o ;; Ok (w1, OutU V)) = Ok (w', OutU V) /\
    rel w' (sput s h (tr p)) g /\ cpu_ok gpu (sput s h (tr p)).
Proof.
  intros R CP Hf H0 Ht h p Hs.
  destruct (sget_uses i R Hs) as (o & e & G1 & U & G2 & G3 & G4 & _).
  rewrite G1. cbn [bind].
  assert (CQ : cpu_ok gpu (sput s h (tr p))).
  { eapply cpu_upd; eauto. destruct p; [rewrite Ht; auto|discriminate]. }
  destruct gpu.
  - destruct (Hf _ _ _ _ U G4) as (w' & E & R'). rewrite E. cbn [bind]. exists w'. auto.
  - rewrite H0. cbn [bind]. exists w. split; [reflexivity|]. split; [|exact CQ].
    destruct (cpu_host _ CP G4) as [X|[c ->]]; [discriminate|]. rewrite Ht.
    apply rel_same; auto.
Qed.

Lemma sopd_sim (w : world) s g x h p win : rel w s g -> sopd s x = Some (h, p, win) ->
  exists o e, operand_obj w x = Ok (o, win) /\ uses w g o (h_sto h) e p /\
    nth_error (s_sto s) (h_sto h) = Some p /\ win_ok (current p) win = true /\
    sget s (op_obj x) = Some (h, p).
Proof.
  intros R H. unfold sopd in H. destruct (sget s (op_obj x)) as [[h' p']|] eqn:E; [|discriminate].
  destruct (win_ok (current p') (op_win x)) eqn:W; [|discriminate]. injection H as <- <- <-.
  destruct (sget_uses _ R E) as (o & e & G1 & U & G2 & G3 & G4 & _).
  exists o, e. unfold operand_obj. rewrite G1. repeat split; auto; apply U.
Qed.

Lemma sopds_sim (w : world) s g xs : forall os, rel w s g -> opt_map (sopd s) xs = Some os ->
  exists xos, mapM (operand_obj w) xs = Ok xos /\
    Forall2 (fun xo so => exists e, snd xo = snd so /\
        uses w g (fst xo) (h_sto (fst (fst so))) e (snd (fst so)) /\
        win_ok (current (snd (fst so))) (snd so) = true) xos os.
Proof.
  induction xs as [|x xs IH]; intros os R H; cbn [opt_map] in H.
  - injection H as <-. exists []. split; [reflexivity|constructor].
  - destruct (sopd s x) as [[[h p] win]|] eqn:E; [|discriminate].
    destruct (opt_map (sopd s) xs) as [os'|] eqn:E'; [|discriminate]. injection H as <-.
    destruct (sopd_sim _ R E) as (o & e & A & U & _ & W & _).
    destruct (IH os' R eq_refl) as (xos & B & F).
    exists ((o, win) :: xos). cbn [mapM]. rewrite A. cbn [bind]. rewrite B. split; [reflexivity|].
    constructor; [|exact F]. exists e. cbn. auto.
Qed.

Lemma sides_same (w : world) g b xos (os : list (handle * storage * option (nat * nat))) :
  Forall2 (fun xo so => exists e, snd xo = snd so /\
        uses w g (fst xo) (h_sto (fst (fst so))) e (snd (fst so)) /\
        win_ok (current (snd (fst so))) (snd so) = true) xos os ->
  forallb (fun o : obj * option (nat * nat) => Bool.eqb (status w (fst o)) b) xos =
  forallb (fun o => Bool.eqb (on_dev (snd (fst o))) b) os.
Proof.
  intros F. induction F as [|xo so xos os (e & E & (_ & _ & _ & _ & U) & W) F IH]; [reflexivity|].
  cbn [forallb]. rewrite IH, U. reflexivity.
Qed.

Lemma reads_sim (w : world) s g b xos (os : list (handle * storage * option (nat * nat))) :
  rel w s g ->
  Forall2 (fun xo so => exists e, snd xo = snd so /\
        uses w g (fst xo) (h_sto (fst (fst so))) e (snd (fst so)) /\
        win_ok (current (snd (fst so))) (snd so) = true) xos os ->
  forallb (fun o => Bool.eqb (on_dev (snd (fst o))) b) os = true ->
  mapM (operand_read b w) xos = Ok (map (fun o => win_read (current (snd (fst o))) (snd o)) os).
Proof.
  intros R F. induction F as [|xo so xos os (e & E & U & W) F IH]; intros H; [reflexivity|].
  cbn [forallb] in H. apply andb_true_iff in H. destruct H as [H1 H2]. apply eqb_prop in H1.
  cbn [mapM map]. unfold operand_read at 1. rewrite E, <- H1.
  rewrite (@read_current V w s g (fst xo) _ e (snd (fst so)) (snd so) R U W). cbn [bind]. rewrite H1, (IH H2). reflexivity.
Qed.

Theorem step_sim gpu (w : world) s g c r : rel w s g -> cpu_ok gpu s -> sstep gpu s c = Some r ->
  match r with
  | Ok (s', o) => exists w' g', step dv gpu w c = Ok (w', o) /\ rel w' s' g' /\ cpu_ok gpu s'
  | Abort => step dv gpu w c = Abort
  | _ => False
  end.
Proof.
  intros R CP H.
  destruct c as [k rows vs idxs | x | y x | y x | i | i | i | i | i | i k | i k v | i N v | i v | y xs f | x xs gg | i f];
    cbn [sstep] in H.
  - (* ONew *)
    destruct (new_ok k rows vs idxs) eqn:NO; [|discriminate]. injection H as <-.
    pose proof (@new_obj_rel V w s g k rows vs idxs R NO) as X. cbn [step].
    destruct (new_obj w k rows vs idxs) as [w1 o]. destruct X as (e & R1 & OR & L).
    exists (add_obj w1 o), (g ++ [e]). split; [reflexivity|]. split.
    + apply (rel_add_obj (s := Sw (s_sto s ++ [OnHost (vs :: idxs)]) (s_obj s))); assumption.
    + apply cpu_app; auto.
  - (* OCopy *)
    destruct (sget s x) as [[h p]|] eqn:Hs; [|discriminate].
    assert (NK : h_kind h <> KTcrs /\ r = Ok (sadd s (h_kind h) p, OutU V)).
    { destruct (h_kind h); (split; [congruence|injection H as <-; reflexivity]) || discriminate. }
    destruct NK as [NK ->].
    destruct (copy_rel dv x R CP Hs NK) as (o & w' & g' & A & B & C).
    exists w', g'. cbn [step]. rewrite A. cbn [bind]. rewrite B. cbn [bind].
    split; [reflexivity|]. split; [exact C|]. apply cpu_app; auto.
    intros ->. destruct (sget_uses x R Hs) as (o1 & e & _ & _ & _ & _ & G4 & _).
    destruct (cpu_host _ CP G4) as [X|[cc ->]]; [discriminate|reflexivity].
  - (* OMove *)
    destruct (sget s y) as [[hy py]|] eqn:Hy; [|discriminate].
    destruct (sget s x) as [[hx px]|] eqn:Hx; [|discriminate].
    destruct (dense_like (h_kind hy)) eqn:DY; [|discriminate].
    destruct (dense_like (h_kind hx)) eqn:DX; [|discriminate].
    cbn [andb] in H. injection H as <-.
    destruct (sget_uses y R Hy) as (oy & ey & A1 & A2 & A3 & A4 & A5 & A6 & A7 & A8 & A9).
    destruct (sget_uses x R Hx) as (ox & ex & B1 & B2 & B3 & B4 & B5 & B6 & B7 & B8 & B9).
    exists (set_obj w y (Some (move_ oy ox))), g. cbn [step]. rewrite A1. cbn [bind].
    rewrite B1. cbn [bind]. split; [reflexivity|]. split.
    + apply rel_set_obj; [exact R|]. exists ex. cbn [h_sto h_kind h_own].
      destruct B2 as (B21 & B22 & B23 & B24 & B25).
      assert (IY : o_idx oy = []).
      { unfold shape in A9. rewrite A6 in A9. destruct (h_kind hy); try discriminate; exact A9. }
      assert (IX : o_idx ox = []).
      { unfold shape in B9. rewrite B6 in B9. destruct (h_kind hx); try discriminate; exact B9. }
      split; [exact B21|]. split.
      { rewrite <- B22. unfold regions, val_region, move_. cbn. rewrite IY, IX.
        destruct (o_kind oy), (o_kind ox); reflexivity. }
      cbn [move_ o_cell o_kind o_own o_alloc o_buf]. repeat split; auto.
    + now apply cpu_same.
  - (* OAssign *)
    destruct (sget s y) as [[hy py]|] eqn:Hy; [|discriminate].
    destruct (sget s x) as [[hx px]|] eqn:Hx; [|discriminate].
    destruct (sget_uses y R Hy) as (oy & ey & A1 & A2 & A3 & A4 & A5 & A6 & A7 & A8 & A9).
    destruct (sget_uses x R Hx) as (ox & ex & B1 & B2 & B3 & B4 & B5 & B6 & B7 & B8 & B9).
    pose proof (uses_nnz A2) as NY. pose proof (uses_nnz B2) as NX.
    assert (SY : status w oy = on_dev py) by apply A2.
    assert (SX : status w ox = on_dev px) by apply B2.
    assert (ST : step dv gpu w (OAssign V y x) =
      (w1 <- assign_ w y oy ox ;; Ok (w1, OutU V))).
    { cbn [step]. rewrite A1. cbn [bind]. rewrite B1. reflexivity. }
    rewrite ST. clear ST. unfold assign_. rewrite NY, NX, SY, SX.
    destruct (Nat.eqb_spec (length (vals (current py))) (length (vals (current px)))) as [LE|LE];
      cbn [andb assert_ bind] in *.
    2:{ injection H as <-. reflexivity. }
    destruct (Bool.eqb (on_dev py) (on_dev px)) eqn:SE; cbn [assert_ bind] in *.
    2:{ injection H as <-. reflexivity. }
    injection H as <-. apply eqb_prop in SE.
    set (o2 := Ob (o_kind oy) (o_buf oy) (o_nnz oy) (o_alloc oy) (o_idx oy) (o_rows oy) (o_cell oy) true).
    assert (EO : Ob (o_kind oy) (o_buf oy) (length (vals (current py))) (o_alloc oy) (o_idx oy)
                    (o_rows oy) (o_cell oy) true = o2) by (unfold o2; now rewrite NY).
    rewrite ?EO.
    set (w1 := set_obj w y (Some o2)).
    assert (R1 : rel w1 (sset_obj s y (Some (Hd (h_kind hy) (h_sto hy) true))) g).
    { apply rel_set_obj; [exact R|]. exists ey. cbn [h_sto h_kind h_own o2 o_cell o_kind o_own o_alloc o_buf].
      destruct A2 as (A21 & A22 & A23 & A24 & A25).
      repeat split; auto. }
    assert (U1 : uses w1 g ox (h_sto hx) ex px) by exact B2.
    assert (U2 : uses w1 g oy (h_sto hy) ey py) by exact A2.
    unfold vcopy_.
    assert (RD : side_read (on_dev py) w1 (val_region ox) = Ok (vals (current px))).
    { assert (W : win_ok (current px) (Some (0, length (vals (current px)))) = true)
        by (cbn; apply Nat.leb_refl).
      pose proof (@read_current V w1 _ g ox _ ex px _ R1 U1 W) as E. cbn [operand_regions mapM win_read] in E.
      rewrite <- SE in E. unfold val_region. rewrite NX.
      destruct (side_read (on_dev py) w1 {| rg_buf := o_buf ox; rg_off := 0;
          rg_len := length (vals (current px)) |}); cbn in E; try discriminate.
      injection E as E. rewrite E. cbn [skipn]. rewrite firstn_all. reflexivity. }
    destruct (@write_vals V w1 _ g oy (h_sto hy) ey py 0 (vals (current px)) R1 U2) as (w2 & E2 & C2 & P2 & R2); [lia|].
    assert (VR : val_region oy = Rg (o_buf oy) 0 (length (vals (current px)))).
    { unfold val_region. rewrite NY, LE. reflexivity. }
    rewrite VR.
    assert (SV : firstn 0 (vals (current py)) ++ vals (current px) ++
       skipn (0 + length (vals (current px))) (vals (current py)) = vals (current px)).
    { cbn [firstn app plus]. rewrite skipn_all2 by lia. apply app_nil_r. }
    rewrite SV in R2.
    exists w2, g.
    split; [|split].
    + destruct (on_dev py); cbn [side_read side_write] in RD, E2; rewrite RD; cbn [bind];
        rewrite E2; reflexivity.
    + exact R2.
    + eapply cpu_upd with (p := py); [apply cpu_same; exact CP|exact A5|]. destruct py; auto.
  - (* OSend *)
    destruct (sget s i) as [[h p]|] eqn:Hs; [|discriminate]. injection H as <-.
    destruct (sget_uses i R Hs) as (o & e & G1 & U & G2 & G3 & G4 & _).
    cbn [step]. rewrite G1. cbn [bind]. destruct gpu.
    + destruct (send_rel R U) as (w' & E & R'). rewrite E. cbn [bind].
      exists w', g. split; [reflexivity|]. split; [exact R'|]. now left.
    + cbn [send_ bind]. exists w, g. auto.
  - (* ORecv *)
    destruct (sget s i) as [[h p]|] eqn:Hs; [|discriminate]. injection H as <-.
    destruct (@comm_sim gpu w s g i (@recv_ V)
      (fun p => match p with OnDev _ d => OnHost d | _ => p end) R CP) with (h := h) (p := p)
      as (w' & E & R' & C'); auto.
    + intros. eapply recv_rel; eauto.
    + exists w', g. auto.
  - (* ONonfreeRecv *)
    destruct (sget s i) as [[h p]|] eqn:Hs; [|discriminate]. injection H as <-.
    destruct (@comm_sim gpu w s g i (@nonfree_recv_ V)
      (fun p => match p with OnDev _ d => OnDev d d | _ => p end) R CP) with (h := h) (p := p)
      as (w' & E & R' & C'); auto.
    + intros. eapply nonfree_rel; eauto.
    + exists w', g. auto.
  - (* OFree *)
    destruct (sget s i) as [[h p]|] eqn:Hs; [|discriminate]. injection H as <-.
    destruct (@comm_sim gpu w s g i (@device_free_ V)
      (fun p => match p with OnDev hc _ => OnHost hc | _ => p end) R CP) with (h := h) (p := p)
      as (w' & E & R' & C'); auto.
    + intros. eapply free_rel; eauto.
    + exists w', g. auto.
  - (* ODestroy *)
    destruct (sget s i) as [[h p]|] eqn:Hs; [|discriminate]. injection H as <-.
    destruct (sget_uses i R Hs) as (o & e & G1 & U & G2 & G3 & G4 & K1 & K2 & _).
    cbn [step]. rewrite G1. cbn [bind]. unfold destroy_. rewrite K2.
    assert (S : status w o = on_dev p) by apply U. rewrite S.
    destruct (h_own h).
    + destruct p as [c|hc d]; cbn [on_dev].
      * cbn [bind]. eexists _, g. split; [reflexivity|].
        split; [apply rel_del_obj; apply rel_same; auto|].
        unfold sset_obj, sput. cbn [s_sto]. eapply cpu_upd; eauto.
      * destruct (cpu_host _ CP G4) as [->|[c X]]; [|discriminate].
        destruct (free_rel R U G4) as (w' & E & R'). rewrite E. cbn [bind].
        eexists _, g. split; [reflexivity|].
        split; [apply rel_del_obj; exact R'|]. now left.
    + cbn [bind]. eexists _, g. split; [reflexivity|].
      split; [apply rel_del_obj; apply rel_same; auto|].
      unfold sset_obj, sput. cbn [s_sto]. eapply cpu_upd; eauto.
  - (* OGet *)
    destruct (sget s i) as [[h p]|] eqn:Hs; [|discriminate].
    destruct (sget_uses i R Hs) as (o & e & G1 & U & G2 & G3 & G4 & K1 & K2 & _).
    cbn [step]. rewrite G1. cbn [bind].
    assert (S : status w o = on_dev p) by apply U. rewrite S.
    destruct p as [c|hc d]; cbn [on_dev].
    + destruct (nth_error (vals c) k) as [v|] eqn:Ev; [|discriminate]. injection H as <-.
      assert (KL : k < length (vals c)) by (apply nth_error_Some; congruence).
      destruct U as (U1 & U2 & U3 & (P0 & P1 & P2) & _).
      rewrite <- U2, regions_hd in P1. inversion P1 as [|a b l m HA HB]; subst.
      cbn [vals hd] in *. destruct HA as (A & B & L & E). cbn in A, B, L, E.
      rewrite hostb_rd by exact B. cbn [bind].
      assert (EN : nth_error (hostb w (o_buf o)) k = Some v).
      { rewrite <- Ev, <- E. rewrite <- (firstn_skipn (o_nnz o) (hostb w (o_buf o))) at 1.
        rewrite nth_error_app1; [reflexivity|]. rewrite E. exact KL. }
      rewrite (rd_ok _ _ EN). cbn [bind]. exists w, g. auto.
    + injection H as <-. exists w, g. auto.
  - (* OSet *)
    destruct (sget s i) as [[h p]|] eqn:Hs; [|discriminate].
    destruct (sget_uses i R Hs) as (o & e & G1 & U & G2 & G3 & G4 & K1 & K2 & _).
    cbn [step]. rewrite G1. cbn [bind].
    assert (S : status w o = on_dev p) by apply U. rewrite S.
    destruct p as [c|hc d]; cbn [on_dev].
    + destruct (Nat.ltb_spec k (length (vals c))) as [KL|KL]; [|discriminate]. injection H as <-.
      destruct (@write_vals V w s g o (h_sto h) e (OnHost c) k [v] R U) as (w' & E & C & P & R');
        [cbn; lia|].
      cbn [on_dev side_write current set_current length] in *.
      rewrite <- upd_splice in R' by exact KL.
      assert (HB : o_buf o < length (w_host w) /\ k < length (hostb w (o_buf o))).
      { destruct U as (U1 & U2 & U3 & (P0 & P1 & P2) & _).
        rewrite <- U2, regions_hd in P1. inversion P1 as [|a b l m HA HBB]; subst.
        cbn [vals hd] in *. pose proof (host_len HA) as HLn. cbn in HLn.
        destruct HA as (A & B & L & E1). cbn in A, B, L, E1. split; [exact B|lia]. }
      destruct HB as [HB1 HB2].
      unfold host_write in E. cbn [rg_buf rg_off] in E. rewrite hostb_rd in E |- * by exact HB1.
      cbn [bind] in *. rewrite splice_ok in E by (cbn; lia). cbn [bind length] in E.
      rewrite wr_lt by exact HB2. cbn [bind]. rewrite (@upd_splice _ (hostb w (o_buf o)) k v HB2).
      injection E as <-. eexists _, g. split; [reflexivity|]. split; [exact R'|].
      eapply cpu_upd; eauto.
    + injection H as <-. exists w, g. auto.
  - (* OResize *)
    destruct (sget s i) as [[h p]|] eqn:Hs; [|discriminate].
    destruct (sget_uses i R Hs) as (o & e & G1 & U & G2 & G3 & G4 & K1 & K2 & K3 & _).
    assert (S : status w o = on_dev p) by apply U.
    assert (CQ : forall c', cpu_ok gpu (sput s h (OnHost c'))) by (intros; eapply cpu_upd; eauto).
    cbn [step]. rewrite G1. cbn [bind]. unfold resize_. rewrite K1, S, K2.
    destruct (h_kind h) eqn:HK; [| |destruct p; discriminate..].
    + destruct p as [c|hc d]; cbn [on_dev].
      * destruct (h_own h) eqn:Ow.
        -- destruct (shared s i (h_sto h)) eqn:Sh; [discriminate|]. injection H as <-.
           destruct (@realloc_sim V w s g i h c N v R Hs) as (o' & w' & g' & A & B & C); auto.
           { rewrite HK; reflexivity. }
           assert (o' = o) by congruence. subst o'. exists w', g'. auto.
        -- injection H as <-. exists w, g. auto.
      * injection H as <-. exists w, g. auto.
    + destruct p as [c|hc d]; [|discriminate]. cbn [on_dev].
      destruct (h_own h) eqn:Ow; [|discriminate].
      destruct (shared s i (h_sto h)) eqn:Sh; [discriminate|]. cbn [andb negb] in H. injection H as <-.
      assert (DL : dense_like (h_kind h) = true) by (rewrite HK; reflexivity).
      destruct (Nat.ltb_spec N (o_alloc o)) as [NA|NA].
      * destruct (@spare_sim V w s g i h c N v o R Hs DL Sh G1 NA) as (w' & g' & A & B).
        rewrite A. cbn [bind]. eexists _, g'. split; [reflexivity|]. split; [|auto].
        rewrite ?K1, ?K2, ?HK, ?Ow in B. exact B.
      * destruct (@realloc_sim V w s g i h c N v R Hs DL Sh Ow) as (o' & w' & g' & A & B & C).
        assert (o' = o) by congruence. subst o'. exists w', g'. auto.
  - (* OPush *)
    destruct (sget s i) as [[h p]|] eqn:Hs; [|discriminate].
    destruct (sget_uses i R Hs) as (o & e & G1 & U & G2 & G3 & G4 & K1 & K2 & K3 & _).
    assert (S : status w o = on_dev p) by apply U.
    assert (CQ : forall c', cpu_ok gpu (sput s h (OnHost c'))) by (intros; eapply cpu_upd; eauto).
    cbn [step]. rewrite G1. cbn [bind].
    destruct (h_kind h) eqn:HK; [|destruct p; discriminate..].
    destruct p as [c|hc d]; cbn [on_dev] in S.
    + destruct (h_own h) eqn:Ow.
      * destruct (shared s i (h_sto h)) eqn:Sh; [discriminate|]. injection H as <-.
        destruct (@push_sim V dv w s g i h c v o R Hs HK Sh Ow G1) as (w' & g' & A & B).
        exists w', g'. auto.
      * injection H as <-. unfold push_back_. rewrite S, K2. exists w, g. auto.
    + injection H as <-. unfold push_back_. rewrite S. exists w, g. auto.
  - (* OMap *)
    destruct (sopd s y) as [[[h p] win]|] eqn:Hy; [|discriminate].
    destruct (opt_map (sopd s) xs) as [os|] eqn:Hxs; [|discriminate].
    destruct (sopd_sim _ R Hy) as (o & e & A & U & G4 & W & _).
    destruct (sopds_sim _ R Hxs) as (xos & B & F).
    assert (S : status w o = on_dev p) by apply U.
    cbn [step]. unfold kernel_. rewrite A. cbn [bind]. rewrite B. cbn [bind fst snd].
    unfold same_side. rewrite (@sides_same w g _ xos os F), S.
    destruct (forallb (fun o : handle * storage * option (nat * nat) =>
        eqb (on_dev (snd (fst o))) (on_dev p)) os) eqn:FB; cbn [assert_ bind].
    2:{ injection H as <-. reflexivity. }
    injection H as <-. cbn [mapM]. unfold operand_read at 1. cbn [fst snd].
    rewrite (@read_current V w s g o _ e p win R U W). cbn [bind]. rewrite (@reads_sim w s g (on_dev p) xos os R F FB). cbn [bind].
    set (ins := win_read (current p) win :: map (fun o0 => win_read (current (snd (fst o0))) (snd o0)) os).
    set (rr := hd (Rg 0 0 0) (operand_regions o win)).
    set (bd := win_bounds (current p) win).
    assert (ER : rr = Rg (o_buf o) (fst bd) (snd bd)).
    { unfold rr, bd. destruct win as [[lo len]|]; cbn [operand_regions hd win_bounds fst snd]; [reflexivity|].
      rewrite regions_hd. cbn [hd]. unfold val_region. rewrite (uses_nnz U). reflexivity. }
    assert (BD : fst bd + snd bd <= length (vals (current p))).
    { unfold bd. destruct win as [[lo len]|]; cbn [win_bounds fst snd].
      - cbn [win_ok] in W. now apply Nat.leb_le in W.
      - lia. }
    rewrite ER. cbn [rg_len].
    set (nv := map (f ins) (seq 0 (snd bd))).
    assert (LV : length nv = snd bd) by (unfold nv; rewrite map_length, seq_length; reflexivity).
    destruct (@write_vals V w s g o (h_sto h) e p (fst bd) nv R U) as (w' & E & C & P & R');
      [lia|].
    rewrite LV in *. exists w', g. split; [|split].
    + unfold side_write in E. destruct (on_dev p);
        match goal with |- bind ?X _ = _ => replace X with (Ok w') by (symmetry; exact E) end;
        reflexivity.
    + unfold win_write. fold bd. rewrite (surjective_pairing bd) at 1.
      fold nv. exact R'.
    + eapply cpu_upd; eauto. destruct p; auto.
  - (* OReduce *)
    destruct (sopd s x) as [[[h p] win]|] eqn:Hx; [|discriminate].
    destruct (opt_map (sopd s) xs) as [os|] eqn:Hxs; [|discriminate].
    destruct (sopd_sim _ R Hx) as (o & e & A & U & G4 & W & _).
    destruct (sopds_sim _ R Hxs) as (xos & B & F).
    assert (S : status w o = on_dev p) by apply U.
    cbn [step]. unfold reduce_. rewrite A. cbn [bind]. rewrite B. cbn [bind fst snd].
    unfold same_side. rewrite (@sides_same w g _ xos os F), S.
    destruct (forallb (fun o : handle * storage * option (nat * nat) =>
        eqb (on_dev (snd (fst o))) (on_dev p)) os) eqn:FB; cbn [assert_ bind].
    2:{ injection H as <-. reflexivity. }
    injection H as <-. cbn [mapM]. unfold operand_read at 1. cbn [fst snd].
    rewrite (@read_current V w s g o _ e p win R U W). cbn [bind]. rewrite (@reads_sim w s g (on_dev p) xos os R F FB). cbn [bind].
    exists w, g. auto.
  - (* OHostOnly *)
    destruct (sget s i) as [[h p]|] eqn:Hs; [|discriminate].
    destruct p as [c|hc d]; [|discriminate]. injection H as <-.
    destruct (sget_uses i R Hs) as (o & e & G1 & U & G2 & G3 & G4 & K1 & K2 & _).
    pose proof (uses_nnz U) as NN. cbn [current] in NN.
    cbn [step]. rewrite G1. cbn [bind].
    assert (RD : host_read w (val_region o) = Ok (vals c)).
    { destruct U as (U1 & U2 & U3 & (P0 & P1 & P2) & _).
      rewrite <- U2, regions_hd in P1. inversion P1 as [|a b l m HA HB]; subst.
      cbn [vals hd]. exact (host_read_has HA). }
    rewrite RD. cbn [bind].
    set (nv := map (f (vals c)) (seq 0 (o_nnz o))).
    assert (LV : length nv = length (vals c))
      by (unfold nv; rewrite map_length, seq_length; exact NN).
    destruct (@write_vals V w s g o (h_sto h) e (OnHost c) 0 nv R U) as (w' & E & C & P & R');
      [cbn [current]; lia|].
    cbn [on_dev side_write current set_current] in *. rewrite LV in E.
    unfold val_region. rewrite NN. rewrite E. cbn [bind]. exists w', g.
    split; [reflexivity|]. split; [|eapply cpu_upd; eauto].
    unfold win_write. cbn [win_bounds]. rewrite LV in R'.
    unfold nv in R'. rewrite NN in R'. exact R'.
Qed.

Theorem run_sim gpu p : forall (w : world) s g r, rel w s g -> cpu_ok gpu s ->
  srun gpu s p = Some r ->
  match r with
  | Ok (s', o) => exists w' g', run dv gpu w p = Ok (w', o) /\ rel w' s' g' /\ cpu_ok gpu s'
  | Abort => run dv gpu w p = Abort
  | _ => False
  end.
Proof.
  induction p as [|c p IH]; intros w s g r R CP H; cbn [srun] in H.
  - injection H as <-. exists w, g. auto.
  - destruct (sstep gpu s c) as [[[s1 o]| | | |]|] eqn:E; try discriminate.
    + pose proof (step_sim c R CP E) as S. destruct S as (w1 & g1 & E1 & R1 & C1).
      cbn [run]. rewrite E1. cbn [bind fst].
      destruct (srun gpu s1 p) as [r1|] eqn:E2; [|discriminate].
      pose proof (IH w1 s1 g1 r1 R1 C1 E2) as I.
      destruct r1 as [[s2 os]| | | |]; try contradiction.
      * injection H as <-. destruct I as (w2 & g2 & I1 & I2 & I3). rewrite I1. cbn [bind fst snd].
        exists w2, g2. auto.
      * injection H as <-. rewrite I. reflexivity.
    + pose proof (step_sim c R CP E) as S. injection H as <-. cbn [run].
      rewrite S. reflexivity.
Qed.

Lemma rel0 : rel (w0 V) (s0 V) [].
Proof.
  constructor.
  - reflexivity.
  - constructor.
  - intros [|] e H; discriminate.
  - intros [|] k' e e' b H; discriminate.
  - intros [|] k' e e' H; discriminate.
  - intros [|] e H; discriminate.
  - intros [|] e p H; discriminate.
  - intros b H. cbn in H. congruence.
  - reflexivity.
  - intros [|]; exact I.
Qed.

Lemma cpu0 gpu : cpu_ok gpu (s0 V).
Proof. right. intros [|] p H; discriminate. Qed.

End GpuProof5.

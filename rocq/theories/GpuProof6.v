(** * GpuProof6: consequences on the two-copy machine: the CPU build gives the same
    outputs, and no device memory is left over. *)
From Verif Require Import Base GpuModel GpuSpec GpuProof GpuProof2 GpuProof3 GpuProof4 GpuProof5.
Set Implicit Arguments.

Section GpuProof6.
Variable V : Type.
Variable dv : V.
Local Notation world := (world V).
Local Notation sworld := (sworld V).
Local Notation storage := (storage V).

(** ** observation *)
Lemma rel_observes (w : world) s g : rel w s g -> observes w s.
Proof.
  intros R. split; [apply (r_olen R)|]. intros i h p Hs.
  destruct (sget_uses i R Hs) as (o & e & G1 & U & G2 & G3 & G4 & K1 & K2 & _).
  exists o. split; [exact G1|]. split; [exact K1|]. split; [exact K2|].
  destruct U as (U1 & U2 & U3 & P & U5). split; [exact U5|]. rewrite U2.
  destruct p as [c|hc d]; destruct P as (P0 & P1 & P2).
  - apply mapM_ok. eapply Forall2_imp; [|exact P1]. intros r x. apply host_read_has.
  - split; apply mapM_ok.
    + eapply Forall2_imp; [|exact P1]. intros r x. apply host_read_has.
    + eapply Forall2_imp; [|exact P2]. intros r x. apply dev_read_has. apply (r_tab R).
Qed.

(** ** no device memory outside the storages that are on the device *)
Lemma rel_no_dev (w : world) s g : rel w s g ->
  (forall k p, nth_error (s_sto s) k = Some p -> on_dev p = false) -> w_dev w = [].
Proof.
  intros R H. destruct (w_dev w) as [|m t] eqn:E; [reflexivity|exfalso].
  assert (N : dlook (w_dev w) (mbuf m) <> None).
  { rewrite E. unfold dlook. cbn. rewrite Nat.eqb_refl. discriminate. }
  destruct (@r_dev _ _ _ _ R _ N) as (k & e & Hg & Hi).
  destruct (nth_error (s_sto s) k) as [p|] eqn:Hp.
  2:{ apply nth_error_None in Hp. rewrite <- (r_len R) in Hp.
      assert (k < length g) by (apply nth_error_Some; congruence). lia. }
  pose proof (@r_place _ _ _ _ R k _ _ Hg Hp) as P. pose proof (H _ _ Hp) as D.
  destruct p as [c|]; [|discriminate]. destruct P as (_ & _ & P).
  apply in_map_iff in Hi. destruct Hi as (r & Er & Hr).
  rewrite Forall_forall in P. apply N. rewrite <- Er. exact (P r Hr).
Qed.

(** ** transparency *)
Definition live (s : sworld) (k : nat) : Prop :=
  exists i h, nth_error (s_obj s) i = Some (Some h) /\ h_sto h = k.

(** [t]: the CPU build's state *)
Record tr (s t : sworld) : Prop := {
  t_obj : s_obj t = s_obj s;
  t_len : length (s_sto t) = length (s_sto s);
  t_sto : forall k, live s k ->
    nth_error (s_sto t) k = option_map (@host_only V) (nth_error (s_sto s) k) }.

Lemma tr_get s t i h p : tr s t -> sget s i = Some (h, p) ->
  sget t i = Some (h, host_only p) /\ live s (h_sto h) /\ nth_error (s_sto s) (h_sto h) = Some p /\
  nth_error (s_obj s) i = Some (Some h).
Proof.
  intros T H. unfold sget in *. rewrite (t_obj T).
  destruct (nth_error (s_obj s) i) as [[h'|]|] eqn:E; try discriminate.
  destruct (nth_error (s_sto s) (h_sto h')) as [p'|] eqn:E'; [|discriminate].
  injection H as <- <-. assert (L : live s (h_sto h')) by (exists i, h'; auto).
  rewrite (t_sto T L), E'. cbn. auto.
Qed.

Lemma tr_put s t h p q : tr s t -> nth_error (s_sto s) (h_sto h) = Some p ->
  tr (sput s h q) (sput t h (host_only q)).
Proof.
  intros T Hp. constructor.
  - apply (t_obj T).
  - cbn. rewrite !upd_length. apply (t_len T).
  - intros k L. cbn in L. change (live s k) in L. cbn [sput s_sto].
    assert (HL : h_sto h < length (s_sto s)) by (apply nth_error_Some; congruence).
    destruct (Nat.eq_dec (h_sto h) k) as [<-|N].
    + rewrite !nth_error_upd_eq; [reflexivity| exact HL | rewrite (t_len T); exact HL].
    + rewrite !nth_error_upd_ne by exact N. apply (t_sto T L).
Qed.

Lemma tr_put_same s t h p q : tr s t -> live s (h_sto h) -> nth_error (s_sto s) (h_sto h) = Some p ->
  current q = current p -> tr (sput s h q) t.
Proof.
  intros T L Hp E. pose proof (t_sto T L) as Ht. rewrite Hp in Ht. cbn in Ht.
  pose proof (@tr_put s t h p q T Hp) as X.
  assert (EE : sput t h (host_only q) = t).
  { unfold sput. rewrite upd_same; [destruct t; reflexivity|]. rewrite Ht. unfold host_only. now rewrite E. }
  rewrite EE in X. exact X.
Qed.

Lemma tr_add s t k p : tr s t -> tr (sadd s k p) (sadd t k (host_only p)).
Proof.
  intros T. constructor.
  - cbn. rewrite (t_obj T), (t_len T). reflexivity.
  - cbn. rewrite !app_length, (t_len T). reflexivity.
  - intros j (i & h & Hi & <-). cbn [sadd s_obj s_sto] in *.
    destruct (nth_error_snoc _ _ _ Hi) as [[_ Hi']|[-> Hi']].
    + assert (L : live s (h_sto h)) by (exists i, h; auto).
      pose proof (t_sto T L) as X.
      destruct (Nat.lt_ge_cases (h_sto h) (length (s_sto s))) as [A|A].
      * rewrite !nth_error_app1; [exact X|exact A|rewrite (t_len T); exact A].
      * rewrite !nth_error_app2; [|exact A|rewrite (t_len T); exact A]. rewrite (t_len T).
        destruct (h_sto h - length (s_sto s)) as [|n]; [reflexivity|]. cbn. destruct n; reflexivity.
    + injection Hi' as ->. cbn [h_sto]. rewrite nth_error_last. rewrite <- (t_len T), nth_error_last. reflexivity.
Qed.

Lemma tr_set_obj s t i h : tr s t -> live s (h_sto h) -> i < length (s_obj s) ->
  tr (sset_obj s i (Some h)) (sset_obj t i (Some h)).
Proof.
  intros T L Hi. constructor.
  - cbn. now rewrite (t_obj T).
  - apply (t_len T).
  - intros k (j & h' & Hj & <-). cbn [sset_obj s_obj s_sto] in *. apply (t_sto T).
    destruct (Nat.eq_dec i j) as [<-|N].
    + rewrite nth_error_upd_eq in Hj by exact Hi. injection Hj as <-. exact L.
    + rewrite nth_error_upd_ne in Hj by exact N. exists j, h'. auto.
Qed.

Lemma tr_del s t i : tr s t -> tr (sset_obj s i None) (sset_obj t i None).
Proof.
  intros T. constructor.
  - cbn. now rewrite (t_obj T).
  - apply (t_len T).
  - intros k (j & h' & Hj & <-). cbn [sset_obj s_obj s_sto] in *. apply (t_sto T).
    destruct (Nat.eq_dec i j) as [<-|N].
    + destruct (Nat.lt_ge_cases i (length (s_obj s))) as [A|A].
      * rewrite nth_error_upd_eq in Hj by exact A. discriminate.
      * assert (X : nth_error (upd (s_obj s) i None) i = None)
          by (apply nth_error_None; rewrite upd_length; exact A). congruence.
    + rewrite nth_error_upd_ne in Hj by exact N. exists j, h'. auto.
Qed.

Lemma tr_shared s t i k : tr s t -> shared t i k = shared s i k.
Proof. intros T. unfold shared. now rewrite (t_obj T). Qed.

Lemma tr_opd s t x h p win : tr s t -> sopd s x = Some (h, p, win) ->
  sopd t x = Some (h, host_only p, win) /\ live s (h_sto h) /\
  nth_error (s_sto s) (h_sto h) = Some p.
Proof.
  intros T H. unfold sopd in *. destruct (sget s (op_obj x)) as [[h' p']|] eqn:E; [|discriminate].
  destruct (win_ok (current p') (op_win x)) eqn:W; [|discriminate]. injection H as <- <- <-.
  destruct (tr_get _ T E) as (A & B & C & _). rewrite A. cbn [host_only current]. rewrite W. auto.
Qed.

Lemma tr_opds s t xs : forall os, tr s t -> opt_map (sopd s) xs = Some os ->
  opt_map (sopd t) xs = Some (map (fun o => (fst (fst o), host_only (snd (fst o)), snd o)) os).
Proof.
  induction xs as [|x xs IH]; intros os T H; cbn [opt_map] in *.
  - injection H as <-. reflexivity.
  - destruct (sopd s x) as [[[h p] win]|] eqn:E; [|discriminate].
    destruct (opt_map (sopd s) xs) as [os'|]; [|discriminate]. injection H as <-.
    destruct (tr_opd _ T E) as (A & _). rewrite A, (IH os' T eq_refl). reflexivity.
Qed.

Lemma all_host (os : list (handle * storage * option (nat * nat))) :
  forallb (fun o => Bool.eqb (on_dev (snd (fst o))) false)
    (map (fun o => (fst (fst o), host_only (snd (fst o)), snd o)) os) = true.
Proof. induction os as [|o os IH]; [reflexivity|]. cbn. exact IH. Qed.

Lemma reads_host (os : list (handle * storage * option (nat * nat))) :
  map (fun o => win_read (current (snd (fst o))) (snd o))
    (map (fun o => (fst (fst o), host_only (snd (fst o)), snd o)) os) =
  map (fun o => win_read (current (snd (fst o))) (snd o)) os.
Proof. rewrite map_map. reflexivity. Qed.

Definition threw (o : out V) : bool := match o with OutThrew _ => true | _ => false end.

Theorem step_transparent s t c s' o : tr s t -> step_disciplined s c ->
  sstep true s c = Some (Ok (s', o)) -> threw o = false ->
  exists t', sstep false t c = Some (Ok (t', o)) /\ tr s' t'.
Proof.
  intros T D H NT.
  destruct c as [k rows vs idxs | x | y x | y x | i | i | i | i | i | i k | i k v | i N v | i v | y xs f | x xs gg | i f];
    cbn [sstep] in H |- *; cbn [step_disciplined] in D.
  - (* ONew *) destruct (new_ok k rows vs idxs); [|discriminate]. injection H as <- <-.
    eexists. split; [reflexivity|]. exact (tr_add k (OnHost (vs :: idxs)) T).
  - (* OCopy *) destruct (sget s x) as [[h p]|] eqn:Hs; [|discriminate].
    destruct (tr_get _ T Hs) as (A & _). rewrite A.
    destruct (h_kind h); try discriminate; injection H as <- <-;
      (eexists; split; [reflexivity|]; apply tr_add; exact T).
  - (* OMove *) destruct (sget s y) as [[hy py]|] eqn:Hy; [|discriminate].
    destruct (sget s x) as [[hx px]|] eqn:Hx; [|discriminate].
    destruct (tr_get _ T Hy) as (A & LA & A2 & A3). destruct (tr_get _ T Hx) as (B & LB & _).
    rewrite A, B. destruct (dense_like (h_kind hy) && dense_like (h_kind hx)); [|discriminate].
    injection H as <- <-. eexists. split; [reflexivity|]. apply tr_set_obj; [exact T|exact LB|].
    apply nth_error_Some. congruence.
  - (* OAssign *) destruct (sget s y) as [[hy py]|] eqn:Hy; [|discriminate].
    destruct (sget s x) as [[hx px]|] eqn:Hx; [|discriminate].
    destruct (tr_get _ T Hy) as (A & LA & A2 & A3). destruct (tr_get _ T Hx) as (B & LB & _).
    rewrite A, B. cbn [host_only current on_dev].
    destruct (length (vals (current py)) =? length (vals (current px))); [|discriminate].
    destruct (Bool.eqb (on_dev py) (on_dev px)); [|discriminate].
    cbn [andb Bool.eqb] in *. injection H as <- <-. eexists. split; [reflexivity|].
    assert (T1 : tr (sset_obj s y (Some (Hd (h_kind hy) (h_sto hy) true)))
                    (sset_obj t y (Some (Hd (h_kind hy) (h_sto hy) true)))).
    { apply tr_set_obj; [exact T|exact LA|]. apply nth_error_Some. congruence. }
    pose proof (tr_put hy (set_current py (set_vals (current py) (vals (current px)))) T1 A2) as X.
    unfold host_only in X at 1. destruct py; exact X.
  - (* OSend *) destruct (sget s i) as [[h p]|] eqn:Hs; [|discriminate].
    injection H as <- <-. destruct (tr_get _ T Hs) as (A & LA & A2 & A3). rewrite A.
    eexists. split; [reflexivity|]. eapply tr_put_same; [exact T|exact LA|exact A2|].
    specialize (D h p eq_refl). destruct p; cbn in *; congruence.
  - (* ORecv *) destruct (sget s i) as [[h p]|] eqn:Hs; [|discriminate].
    injection H as <- <-. destruct (tr_get _ T Hs) as (A & LA & A2 & A3). rewrite A.
    eexists. split; [reflexivity|].
    pose proof (tr_put h (match p with OnDev _ d => OnHost d | _ => p end) T A2) as X.
    destruct p; exact X.
  - (* ONonfreeRecv *) destruct (sget s i) as [[h p]|] eqn:Hs; [|discriminate].
    injection H as <- <-. destruct (tr_get _ T Hs) as (A & LA & A2 & A3). rewrite A.
    eexists. split; [reflexivity|].
    pose proof (tr_put h (match p with OnDev _ d => OnDev d d | _ => p end) T A2) as X.
    destruct p; exact X.
  - (* OFree *) destruct (sget s i) as [[h p]|] eqn:Hs; [|discriminate].
    injection H as <- <-. destruct (tr_get _ T Hs) as (A & LA & A2 & A3). rewrite A.
    eexists. split; [reflexivity|].
    pose proof (tr_put h (match p with OnDev hc _ => OnHost hc | _ => p end) T A2) as X.
    specialize (D h p eq_refl). destruct p; cbn in D; [exact X|]. subst. exact X.
  - (* ODestroy *) destruct (sget s i) as [[h p]|] eqn:Hs; [|discriminate].
    injection H as <- <-. destruct (tr_get _ T Hs) as (A & LA & A2 & A3). rewrite A.
    eexists. split; [reflexivity|].
    assert (E : (if h_own h then match host_only p with OnDev hc _ => OnHost hc | _ => host_only p end
                 else host_only p) = host_only p) by (unfold host_only; destruct (h_own h); reflexivity).
    rewrite E. clear E.
    destruct (h_own h) eqn:Ow; [|apply tr_del; exact (tr_put h p T A2)].
    destruct p as [c|hc d]; [apply tr_del; exact (tr_put h (OnHost c) T A2)|].
    destruct (D h (OnDev hc d) eq_refl Ow) as [Sh|Ag].
    2:{ cbn in Ag. subst. apply tr_del. exact (tr_put h (OnHost d) T A2). }
    constructor.
    + cbn. now rewrite (t_obj T).
    + cbn. rewrite !upd_length. apply (t_len T).
    + intros k (j & h' & Hj & <-). cbn [sset_obj sput s_obj s_sto] in *.
      destruct (Nat.eq_dec i j) as [<-|N].
      { rewrite nth_error_upd_eq in Hj by (apply nth_error_Some; congruence). discriminate. }
      rewrite nth_error_upd_ne in Hj by exact N.
      assert (NE : h_sto h <> h_sto h').
      { intros E. apply N. symmetry. apply (@shared_no V s i (h_sto h) j h' Sh); congruence. }
      rewrite !nth_error_upd_ne by exact NE. apply (t_sto T). exists j, h'. auto.
  - (* OGet *) destruct (sget s i) as [[h [c|hc d]]|] eqn:Hs; try discriminate.
    2:{ injection H as <- <-. discriminate. }
    destruct (tr_get _ T Hs) as (A & LA & A2 & A3). rewrite A. cbn [host_only current].
    destruct (nth_error (vals c) k); [|discriminate]. injection H as <- <-. eauto.
  - (* OSet *) destruct (sget s i) as [[h [c|hc d]]|] eqn:Hs; try discriminate.
    2:{ injection H as <- <-. discriminate. }
    destruct (tr_get _ T Hs) as (A & LA & A2 & A3). rewrite A. cbn [host_only current].
    destruct (k <? length (vals c)); [|discriminate]. injection H as <- <-.
    eexists. split; [reflexivity|]. exact (tr_put h (OnHost (set_vals c (upd (vals c) k v))) T A2).
  - (* OResize *) destruct (sget s i) as [[h p]|] eqn:Hs; [|discriminate].
    destruct (tr_get _ T Hs) as (A & LA & A2 & A3). rewrite A, (tr_shared _ _ T).
    destruct p as [c|hc d]; cbn [host_only current].
    2:{ destruct (h_kind h); try discriminate. injection H as <- <-. discriminate. }
    pose proof (tr_put h (OnHost (set_vals c (vresize v (vals c) N))) T A2) as X.
    destruct (h_kind h); try discriminate.
    + destruct (h_own h); [|injection H as <- <-; discriminate].
      destruct (shared s i (h_sto h)); [discriminate|]. injection H as <- <-. eauto.
    + destruct (h_own h && negb (shared s i (h_sto h))); [|discriminate]. injection H as <- <-. eauto.
  - (* OPush *) destruct (sget s i) as [[h p]|] eqn:Hs; [|discriminate].
    destruct (tr_get _ T Hs) as (A & LA & A2 & A3). rewrite A, (tr_shared _ _ T).
    destruct p as [c|hc d]; cbn [host_only current].
    2:{ destruct (h_kind h); try discriminate. injection H as <- <-. discriminate. }
    pose proof (tr_put h (OnHost (set_vals c (vals c ++ [v]))) T A2) as X.
    destruct (h_kind h); try discriminate.
    destruct (h_own h); [|injection H as <- <-; discriminate].
    destruct (shared s i (h_sto h)); [discriminate|]. injection H as <- <-. eauto.
  - (* OMap *) destruct (sopd s y) as [[[h p] win]|] eqn:Hy; [|discriminate].
    destruct (opt_map (sopd s) xs) as [os|] eqn:Hxs; [|discriminate].
    destruct (tr_opd _ T Hy) as (A & LA & A2). rewrite A, (tr_opds _ T Hxs).
    cbn [host_only current on_dev]. rewrite all_host, reads_host.
    destruct (forallb _ os); [|discriminate]. injection H as <- <-.
    eexists. split; [reflexivity|].
    pose proof (tr_put h (set_current p (win_write (current p) win
      (f (win_read (current p) win :: map (fun o => win_read (current (snd (fst o))) (snd o)) os)))) T A2) as X.
    destruct p; exact X.
  - (* OReduce *) destruct (sopd s x) as [[[h p] win]|] eqn:Hx; [|discriminate].
    destruct (opt_map (sopd s) xs) as [os|] eqn:Hxs; [|discriminate].
    destruct (tr_opd _ T Hx) as (A & LA & A2). rewrite A, (tr_opds _ T Hxs).
    cbn [host_only current on_dev]. rewrite all_host, reads_host.
    destruct (forallb _ os); [|discriminate]. injection H as <- <-. eauto.
  - (* OHostOnly *) destruct (sget s i) as [[h [c|hc d]]|] eqn:Hs; try discriminate.
    destruct (tr_get _ T Hs) as (A & LA & A2 & A3). rewrite A. cbn [host_only current].
    injection H as <- <-. eexists. split; [reflexivity|].
    exact (tr_put h (OnHost (win_write c None (f (vals c)))) T A2).
Qed.

Theorem run_transparent p : forall s t s' os, tr s t -> disciplined s p ->
  srun true s p = Some (Ok (s', os)) -> existsb threw os = false ->
  exists t', srun false t p = Some (Ok (t', os)) /\ tr s' t'.
Proof.
  induction p as [|c p IH]; intros s t s' os T D H NT; cbn [srun disciplined] in *.
  - injection H as <- <-. eauto.
  - destruct D as [D1 D2].
    destruct (sstep true s c) as [[[s1 o]| | | |]|] eqn:E; try discriminate.
    destruct (srun true s1 p) as [[[s2 os2]| | | |]|] eqn:E2; try discriminate.
    injection H as <- <-. cbn [existsb] in NT. apply orb_false_iff in NT. destruct NT as [N1 N2].
    destruct (@step_transparent s t c s1 o T D1 E N1) as (t1 & A & T1).
    destruct (IH s1 t1 s2 os2 T1 D2 E2 N2) as (t2 & B & T2).
    rewrite A, B. eauto.
Qed.

Lemma tr0 : tr (s0 V) (s0 V).
Proof.
  constructor; try reflexivity. intros k (i & h & H & _). destruct i; discriminate.
Qed.

(** ** leak freedom *)
Definition dev_owned (s : sworld) : Prop :=
  forall k p, nth_error (s_sto s) k = Some p -> on_dev p = true -> owned s k.

Lemma owned_mono (s s' : sworld) k : owned s k ->
  (forall i h, nth_error (s_obj s) i = Some (Some h) -> h_own h = true ->
     exists i' h', nth_error (s_obj s') i' = Some (Some h') /\ h_sto h' = h_sto h /\ h_own h' = true) ->
  owned s' k.
Proof.
  intros (i & h & A & B & C) M. destruct (M i h A C) as (i' & h' & A' & B' & C').
  exists i', h'. repeat split; congruence.
Qed.

Lemma dev_owned_put s h p q : dev_owned s -> nth_error (s_sto s) (h_sto h) = Some p ->
  (on_dev q = true -> owned s (h_sto h)) -> dev_owned (sput s h q).
Proof.
  intros D Hp Hq k r Hk Hd. cbn in Hk. change (owned s k).
  destruct (Nat.eq_dec (h_sto h) k) as [<-|N].
  - rewrite nth_error_upd_eq in Hk by (apply nth_error_Some; congruence). injection Hk as <-. auto.
  - rewrite nth_error_upd_ne in Hk by exact N. eauto.
Qed.

Lemma sget_inv (s : sworld) i h p : sget s i = Some (h, p) ->
  nth_error (s_obj s) i = Some (Some h) /\ nth_error (s_sto s) (h_sto h) = Some p.
Proof.
  unfold sget. destruct (nth_error (s_obj s) i) as [[h'|]|] eqn:E; try discriminate.
  destruct (nth_error (s_sto s) (h_sto h')) as [p'|] eqn:E'; [|discriminate].
  intros H. injection H as <- <-. auto.
Qed.

Lemma dev_owned_add (s : sworld) k p : dev_owned s -> dev_owned (sadd s k p).
Proof.
  intros D j q Hj HD. cbn [sadd s_sto] in Hj. destruct (nth_error_snoc _ _ _ Hj) as [[_ Hj']|[-> Hj']].
  - eapply owned_mono; [eapply D; eauto|]. intros i h A C. exists i, h. cbn [sadd s_obj].
    rewrite nth_error_app1; [auto|]. apply nth_error_Some. congruence.
  - exists (length (s_obj s)), (Hd k (length (s_sto s)) true). cbn. rewrite nth_error_last. auto.
Qed.

Theorem step_owned_ok gpu s c s' o : dev_owned s -> step_owned s c ->
  sstep gpu s c = Some (Ok (s', o)) -> dev_owned s'.
Proof.
  intros D SO H.
  destruct c as [k rows vs idxs | x | y x | y x | i | i | i | i | i | i k | i k v | i N v | i v | y xs f | x xs gg | i f];
    cbn [sstep] in H |- *; cbn [step_owned] in SO.
  - destruct (new_ok k rows vs idxs); [|discriminate]. injection H as <- <-. now apply dev_owned_add.
  - destruct (sget s x) as [[h p]|] eqn:Hs; [|discriminate].
    destruct (h_kind h); try discriminate; injection H as <- <-; now apply dev_owned_add.
  - destruct (sget s y) as [[hy py]|] eqn:Hy; [|discriminate].
    destruct (sget s x) as [[hx px]|] eqn:Hx; [|discriminate].
    destruct (dense_like (h_kind hy) && dense_like (h_kind hx)); [|discriminate].
    injection H as <- <-. destruct (sget_inv _ _ Hy) as [Y1 Y2].
    intros k p Hk HD. cbn [sset_obj s_sto] in Hk. destruct (D k p Hk HD) as (i & h & A & B & C).
    destruct (Nat.eq_dec y i) as [<-|N].
    + assert (h = hy) by congruence. subst h. assert (p = py) by congruence. subst p.
      destruct (SO hy py eq_refl); congruence.
    + exists i, h. cbn [sset_obj s_obj]. rewrite nth_error_upd_ne by exact N. auto.
  - destruct (sget s y) as [[hy py]|] eqn:Hy; [|discriminate].
    destruct (sget s x) as [[hx px]|] eqn:Hx; [|discriminate].
    destruct (_ && _); [|discriminate]. injection H as <- <-.
    destruct (sget_inv _ _ Hy) as [Y1 Y2].
    assert (M : forall k, owned s k -> owned (sset_obj s y (Some (Hd (h_kind hy) (h_sto hy) true))) k).
    { intros k Ok_. eapply owned_mono; [exact Ok_|]. intros i h A C.
      destruct (Nat.eq_dec y i) as [<-|N].
      - assert (h = hy) by congruence. subst h. eexists y, _. cbn [sset_obj s_obj].
        rewrite nth_error_upd_eq by (apply nth_error_Some; congruence). split; [reflexivity|]. auto.
      - exists i, h. cbn [sset_obj s_obj]. rewrite nth_error_upd_ne by exact N. auto. }
    eapply dev_owned_put; [|exact Y2|].
    + intros k p Hk HD. apply M. eapply D; eauto.
    + intros _. exists y, (Hd (h_kind hy) (h_sto hy) true). cbn [sset_obj s_obj].
      rewrite nth_error_upd_eq by (apply nth_error_Some; congruence). auto.
  - destruct (sget s i) as [[h p]|] eqn:Hs; [|discriminate]. injection H as <- <-.
    destruct (sget_inv _ _ Hs) as [Y1 Y2]. destruct gpu; [|exact D].
    eapply dev_owned_put; [exact D|exact Y2|]. intros _. eapply SO; reflexivity.
  - destruct (sget s i) as [[h p]|] eqn:Hs; [|discriminate]. injection H as <- <-.
    destruct (sget_inv _ _ Hs) as [Y1 Y2].
    eapply dev_owned_put; [exact D|exact Y2|]. destruct p; discriminate.
  - destruct (sget s i) as [[h p]|] eqn:Hs; [|discriminate]. injection H as <- <-.
    destruct (sget_inv _ _ Hs) as [Y1 Y2].
    eapply dev_owned_put; [exact D|exact Y2|]. destruct p; [discriminate|]. intros _. eapply D; eauto.
  - destruct (sget s i) as [[h p]|] eqn:Hs; [|discriminate]. injection H as <- <-.
    destruct (sget_inv _ _ Hs) as [Y1 Y2].
    eapply dev_owned_put; [exact D|exact Y2|]. destruct p; discriminate.
  - (* destroy *)
    destruct (sget s i) as [[h p]|] eqn:Hs; [|discriminate]. injection H as <- <-.
    destruct (sget_inv _ _ Hs) as [Y1 Y2].
    intros k q Hk HD. cbn [sset_obj sput s_sto] in Hk.
    assert (X : exists j hj, j <> i /\ nth_error (s_obj s) j = Some (Some hj) /\ h_sto hj = k /\ h_own hj = true).
    { destruct (Nat.eq_dec (h_sto h) k) as [<-|N].
      - rewrite nth_error_upd_eq in Hk by (apply nth_error_Some; congruence). injection Hk as <-.
        destruct (h_own h) eqn:Ow; [destruct p; discriminate|].
        destruct (D _ _ Y2 HD) as (j & hj & A & B & C). exists j, hj. repeat split; auto. congruence.
      - rewrite nth_error_upd_ne in Hk by exact N.
        destruct (D _ _ Hk HD) as (j & hj & A & B & C). exists j, hj. repeat split; auto. congruence. }
    destruct X as (j & hj & A & B & C & E). exists j, hj. cbn [sset_obj sput s_obj].
    rewrite nth_error_upd_ne by congruence. auto.
  - destruct (sget s i) as [[h [c|hc d]]|] eqn:Hs; try discriminate.
    + destruct (nth_error (vals c) k); [|discriminate]. injection H as <- <-. exact D.
    + injection H as <- <-. exact D.
  - destruct (sget s i) as [[h [c|hc d]]|] eqn:Hs; try discriminate.
    + destruct (k <? length (vals c)); [|discriminate]. injection H as <- <-.
      destruct (sget_inv _ _ Hs) as [Y1 Y2]. eapply dev_owned_put; [exact D|exact Y2|discriminate].
    + injection H as <- <-. exact D.
  - destruct (sget s i) as [[h p]|] eqn:Hs; [|discriminate].
    destruct (sget_inv _ _ Hs) as [Y1 Y2].
    assert (X : forall c, dev_owned (sput s h (OnHost c)))
      by (intros; eapply dev_owned_put; [exact D|exact Y2|discriminate]).
    destruct (h_kind h), p as [c|hc d]; try discriminate; try (injection H as <- <-; exact D).
    + destruct (h_own h); [|injection H as <- <-; exact D].
      destruct (shared s i (h_sto h)); [discriminate|]. injection H as <- <-. apply X.
    + destruct (h_own h && negb (shared s i (h_sto h))); [|discriminate]. injection H as <- <-. apply X.
  - destruct (sget s i) as [[h p]|] eqn:Hs; [|discriminate].
    destruct (sget_inv _ _ Hs) as [Y1 Y2].
    assert (X : forall c, dev_owned (sput s h (OnHost c)))
      by (intros; eapply dev_owned_put; [exact D|exact Y2|discriminate]).
    destruct (h_kind h), p as [c|hc d]; try discriminate; try (injection H as <- <-; exact D).
    destruct (h_own h); [|injection H as <- <-; exact D].
    destruct (shared s i (h_sto h)); [discriminate|]. injection H as <- <-. apply X.
  - unfold sopd in H at 1. destruct (sget s (op_obj y)) as [[h p]|] eqn:Hs; [|discriminate].
    destruct (sget_inv _ _ Hs) as [Y1 Y2].
    destruct (win_ok (current p) (op_win y)); [|discriminate].
    destruct (opt_map (sopd s) xs) as [os|]; [|discriminate].
    destruct (forallb _ os); [|discriminate]. injection H as <- <-.
    eapply dev_owned_put; [exact D|exact Y2|]. destruct p; [discriminate|]. intros _. eapply D; eauto.
  - destruct (sopd s x) as [[[h p] win]|]; [|discriminate].
    destruct (opt_map (sopd s) xs) as [os|]; [|discriminate].
    destruct (forallb _ os); [|discriminate]. injection H as <- <-. exact D.
  - destruct (sget s i) as [[h [c|hc d]]|] eqn:Hs; try discriminate. injection H as <- <-.
    destruct (sget_inv _ _ Hs) as [Y1 Y2]. eapply dev_owned_put; [exact D|exact Y2|discriminate].
Qed.

Theorem run_owned gpu p : forall s s' os, dev_owned s -> owned_run gpu s p ->
  srun gpu s p = Some (Ok (s', os)) -> dev_owned s'.
Proof.
  induction p as [|c p IH]; intros s s' os D W H; cbn [srun owned_run] in *.
  - injection H as <- <-. exact D.
  - destruct W as [W1 W2].
    destruct (sstep gpu s c) as [[[s1 o]| | | |]|] eqn:E; try discriminate.
    destruct (srun gpu s1 p) as [[[s2 os2]| | | |]|] eqn:E2; try discriminate.
    injection H as <- <-. eapply IH; [|exact W2|exact E2]. eapply step_owned_ok; eauto.
Qed.

Lemma dev_owned0 : dev_owned (s0 V).
Proof. intros [|k] p H; discriminate. Qed.

End GpuProof6.

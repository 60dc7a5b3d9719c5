(** * CrsParProof: the OpenMP loops of the CRS operations are race free, and alone in a thread they do what CrsModel says. *)
From Verif Require Import Base Scalar Spec Mem MemSpec ParProof DenseModel CrsModel CrsObserve CrsParModel.
Set Implicit Arguments.

Section CrsPar.
Context {F : Type} {SF : Scalar F}.
Notation mem := (mem F).
Notation prog := (prog F).

Lemma rd_Ok {A} (l : list A) i a : rd l i = Ok a -> i < length l /\ forall d, nth i l d = a.
Proof.
  unfold rd. destruct (nth_error l i) eqn:E; [|discriminate]. intros H; injection H as ->. split.
  - apply nth_error_Some. congruence.
  - intros d. now apply nth_error_nth.
Qed.
Lemma ld_put_same (m : mem) b w i : b < length m -> ld (upd m b w) (b, i) = rd w i.
Proof.
  intros H. unfold ld. cbn [fst snd]. rewrite (@rd_lt _ (upd m b w) b []) by (now rewrite upd_length).
  cbn [bind]. now rewrite nth_upd_same.
Qed.
Lemma ld_put_other (m : mem) b w b' l i : b' <> b -> rd m b' = Ok l -> ld (upd m b w) (b', i) = rd l i.
Proof.
  intros Hn H. unfold ld. cbn [fst snd]. apply rd_Ok in H. destruct H as [H1 H2].
  rewrite (@rd_lt _ (upd m b w) b' []) by (now rewrite upd_length). cbn [bind]. rewrite nth_upd_other by auto. now rewrite H2.
Qed.
Lemma upd_upd {A} (l : list A) i a b : upd (upd l i a) i b = upd l i b.
Proof. revert i; induction l as [|x l IH]; intros [|i]; cbn; auto. now rewrite IH. Qed.
Lemma upd_id {A} (l : list A) i a : rd l i = Ok a -> upd l i a = l.
Proof.
  revert i; induction l as [|x l IH]; intros [|i]; cbn; auto.
  - unfold rd; cbn. intros H; injection H as ->. auto.
  - intros H. f_equal. apply IH. exact H.
Qed.
Lemma st_put (m : mem) b w i v w' : b < length m -> wr w i v = Ok w' -> st (upd m b w) (b, i) v = Ok (upd m b w').
Proof.
  intros H E. unfold st. cbn [fst snd]. rewrite (@rd_lt _ (upd m b w) b []) by (now rewrite upd_length).
  cbn [bind]. rewrite nth_upd_same by auto. rewrite E. cbn [bind]. rewrite wr_lt by (now rewrite upd_length). now rewrite upd_upd.
Qed.

Lemma run_pfor_sim {S T} (emb : S -> mem * T) lo hi (bL : nat -> S -> res S) (bP : nat -> T -> prog T) s s' :
  (forall j s s', lo <= j < hi -> bL j s = Ok s' -> run (bP j (snd (emb s))) (fst (emb s)) = Ok (emb s')) ->
  for_ lo hi bL s = Ok s' -> run (pfor lo hi bP (snd (emb s))) (fst (emb s)) = Ok (emb s').
Proof.
  intros H. unfold for_, pfor. assert (G : forall j, lo <= j < lo + (hi - lo) -> lo <= j < hi) by lia. revert G.
  generalize (hi - lo). intros n G. assert (G' : forall j s s', lo <= j < lo + n -> bL j s = Ok s' ->
    run (bP j (snd (emb s))) (fst (emb s)) = Ok (emb s')) by auto. clear H G. revert lo s G'.
  induction n as [|n IH]; intros lo s H; cbn [iter_ piter].
  - intros E; injection E as ->. cbn [run]. now destruct (emb s').
  - intros E. dob E. rewrite run_pbind. rewrite (H lo s a) by (auto; lia). cbn [bind].
    destruct (emb a) as [m1 t1] eqn:Ea. specialize (IH (Datatypes.S lo) a). rewrite Ea in IH. cbn [fst snd] in IH.
    apply IH; auto. intros j s1 s2 Hj. apply H. lia.
Qed.
(** loop whose state is the buffer [b] *)
Lemma run_pfor_buf (m : mem) b lo hi (bL : nat -> list F -> res (list F)) (bP : nat -> unit -> prog unit) w w' :
  (forall j w w', lo <= j < hi -> bL j w = Ok w' -> run (bP j tt) (upd m b w) = Ok (upd m b w', tt)) ->
  for_ lo hi bL w = Ok w' -> run (pfor lo hi bP tt) (upd m b w) = Ok (upd m b w', tt).
Proof. intros H E. exact (@run_pfor_sim (list F) unit (fun w => (upd m b w, tt)) lo hi bL bP w w' H E). Qed.
(** loop whose state is thread local *)
Lemma run_pfor_loc {S} (m : mem) lo hi (bL : nat -> S -> res S) (bP : nat -> S -> prog S) s s' :
  (forall j s s', lo <= j < hi -> bL j s = Ok s' -> run (bP j s) m = Ok (m, s')) ->
  for_ lo hi bL s = Ok s' -> run (pfor lo hi bP s) m = Ok (m, s').
Proof. intros H E. exact (@run_pfor_sim S S (fun w => (m, w)) lo hi bL bP s s' H E). Qed.
(** the whole parallel loop, executed in order *)
Lemma seq_for_buf (m : mem) b N (bL : nat -> list F -> res (list F)) (bP : nat -> prog unit) w w' :
  rd m b = Ok w ->
  (forall j w w', j < N -> bL j w = Ok w' -> run (bP j) (upd m b w) = Ok (upd m b w', tt)) ->
  for_ 0 N bL w = Ok w' -> seq_for N bP m = Ok (upd m b w').
Proof.
  intros Hb H E. rewrite <- (upd_id m b Hb) at 1. clear Hb. unfold seq_for.
  unfold for_ in *. assert (G : forall j, 0 <= j < 0 + (N - 0) -> j < N) by lia. revert G E. generalize (N - 0). generalize 0. intros lo n G E.
  assert (H' : forall j w w', lo <= j < lo + n -> bL j w = Ok w' -> run (bP j) (upd m b w) = Ok (upd m b w', tt)) by auto.
  clear H G. revert lo w E H'. induction n as [|n IH]; intros lo w E H; cbn [iter_] in *.
  - now injection E as ->.
  - dob E. rewrite (H lo w a) by (auto; lia). cbn [bind]. apply IH; auto. intros j w1 w2 Hj. apply H. lia.
Qed.
(** a loop from [lo] to [hi] as iterations 0 .. hi-lo-1 *)
Lemma for_shift {S} lo hi (b : nat -> S -> res S) s : for_ lo hi b s = for_ 0 (hi - lo) (fun n => b (lo + n)) s.
Proof.
  unfold for_. rewrite Nat.sub_0_r. generalize (hi - lo). intros n.
  assert (G : forall k, iter_ n (lo + k) b s = iter_ n k (fun n => b (lo + n)) s).
  { revert s. induction n as [|n IH]; intros s k; cbn [iter_]; auto.
    destruct (b (lo + k) s); cbn [bind]; auto. rewrite <- IH. f_equal. lia. }
  specialize (G 0). now rewrite Nat.add_0_r in G.
Qed.

(** rows of a readable CRS matrix do not share entries *)
Lemma rows_disjoint (A : crs F) i i' j lo hi lo' hi' : crs_readable A -> i < m_row A -> i' < m_row A ->
  rd (m_rp A) i = Ok lo -> rd (m_rp A) (i + 1) = Ok hi -> rd (m_rp A) i' = Ok lo' -> rd (m_rp A) (i' + 1) = Ok hi' ->
  lo <= j < hi -> lo' <= j < hi' -> i = i'.
Proof.
  intros (b & (S1 & S2 & S3 & S4 & S5 & S6 & S7 & S8 & S9) & (B1 & B2 & B3 & B4 & B5)) Hi Hi' E1 E2 E3 E4 J1 J2.
  apply rd_Ok in E1, E2, E3, E4. destruct E1 as [_ E1], E2 as [_ E2], E3 as [_ E3], E4 as [_ E4].
  specialize (E1 0). specialize (E2 0). specialize (E3 0). specialize (E4 0).
  fold (rpn A i) in E1. fold (rpn A (i + 1)) in E2. fold (rpn A i') in E3. fold (rpn A (i' + 1)) in E4.
  assert (M : forall p q, p <= q -> q <= m_row b -> rpn b p <= rpn b q).
  { intros p q Hpq Hq. induction Hpq as [|q Hpq IH]; auto. etransitivity; [apply IH; lia|].
    rewrite <- Nat.add_1_r. apply B3. lia. }
  destruct (S9 i Hi) as [[R1 R2]|[R1 R2]]; [|lia]. destruct (S9 i' Hi') as [[R3 R4]|[R3 R4]]; [|lia].
  destruct (Nat.lt_trichotomy i i') as [H|[H|H]]; auto; exfalso.
  - assert (rpn b (i + 1) <= rpn b i') by (apply M; lia). lia.
  - assert (rpn b (i' + 1) <= rpn b i) by (apply M; lia). lia.
Qed.

(** entry [j] belongs to row [i] *)
Definition in_row (A : crs F) (i j : nat) : Prop :=
  exists lo hi, rd (m_rp A) i = Ok lo /\ rd (m_rp A) (i + 1) = Ok hi /\ lo <= j < hi.
Lemma in_row_inj A i i' j : crs_readable A -> i < m_row A -> i' < m_row A -> in_row A i j -> in_row A i' j -> i = i'.
Proof. intros HA Hi Hi' (lo & hi & E1 & E2 & J) (lo' & hi' & E3 & E4 & J'). exact (rows_disjoint HA Hi Hi' E1 E2 E3 E4 J J'). Qed.

Lemma fp_plift_bind {A B} R W (r : res A) (f : A -> prog B) : (forall a, r = Ok a -> fp R W (f a)) -> fp R W (pbind (plift r) f).
Proof. destruct r; cbn; auto. Qed.
Lemma fp_range {B} R W (A : crs F) i (k : nat -> nat -> prog B) :
  (forall lo hi, rd (m_rp A) i = Ok lo -> rd (m_rp A) (i + 1) = Ok hi -> fp R W (k lo hi)) -> fp R W (p_range A i k).
Proof. intros H. unfold p_range. apply fp_plift_bind. intros lo E1. apply fp_plift_bind. intros hi E2. auto. Qed.
(** every schedule, from the sequential meaning *)
Lemma par_buf (m : mem) b N (bL : nat -> list F -> res (list F)) (bP : nat -> prog unit) w w' :
  race_free N bP -> rd m b = Ok w ->
  (forall j w w', j < N -> bL j w = Ok w' -> run (bP j) (upd m b w) = Ok (upd m b w', tt)) ->
  for_ 0 N bL w = Ok w' -> par_result N bP m (upd m b w').
Proof. intros HR Hb H E. apply race_free_par; auto. eapply seq_for_buf; eauto. Qed.
(** ** the SIMD kernel of the CRS x Dense product: what one entry reads and writes *)
Definition row_cells (bC Cr N : nat) (p : ptr) : Prop := exists l, p = (bC, Cr + l) /\ l < N.
Lemma fp_simd_step (R W : ptr -> Prop) w Av bB BB bC CC :
  (forall p, fst p = bB -> R p) -> (forall l, l < w -> R (bC, CC + l) /\ W (bC, CC + l)) ->
  fp R W (p_simd_step w Av bB BB bC CC).
Proof.
  intros HB HC. unfold p_simd_step. apply fp_bind.
  - apply fp_pfor. intros l s Hl. cbn. split; [auto|]. intros q. split; [apply HC; lia|]. auto.
  - intros regs. apply fp_pfor. intros l s Hl. apply fp_plift_bind. intros r _. cbn. split; [apply HC; lia|auto].
Qed.
Lemma fp_simd_while (R W : ptr -> Prop) w N (step : nat -> prog unit) : (forall j, j + w <= N -> fp R W (step j)) ->
  forall fuel j, fp R W (p_simd_while fuel w N step j).
Proof.
  intros H. induction fuel as [|fuel IH]; intros j; cbn [p_simd_while]; destruct (Nat.leb_spec (j + w) N); cbn [fp]; auto.
  apply fp_bind; auto.
Qed.
Lemma fp_simd_rest (R W : ptr -> Prop) a v bB Br bC Cr j N :
  (forall p, fst p = bB -> R p) -> (forall l, l < N -> R (bC, Cr + l) /\ W (bC, Cr + l)) ->
  fp R W (p_simd_rest a v bB Br bC Cr j N).
Proof.
  intros HB HC. unfold p_simd_rest. apply fp_pfor. intros l s Hl. cbn. split; [apply HC; lia|]. intros c. split; [auto|].
  intros q. split; [apply HC; lia|auto].
Qed.
Definition entry_fp (entry : F -> F -> nat -> nat -> nat -> nat -> nat -> prog unit) : Prop :=
  forall (R W : ptr -> Prop) a v bB Br bC Cr N, (forall p, fst p = bB -> R p) ->
    (forall l, l < N -> R (bC, Cr + l) /\ W (bC, Cr + l)) -> fp R W (entry a v bB Br bC Cr N).
Lemma fp_entry_double : entry_fp p_entry_double.
Proof.
  intros R W a v bB Br bC Cr N HB HC. unfold p_entry_double. cbv zeta. apply fp_bind; [|intros j; apply fp_simd_rest; auto].
  apply fp_simd_while. intros j Hj. apply fp_simd_step; auto. intros l Hl. rewrite <- Nat.add_assoc. apply HC. lia.
Qed.
Lemma fp_entry_float : entry_fp p_entry_float.
Proof.
  intros R W a v bB Br bC Cr N HB HC. unfold p_entry_float. cbv zeta. apply fp_bind; [|intros j; apply fp_bind; [|intros; apply fp_simd_rest; auto]].
  - apply fp_simd_while. intros j Hj.
    repeat (apply fp_bind; [apply fp_simd_step; auto; intros l Hl; rewrite <- ?Nat.add_assoc; apply HC; lia | intros _]).
    apply fp_simd_step; auto; intros l Hl; rewrite <- ?Nat.add_assoc; apply HC; lia.
  - apply fp_simd_while. intros k Hk. apply fp_simd_step; auto. intros l Hl. rewrite <- Nat.add_assoc. apply HC. lia.
Qed.

(** ** alone in a thread, it does what the list version in CrsModel does *)
Lemma run_simd_step (m : mem) bB bC Bd w Av BB CC Cd Cd' : rd m bB = Ok Bd -> bB <> bC -> bC < length m ->
  simd_step w Av Bd BB Cd CC = Ok Cd' -> run (p_simd_step w Av bB BB bC CC) (upd m bC Cd) = Ok (upd m bC Cd', tt).
Proof.
  intros HB NB HC E. unfold simd_step in E. apply bind_ok in E. destruct E as (regs & E1 & E). unfold p_simd_step. rewrite run_pbind.
  erewrite run_pfor_loc; [|  |exact E1].
  - cbn [bind]. eapply run_pfor_buf; [|exact E]. cbv beta. intros l s s' Hl Ej. apply bind_ok in Ej. destruct Ej as (r & Er & Ej).
    rewrite Er. cbn [plift pbind run bind]. rewrite (@st_put m bC s _ _ s') by auto. auto.
  - cbv beta. intros l s s' Hl Ej. apply bind_ok in Ej. destruct Ej as (q & Eq & Ej). apply bind_ok in Ej. destruct Ej as (c & Ec & Ej).
    cbn [run]. rewrite (@ld_put_other m bC Cd bB Bd) by auto. rewrite Eq. cbn [bind]. rewrite ld_put_same by auto. rewrite Ec. cbn [bind].
    now injection Ej as <-.
Qed.
Lemma run_simd_while (m : mem) bC w N (step : nat -> list F -> res (list F)) (pstep : nat -> prog unit) :
  (forall j Cd Cd', step j Cd = Ok Cd' -> run (pstep j) (upd m bC Cd) = Ok (upd m bC Cd', tt)) ->
  forall fuel j Cd Cd' j', simd_while fuel w N step j Cd = Ok (Cd', j') ->
  run (p_simd_while fuel w N pstep j) (upd m bC Cd) = Ok (upd m bC Cd', j').
Proof.
  intros H. induction fuel as [|fuel IH]; intros j Cd Cd' j' E; cbn [simd_while p_simd_while] in *; destruct (j + w <=? N);
    try discriminate E; try (injection E as <- <-; reflexivity).
  apply bind_ok in E. destruct E as (C1 & E1 & E). rewrite run_pbind. rewrite (H _ _ _ E1). cbn [bind]. auto.
Qed.
Lemma run_simd_rest (m : mem) bB bC Bd a v Br Cr j N Cd Cd' : rd m bB = Ok Bd -> bB <> bC -> bC < length m ->
  simd_rest a v Bd Br Cr j N Cd = Ok Cd' -> run (p_simd_rest a v bB Br bC Cr j N) (upd m bC Cd) = Ok (upd m bC Cd', tt).
Proof.
  intros HB NB HC E. unfold simd_rest in E. unfold p_simd_rest. eapply run_pfor_buf; [|exact E].
  cbv beta. intros l s s' Hl Ej. apply bind_ok in Ej. destruct Ej as (c & Ec & Ej). apply bind_ok in Ej. destruct Ej as (q & Eq & Ej).
  cbn [run]. rewrite ld_put_same by auto. rewrite Ec. cbn [bind]. rewrite (@ld_put_other m bC s bB Bd) by auto. rewrite Eq. cbn [bind].
  rewrite (@st_put m bC s _ _ s') by auto. auto.
Qed.
Definition entry_sim (entry : F -> F -> nat -> nat -> nat -> nat -> nat -> prog unit)
  (lentry : F -> F -> list F -> nat -> nat -> nat -> list F -> res (list F)) : Prop :=
  forall (m : mem) bB bC Bd a v Br Cr N Cd Cd', rd m bB = Ok Bd -> bB <> bC -> bC < length m ->
    lentry a v Bd Br Cr N Cd = Ok Cd' -> run (entry a v bB Br bC Cr N) (upd m bC Cd) = Ok (upd m bC Cd', tt).
Lemma sim_entry_double : entry_sim p_entry_double avx_entry_double.
Proof.
  intros m bB bC Bd a v Br Cr N Cd Cd' HB NB HC E. unfold avx_entry_double in E. cbv zeta in E. apply bind_ok in E.
  destruct E as ([C1 j] & E1 & E). unfold p_entry_double. cbv zeta. rewrite run_pbind. erewrite run_simd_while; [| |exact E1].
  - cbn [bind]. eapply run_simd_rest; eauto.
  - cbv beta. intros. eapply run_simd_step; eauto.
Qed.
Lemma sim_entry_float : entry_sim p_entry_float avx_entry_float.
Proof.
  intros m bB bC Bd a v Br Cr N Cd Cd' HB NB HC E. unfold avx_entry_float in E. cbv zeta in E. apply bind_ok in E.
  destruct E as ([C1 j] & E1 & E). apply bind_ok in E. destruct E as ([C2 j2] & E2 & E).
  unfold p_entry_float. cbv zeta. rewrite run_pbind. erewrite run_simd_while; [| |exact E1].
  - cbn [bind]. rewrite run_pbind. erewrite run_simd_while; [| |exact E2].
    + cbn [bind]. eapply run_simd_rest; eauto.
    + cbv beta. intros. eapply run_simd_step; eauto.
  - cbv beta. intros k D D' Ek. apply bind_ok in Ek. destruct Ek as (D1 & F1 & Ek). apply bind_ok in Ek. destruct Ek as (D2 & F2 & Ek).
    apply bind_ok in Ek. destruct Ek as (D3 & F3 & Ek).
    rewrite run_pbind, (@run_simd_step m bB bC Bd _ _ _ _ _ _ HB NB HC F1). cbn [bind].
    rewrite run_pbind, (@run_simd_step m bB bC Bd _ _ _ _ _ _ HB NB HC F2). cbn [bind].
    rewrite run_pbind, (@run_simd_step m bB bC Bd _ _ _ _ _ _ HB NB HC F3). cbn [bind].
    exact (@run_simd_step m bB bC Bd _ _ _ _ _ _ HB NB HC Ek).
Qed.
End CrsPar.

Ltac dobs E := repeat (let a := fresh "a" in let H := fresh "E" in apply bind_ok in E; destruct E as (a & H & E)).
Ltac go := repeat (cbn [run bind plift pbind]; first
   [ match goal with E : rd ?l ?i = Ok _ |- context [plift (rd ?l ?i)] => rewrite E end
   | match goal with |- context [ld (upd _ ?b _) (?b, _)] => rewrite ld_put_same by auto end
   | match goal with H : rd ?m ?b' = Ok ?l |- context [ld (upd ?m ?b ?w) (?b', ?i)] => rewrite (@ld_put_other _ m b w b' l i) by auto end
   | match goal with E : rd ?l ?i = Ok _ |- context [rd ?l ?i] => rewrite E end
   | match goal with E : wr ?w ?i ?v = Ok ?w' |- context [st (upd ?m ?b ?w) (?b, ?i) ?v] => rewrite (@st_put _ m b w i v w') by auto end ]); cbn [run bind plift pbind].

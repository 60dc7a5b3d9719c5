(** * PropertiesStream: C118, where the residual history goes, and the life of the output streams. *)
From Coq Require Import String.
From Verif Require Import Base StreamModel StreamSpec StreamProof.
Set Implicit Arguments.
Local Open Scope list_scope.
Local Open Scope nat_scope.

Section C118.
Variable L : Type.
Notation op := (op L).
Notation world := (world L).

(** no undefined behaviour (use of an uninitialised, deleted or twice deleted stream) in any program that uses only existing
    objects, with any number of objects, repeated and failing calls of the setters in any order, and copies of objects
    that are never told a file name *)
Theorem C118_safe (h : list op) : proper h -> copies_harmless h -> exists w, exec h start = Some w.
Proof. intros PR CH. destruct (@exec_inv L h PR CH h []) as (w & E & _); [now rewrite app_nil_r|]. eauto. Qed.

Lemma harmless_nc (h : list op) : no_copies h -> copies_harmless h.
Proof. intros H i [Hi|(j & Hi)]; [now destruct (H i 0) as (H1 & _)|now destruct (H i j) as (_ & H1)]. Qed.
Lemma proper_app (h : list op) t : proper (h ++ t) -> proper h.
Proof. intros P h1 o h2 -> . apply (P h1 o (h2 ++ t)). now rewrite <- app_assoc. Qed.
Lemma now_sol (h : list op) i ls : proper (h ++ [Solve i ls]) -> no_copies h -> exists w s, exec h start = Some w /\ getsol w i = Some s /\ Inv (h ++ [Solve i ls]) h w.
Proof.
  intros PR NC. assert (CH : copies_harmless (h ++ [Solve i ls])).
  { apply harmless_nc. intros a b. destruct (NC a b). rewrite !in_snoc. split; intros [H1|H1]; auto; discriminate. }
  destruct (@exec_inv L _ PR CH h [Solve i ls] eq_refl) as (w & E & I). destruct (PR h (Solve i ls) [] eq_refl i) as (B1 & B2); [now left|].
  destruct (@i_live _ _ _ _ I i B1 B2) as (s & G). eauto.
Qed.
Lemma last_flag_so (h : list op) w i s f : no_copies h -> proper h -> exec h start = Some w -> getsol w i = Some s -> last_flag i h f -> so_flag s = f.
Proof.
  intros NC PR E G (h1 & h2 & -> & U). rewrite exec_app in E. destruct (exec h1 start) as [w1|] eqn:E1; [|discriminate]. cbn [exec step] in E.
  destruct (getsol w1 i) as [s1|] eqn:G1; [|discriminate]. pose proof (getsol_lt _ _ G1) as L1.
  assert (NC' : forall o, In o h2 -> notcopy o) by (intros o Ho; apply (no_copies_each NC); apply in_app_iff; right; now right).
  destruct (@exec_sol L h2 _ w i s NC' E G) as (s2 & G2 & _ & K); [cbn; now rewrite upd_length|].
  unfold set_print in G2. rewrite getsol_set, Nat.eqb_refl in G2 by auto. injection G2 as <-. now rewrite K.
Qed.

(** where the lines of a solve go: nowhere, unless the flag was switched on *)
Theorem C118_off (h : list op) i ls w : proper (h ++ [Solve i ls]) -> no_copies h -> exec h start = Some w ->
  flag_untouched i h \/ last_flag i h false -> exec (h ++ [Solve i ls]) start = Some w.
Proof.
  intros PR NC E H. destruct (@now_sol h i ls PR NC) as (w' & s & E' & G & I). rewrite E in E'. injection E' as <-.
  assert (Fl : so_flag s = false).
  { destruct H as [H|H]; [eapply flag_default; eauto; now apply no_copies_each|]. eapply last_flag_so; eauto. now apply proper_app in PR. }
  rewrite exec_app, E. cbn [exec step]. rewrite G. unfold print. now rewrite Fl.
Qed.
(** to standard output, if the last setter called was set_print_rhistory(true) - also when a file name was set before *)
Theorem C118_to_cout (h : list op) i ls w : proper (h ++ [Solve i ls]) -> no_copies h -> exec h start = Some w ->
  last_flag i h true -> last_was_print i h ->
  exec (h ++ [Solve i ls]) start = Some (mkWorld (w_cout w ++ ls) (w_streams w) (w_sols w)).
Proof.
  intros PR NC E HF (h1 & f & h2 & HE & U). destruct (@now_sol h i ls PR NC) as (w' & s & E' & G & I). rewrite E in E'. injection E' as <-.
  pose proof (@last_flag_so h w i s true NC (@proper_app _ _ PR) E G HF) as Fl.
  assert (Pt : so_ptr s = Cout).
  { subst h. rewrite exec_app in E. destruct (exec h1 start) as [w1|] eqn:E1; [|discriminate]. cbn [exec step] in E.
    destruct (getsol w1 i) as [s1|] eqn:G1; [|discriminate]. pose proof (getsol_lt _ _ G1) as L1.
    assert (NC' : forall o, In o h2 -> notcopy o) by (intros o Ho; apply (no_copies_each NC); apply in_app_iff; right; now right).
    destruct (@exec_sol L h2 _ w i s NC' E G) as (s2 & G2 & K & _); [cbn; now rewrite upd_length|].
    unfold set_print in G2. rewrite getsol_set, Nat.eqb_refl in G2 by auto. injection G2 as <-. rewrite K by auto. reflexivity. }
  rewrite exec_app, E. cbn [exec step]. rewrite G. unfold print. now rewrite Fl, Pt.
Qed.
(** to the file, if the flag is on and the last setter called was set_rhistory_filename: exactly the stream which that call
    opened grows, by exactly the lines of this solve; if it could not be opened (the call threw), nothing is written *)
Theorem C118_to_file (h1 h2 : list op) i name ok ls w : let h := h1 ++ SetFile i name ok :: h2 in
  proper (h ++ [Solve i ls]) -> no_copies h -> exec h start = Some w -> last_flag i h true -> untouched i h2 ->
  exists old, nth_error (w_streams w) (opened h1) = Some (mkStream name (opens name ok) old true) /\
    exec (h ++ [Solve i ls]) start =
      Some (mkWorld (w_cout w) (upd (w_streams w) (opened h1) (mkStream name (opens name ok) (if opens name ok then old ++ ls else old) true)) (w_sols w)).
Proof.
  intros h PR NC E HF U. destruct (@now_sol h i ls PR NC) as (w' & s & E' & G & I). rewrite E in E'. injection E' as <-.
  pose proof (@last_flag_so h w i s true NC (@proper_app _ _ PR) E G HF) as Fl.
  assert (KK : so_ptr s = File (opened h1) /\ exists r, nth_error (w_streams w) (opened h1) = Some r /\ st_name r = name /\ st_ok r = opens name ok).
  { pose proof E as E2. unfold h in E2. rewrite exec_app in E2. destruct (exec h1 start) as [w1|] eqn:E1; [|discriminate]. cbn [exec step] in E2.
    destruct (getsol w1 i) as [s1|] eqn:G1; [|discriminate]. pose proof (getsol_lt _ _ G1) as L1.
    assert (NC' : forall o, In o h2 -> notcopy o) by (intros o Ho; apply (no_copies_each NC); apply in_app_iff; right; now right).
    assert (SL : length (w_streams w1) = opened h1).
    { assert (P1 : proper h1) by (unfold h in PR; rewrite <- app_assoc in PR; now apply proper_app in PR).
      assert (C1 : copies_harmless h1). { apply harmless_nc. intros a b. destruct (NC a b) as (N1 & N2). split; intros Hx; [apply N1|apply N2]; apply in_app_iff; now left. }
      destruct (@exec_inv L h1 P1 C1 h1 []) as (w2 & E3 & I2); [now rewrite app_nil_r|]. rewrite E1 in E3. injection E3 as <-. apply (i_streams I2). }
    destruct (@exec_sol L h2 _ w i s NC' E2 G) as (s2 & G2 & K & _); [cbn; now rewrite upd_length|].
    unfold set_file in G2. change (getsol (setsol w1 i (Some (mkSol (so_flag s1) name (File (length (w_streams w1)))))) i = Some s2) in G2.
    rewrite getsol_set, Nat.eqb_refl in G2 by auto. injection G2 as <-. rewrite K by auto. cbn [so_ptr]. rewrite SL. split; auto.
    apply (@exec_streams L h2 _ w (opened h1) (mkStream name (opens name ok) [] true) E2). unfold set_file. cbn [w_streams]. rewrite nth_error_app2, <- SL, Nat.sub_diag by (cbn; lia). reflexivity. }
  destruct KK as (Pt & r & R1 & R2 & R3). destruct (@i_file _ _ _ _ I _ _ _ G Pt) as (r' & Q1 & Q2 & _). rewrite R1 in Q1. injection Q1 as <-.
  destruct r as [nm okk old lv]. cbn in R2, R3, Q2. subst. exists old. split; auto.
  rewrite exec_app, E. cbn [exec step]. rewrite G. unfold print. now rewrite Fl, Pt, R1.
Qed.

(** no stream is leaked by programs that call the setters in the advisable order and destroy their objects *)
Definition owned (w : world) : Prop := forall k r, nth_error (w_streams w) k = Some r -> st_live r = true ->
  exists i s, getsol w i = Some s /\ so_ptr s = File k /\ so_file s <> ""%string.
Definition told (h : list op) (w : world) : Prop := forall i s k, getsol w i = Some s -> so_ptr s = File k -> exists n ok, In (SetFile i n ok) h.
Lemma told_contra (h : list op) o i w s k : advisable (h ++ [o]) -> told h w -> getsol w i = Some s -> so_ptr s = File k -> sets i o = true -> False.
Proof.
  intros AD T G P S. destruct (T i s k G P) as (n & ok & Hin). apply in_split in Hin. destruct Hin as (h1 & h2 & ->).
  destruct (AD h1 i n ok (h2 ++ [o])) as (_ & U); [now rewrite <- app_assoc|]. rewrite (U o) in S by apply in_elt. discriminate.
Qed.
Lemma owned_step h o (w w' : world) : notcopy o -> advisable (h ++ [o]) -> step o w = Some w' -> owned w -> told h w ->
  owned w' /\ told (h ++ [o]) w'.
Proof.
  intros NC AD E O T. split.
  - destruct o as [|a f|a n ok|a ls|a|a b|a]; cbn [step notcopy] in *; try now destruct NC.
    + injection E as <-. intros k r R1 R2. destruct (O k r R1 R2) as (i & s & G & P & Q). exists i, s. rewrite getsol_add. pose proof (getsol_lt _ _ G).
      destruct (Nat.eqb_spec i (length (w_sols w))); [lia|]. auto.
    + destruct (getsol w a) as [s0|] eqn:Ga; [|discriminate]. injection E as <-. intros k r R1 R2. destruct (O k r R1 R2) as (i & s & G & P & Q). exists i, s. split; auto.
      unfold set_print. rewrite getsol_set by (eapply getsol_lt; eauto). destruct (Nat.eqb_spec a i) as [->|N]; auto.
      exfalso. eapply told_contra; eauto. cbn. apply Nat.eqb_refl.
    + destruct (getsol w a) as [s0|] eqn:Ga; [|discriminate]. injection E as <-. intros k r R1 R2. unfold set_file in *. cbn [w_streams] in R1.
      set (w1 := setsol w a (Some (mkSol (so_flag s0) n (File (length (w_streams w)))))) in *.
      change (exists i s, getsol w1 i = Some s /\ so_ptr s = File k /\ so_file s <> ""%string).
      assert (G1 : forall i, getsol w1 i = if a =? i then Some (mkSol (so_flag s0) n (File (length (w_streams w)))) else getsol w i) by (intros i; apply getsol_set; eapply getsol_lt; eauto).
      change (w_streams w1) with (w_streams w) in R1. destruct (Nat.lt_ge_cases k (length (w_streams w))) as [Lk|Lk].
      * rewrite nth_error_app1 in R1 by auto. destruct (O k r R1 R2) as (i & s & G & P & Q). exists i, s. split; auto. rewrite G1. destruct (Nat.eqb_spec a i) as [->|N]; auto.
        exfalso. eapply told_contra; eauto. cbn. apply Nat.eqb_refl.
      * rewrite nth_error_app2 in R1 by auto. destruct (k - length (w_streams w)) as [|[|x]] eqn:Ek; try discriminate. exists a. eexists. rewrite G1, Nat.eqb_refl. split; [reflexivity|]. cbn. split; [f_equal; lia|].
        destruct (AD h a n ok []) as (Q & _); auto.
    + destruct (getsol w a) as [s0|] eqn:Ga; [|discriminate]. revert E. unfold print. destruct (so_flag s0); [|intros E; injection E as <-; auto].
      destruct (so_ptr s0) as [| |m]; [discriminate|intros E; injection E as <-; auto|].
      destruct (nth_error (w_streams w) m) as [[nm okk old [|]]|] eqn:Em; try discriminate. intros E; injection E as <-. intros k r R1 R2. cbn [w_streams] in R1. rewrite nth_error_upd in R1.
      assert (X : exists r0, nth_error (w_streams w) k = Some r0 /\ st_live r0 = true).
      { destruct (Nat.eqb_spec m k) as [->|N]; cbn [andb] in R1; eauto. }
      destruct X as (r0 & X1 & X2). destruct (O k r0 X1 X2) as (i & s & H). exists i, s. exact H.
    + destruct (getsol w a) as [s0|] eqn:Ga; [|discriminate]. pose proof (getsol_lt _ _ Ga) as La.
      assert (Keep : forall st, (forall k r, nth_error st k = Some r -> st_live r = true -> nth_error (w_streams w) k = Some r /\ (so_file s0 = ""%string \/ so_ptr s0 <> File k)) ->
        owned (setsol (mkWorld (w_cout w) st (w_sols w)) a None)).
      { intros st HK k r R1 R2. destruct (HK k r R1 R2) as (R3 & R4). destruct (O k r R3 R2) as (i & s & G & P & Q). exists i, s. split; auto.
        rewrite getsol_set by auto. destruct (Nat.eqb_spec a i) as [->|N]; auto. rewrite Ga in G. injection G as ->. now destruct R4. }
      revert E. unfold destroy. destruct (String.eqb_spec (so_file s0) ""); [intros E; injection E as <-; destruct w; apply Keep; auto|].
      destruct (so_ptr s0) as [| |m] eqn:Pt; [discriminate|intros E; injection E as <-; destruct w; apply Keep; intros; split; auto; right; discriminate|].
      destruct (nth_error (w_streams w) m) as [[nm okk old [|]]|] eqn:Em; try discriminate. intros E; injection E as <-. apply Keep. intros k r R1 R2. rewrite nth_error_upd in R1.
      assert (Lm : m < length (w_streams w)) by (apply nth_error_Some; congruence).
      destruct (Nat.eqb_spec m k) as [->|N]; cbn [andb] in R1; [|split; auto; right; congruence]. rewrite (proj2 (Nat.ltb_lt _ _) Lm) in R1. injection R1 as <-. discriminate.
  - intros i s k G P. destruct (sets i o) eqn:S.
    + destruct o as [|a f|a n ok|a ls|a|a b|a]; cbn [sets] in S; try discriminate; apply Nat.eqb_eq in S; subst a.
      * cbn [step] in E. destruct (getsol w i) as [s0|] eqn:Ga; [|discriminate]. injection E as <-. unfold set_print in G. rewrite getsol_set, Nat.eqb_refl in G by (eapply getsol_lt; eauto). injection G as <-. discriminate.
      * exists n, ok. apply in_elt.
    + destruct (@step_sol L o w w' i s NC E G) as [(s1 & G1 & K & _)|(_ & _ & ->)]; [|discriminate].
      rewrite (K S) in P. destruct (T i s1 k G1 P) as (n & ok & H). exists n, ok. apply in_app_iff. auto.
Qed.
Theorem C118_no_leak (h : list op) : proper h -> no_copies h -> advisable h -> all_destroyed h ->
  exists w, exec h start = Some w /\ forall k r, nth_error (w_streams w) k = Some r -> st_live r = false.
Proof.
  intros PR NC AD AL. pose proof (no_copies_each NC) as NC'.
  destruct (@exec_inv L h PR (@harmless_nc h NC) h []) as (w & E & I); [now rewrite app_nil_r|]. exists w. split; auto.
  assert (OT : forall t w0, (forall o, In o t -> notcopy o) -> advisable t -> exec t start = Some w0 -> owned w0 /\ told t w0).
  { induction t as [|o t IH] using rev_ind; intros w0 N A E0.
    - injection E0 as <-. split; [intros [|k]; discriminate|intros [|i]; discriminate].
    - rewrite exec_app in E0. destruct (exec t start) as [w1|] eqn:E1; [|discriminate]. cbn in E0. destruct (step o w1) as [w2|] eqn:E2; [|discriminate]. injection E0 as <-.
      destruct (IH w1) as (O1 & T1); auto.
      + intros x Hx. apply N. apply in_app_iff. auto.
      + intros h1 i n ok h2 ->. destruct (A h1 i n ok (h2 ++ [o])) as (A1 & A2); [now rewrite <- app_assoc|]. split; auto. intros x Hx. apply A2. apply in_app_iff. auto.
      + eapply owned_step; eauto. apply N. apply in_elt. }
  destruct (OT h w NC' AD E) as (O & _). intros k r R. destruct (st_live r) eqn:Lv; auto. exfalso.
  destruct (O k r R Lv) as (i & s & G & _). pose proof (getsol_lt _ _ G) as Li. rewrite (i_sols I) in Li. exact (@i_dead _ _ _ _ I i s G (AL i Li)).
Qed.
End C118.

(** ** concrete programs: one line per solve *)
Local Notation run h := (exec (L:=nat) h start).
(** print on, then a file: two solves go to the file, which is closed; nothing on standard output *)
Theorem C118_example : run [New; SetPrint 0 true; SetFile 0 "r.txt" true; Solve 0 [1; 2]; Solve 0 [3]; Destroy 0] =
    Some (mkWorld [] [mkStream "r.txt" true [1; 2; 3] false] [None]) /\
  run [New; New; SetPrint 0 true; SetPrint 1 true; SetFile 1 "r.txt" true; Solve 0 [1]; Solve 1 [2]; SetPrint 0 false; Solve 0 [3]; Destroy 1; Destroy 0] =
    Some (mkWorld [1] [mkStream "r.txt" true [2] false] [None; None]).
Proof. split; reflexivity. Qed.
Theorem C118_hypotheses : let h := [New; SetPrint 0 true; SetFile 0 "r.txt" true; Solve 0 [1; 2]; Solve 0 [3]; Destroy 0] : list (op nat) in
  proper h /\ no_copies h /\ advisable h /\ all_destroyed h.
Proof.
  intros h. split; [|split; [|split]].
  - intros h1 o h2 E i Hi. unfold h in E. clear h.
    repeat (destruct h1 as [|? h1]; [injection E; intros; subst; cbn in Hi; split; [cbn; lia|cbn; intuition congruence]|injection E as <- E]). destruct h1; discriminate.
  - intros i j. unfold h. cbn. intuition discriminate.
  - intros h1 i n ok h2 E. unfold h in E. clear h.
    repeat (destruct h1 as [|? h1]; [first [discriminate|injection E; intros; subst; split; [discriminate|intros o Ho; cbn in Ho; intuition (subst; reflexivity)]]|injection E as <- E]). destruct h1; discriminate.
  - intros i Hi. cbn in Hi. replace i with 0 by lia. unfold h. cbn. auto 10.
Qed.
(** FALSE: a file name given before set_print_rhistory(true) is not used: the file stays empty, the history goes to
    standard output, and the stream is leaked *)
Theorem C118_file_first_refuted : run [New; SetFile 0 "r.txt" true; SetPrint 0 true; Solve 0 [1; 2]; Destroy 0] =
  Some (mkWorld [1; 2] [mkStream "r.txt" true [] true] [None]).
Proof. reflexivity. Qed.
(** FALSE: changing the file, switching the history off and the empty name leak streams *)
Theorem C118_leak_refuted :
  run [New; SetPrint 0 true; SetFile 0 "a" true; SetFile 0 "b" true; Solve 0 [1]; Destroy 0] = Some (mkWorld [] [mkStream "a" true [] true; mkStream "b" true [1] false] [None]) /\
  run [New; SetPrint 0 true; SetFile 0 "a" true; Solve 0 [1]; SetPrint 0 false; Destroy 0] = Some (mkWorld [] [mkStream "a" true [1] true] [None]) /\
  run [New; SetFile 0 "" true; Destroy 0] = Some (mkWorld [] [mkStream "" false [] true] [None]) /\ throws (SetFile (L:=nat) 0 "" true) = true.
Proof. repeat split; reflexivity. Qed.
(** FALSE: a copied solver shares the stream: deleted twice, or written after it was deleted *)
Theorem C118_copy_refuted :
  run [New; SetPrint 0 true; SetFile 0 "a" true; Copy 0; Destroy 1; Destroy 0] = None /\
  run [New; SetPrint 0 true; SetFile 0 "a" true; Copy 0; Destroy 1; Solve 0 [1]] = None /\
  run [New; SetPrint 0 true; SetFile 0 "a" true; New; Assign 0 1; Destroy 0; Destroy 1] = None /\
  (exists w, run [New; SetPrint 0 true; SetFile 0 "a" true; Copy 0; Destroy 1] = Some w) /\
  (exists w, run [New; SetPrint 0 true; Copy 0; SetFile 1 "a" true; Solve 1 [1]; Destroy 1; Solve 0 [2]; Destroy 0] = Some w).
Proof. repeat split; try reflexivity; eexists; reflexivity. Qed.

Print Assumptions C118_safe.
Print Assumptions C118_off.
Print Assumptions C118_to_cout.
Print Assumptions C118_to_file.
Print Assumptions C118_no_leak.
Print Assumptions C118_example.
Print Assumptions C118_hypotheses.
Print Assumptions C118_file_first_refuted.
Print Assumptions C118_leak_refuted.
Print Assumptions C118_copy_refuted.

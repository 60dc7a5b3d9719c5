(** * PropertiesLayout: C105, MatrixMarket files are read whatever their layout.

    [fields ws l]: line [l] has the fields [ws], separated by any white space (blanks, tabs, carriage returns: a file
    with CR LF line ends is included), with anything behind further white space; [numeral t n]: [t] is a decimal
    numeral for [n] (leading zeros and a plus sign allowed); see IoLayout. *)
From Coq Require Import Ascii String NArith ZArith SpecFloat.
From Flocq Require Import IEEE754.BinarySingleNaN.
From Verif Require Import Base Scalar CooModel Observe IoModel IoProof FloatText IoLayout.
From Verif Require Import FloatTextProof PropertiesIo.
Import ListNotations.
Local Open Scope list_scope.
Local Open Scope nat_scope.
Set Implicit Arguments.

Definition banner_words : list text :=
  [txt "%%MatrixMarket"; txt "matrix"; txt "coordinate"; txt "real"; txt "general"].

Lemma get_word' b sp w r old : blank_char b -> Forall blank_char sp -> no_space w -> w <> [] ->
  (match r with [] => True | c :: _ => is_space c = true end) ->
  get_word (stream_of (b :: sp ++ w ++ r)) old = (stream_end r, w).
Proof. intros. apply (@get_word_word (b :: sp) w r old); auto. apply blanks_space. now constructor. Qed.

Section C105.
Context {F : Type} {SF : Scalar F} {CF : Codec F}.

(** the number scanner stops at white space (proved below for float and double) *)
Definition scan_stops : Prop :=
  forall w t : text, (t = [] \/ exists b r, t = b :: r /\ blank_char b) -> fscan (w ++ t) = fscan w.
(** [v] is the text of a value that reads as [x] *)
Definition value_text (v : text) (x : F) : Prop :=
  (exists c r, v = c :: r /\ is_space c = false) /\ ~ In nl v /\ fscan v = x.
(** [l] is a line for entry (i, j, x), indices counted from 1 *)
Definition entry_text (e : nat * nat * F) (l : text) : Prop :=
  exists a b v, fields [a; b; v] l /\
    numeral a (N.of_nat (fst (fst e) + 1)) /\ numeral b (N.of_nat (snd (fst e) + 1)) /\ value_text v (snd e).

Lemma idx_back' r : (Z.of_nat r < 2 ^ 31)%Z -> int_of_size (size_pred (N.of_nat (r + 1))) = Z.of_nat r.
Proof.
  intros H. unfold size_pred, int_of_size.
  replace (N.of_nat (r + 1) + (2 ^ 64 - 1))%N with (N.of_nat r + 1 * 2 ^ 64)%N by lia.
  rewrite N.mod_add by discriminate. rewrite N.mod_small by lia. rewrite nat_N_Z. rewrite Z.mod_small by lia. lia.
Qed.

Lemma entry_ok (HS : scan_stops) e l s ls buf i ri ci va :
  entry_text e l -> holds s (l :: ls) -> (Z.of_nat (fst (fst e)) < 2 ^ 31)%Z -> (Z.of_nat (snd (fst e)) < 2 ^ 31)%Z ->
  i < length ri -> i < length ci -> i < length va ->
  exists s', (ls = [] \/ holds s' ls) /\
    mm_entry i (s, buf, (ri, ci, va)) = Ok (s', l, (upd ri i (Z.of_nat (fst (fst e))), upd ci i (Z.of_nat (snd (fst e))), upd va i (snd e))).
Proof.
  intros (a & b & v & Hf & Ha & Hb & ((c & r & Ev & Hc) & Hv2 & Hv3)) Hh R1 R2 L1 L2 L3.
  assert (Hn : no_nl l).
  { apply (fields_no_nl Hf). destruct (numeral_start Ha) as (? & ? & _ & _ & ?). destruct (numeral_start Hb) as (? & ? & _ & _ & ?).
    repeat constructor; auto. now apply no_nl_in. }
  destruct (holds_getline buf Hh Hn) as (s' & E & R). exists s'. split; [exact R|].
  unfold mm_entry. rewrite E. cbv zeta.
  destruct Hf as (sp & w & ws' & t & Ew & Hsp & El & Hm). injection Ew as <- <-. subst l.
  inversion Hm as [|b1 sp1 w1 ws1 t1 Hb1 Hsp1 Hm1 E1 E2]; subst. clear Hm.
  inversion Hm1 as [|b2 sp2 w2 ws2 t2 Hb2 Hsp2 Hm2 E1 E2]; subst. clear Hm1.
  rewrite (@numeral_get _ a sp _ None Ha); [|unfold size_max; lia|now apply blanks_space|now apply blank_space].
  unfold stream_end. cbn [ended]. fold (stream_of (b1 :: sp1 ++ b ++ b2 :: sp2 ++ (c :: r) ++ t2)).
  change (b1 :: sp1 ++ b ++ b2 :: sp2 ++ (c :: r) ++ t2) with ((b1 :: sp1) ++ b ++ b2 :: sp2 ++ (c :: r) ++ t2).
  rewrite (@numeral_get _ b (b1 :: sp1) _ None Hb); [|unfold size_max; lia|apply blanks_space; now constructor|now apply blank_space].
  unfold stream_end. cbn [ended]. fold (stream_of (b2 :: sp2 ++ (c :: r) ++ t2)).
  unfold get_float. change (b2 :: sp2 ++ (c :: r) ++ t2) with ((b2 :: sp2) ++ c :: (r ++ t2)).
  rewrite sentry_word; [|apply blanks_space; now constructor|auto].
  cbn [s_rest stream_of use bind]. change (c :: r ++ t2) with ((c :: r) ++ t2). rewrite HS by now apply (more_start Hm2).
  rewrite wr_lt by auto. cbn [bind]. rewrite wr_lt by auto. cbn [bind]. rewrite wr_lt by auto. cbn [bind].
  rewrite !idx_back' by auto. rewrite Hv3. reflexivity.
Qed.

(** A file with the five banner words on its first line, comment lines, a line with the three sizes and one line per
    entry is read, in order and completely, whatever its white space, whatever follows, and whether or not its last
    line ends with a newline *)
Theorem C105_layout (HS : scan_stops) fuel file banner comments size entries (es : list (nat * nat * F)) tr tc tn row col :
  fields banner_words banner ->
  Forall is_comment_line comments -> length comments <= fuel ->
  fields [tr; tc; tn] size -> numeral tr row -> numeral tc col -> numeral tn (N.of_nat (length es)) ->
  (row < 2 ^ 64)%N -> (0 < col < 2 ^ 64)%N -> (N.of_nat (length es) < 2 ^ 64)%N ->
  Forall2 entry_text es entries ->
  Forall (fun e => (Z.of_nat (fst (fst e)) < 2 ^ 31)%Z /\ (Z.of_nat (snd (fst e)) < 2 ^ 31)%Z) es ->
  (exists rest, file = unlines (banner :: comments ++ size :: entries) ++ rest) \/
    file ++ [nl] = unlines (banner :: comments ++ size :: entries) ->
  input_mm fuel file = Ok (mkMm row col (map (fun e => Z.of_nat (fst (fst e))) es) (map (fun e => Z.of_nat (snd (fst e))) es) (map snd es)).
Proof.
  intros Hb Hcs Hfu Hs Nr Nc Nn Br Bc Bn HE HR HF.
  assert (Hnum : forall w n, numeral w n -> no_nl w).
  { intros w n H. destruct (numeral_start H) as (? & ? & _ & _ & ?). auto. }
  assert (HEne : forall l, In l entries -> l <> []).
  { intros l Hl.
    clear - HE Hl. induction HE as [|e l' es' ls' (a & b & v & Hf & Ha & _) _ IH]; [destruct Hl|].
    destruct Hl as [->|Hl]; auto. destruct Hf as (sp & w & ws' & t & E & _ & -> & _). injection E as <- <-.
    destruct (numeral_start Ha) as (c & r & -> & _). destruct sp; discriminate. }
  assert (Hsz : no_nl size) by (apply (fields_no_nl Hs); repeat constructor; eauto).
  assert (Hszne : size <> [] /\ is_comment size = false).
  { destruct Hs as (sp & w & ws' & t & E & Hsp & -> & _). injection E as <- <-.
    destruct (numeral_start Nr) as (c & r & -> & Hc & _). destruct sp as [|b sp]; cbn; [split; [discriminate|exact Hc]|].
    inversion Hsp; subst. split; [discriminate|]. now apply blank_space. }
  assert (Hbn : no_nl banner) by (apply (fields_no_nl Hb); repeat constructor).
  assert (H0 : holds (stream_of file) (banner :: comments ++ size :: entries)).
  { destruct HF as [(rest & ->)|HF]; [left; eauto|]. right.
    destruct (@exists_last _ (banner :: comments ++ size :: entries)) as (ls' & l & E); [discriminate|].
    exists ls', l. split; auto. split.
    - assert (Hin : In l (size :: entries)).
      { assert (G : exists p, banner :: comments ++ size :: entries = p ++ (size :: entries)) by (exists (banner :: comments); reflexivity).
        destruct G as (p & G). destruct (@exists_last _ (size :: entries)) as (q & l2 & E2); [discriminate|].
        rewrite E in G. rewrite E2 in G. rewrite app_assoc in G. apply app_inj_tail in G as (_ & ->). rewrite E2. apply in_or_app. right. now left. }
      destruct Hin as [<-|Hin]; [tauto|auto].
    - rewrite E in HF. unfold unlines in HF. rewrite map_app, concat_app in HF. cbn in HF. rewrite app_nil_r, app_assoc in HF.
      apply app_inv_tail in HF. now rewrite HF. }
  unfold input_mm.
  destruct (holds_getline [] H0 Hbn) as (s1 & E1 & [R1|R1]); [destruct comments; discriminate|]. rewrite E1.
  (* banner *)
  destruct Hb as (sp0 & w0 & ws0 & t0 & Ew & Hsp0 & -> & M0). injection Ew as <- <-.
  inversion M0 as [|b1 sp1 w1 ws1 t1 Hb1 Hsp1 M1 X1 X2]; subst. clear M0.
  inversion M1 as [|b2 sp2 w2 ws2 t2 Hb2 Hsp2 M2 X1 X2]; subst. clear M1.
  inversion M2 as [|b3 sp3 w3 ws3 t3 Hb3 Hsp3 M3 X1 X2]; subst. clear M2.
  inversion M3 as [|b4 sp4 w4 ws4 t4 Hb4 Hsp4 M4 X1 X2]; subst. clear M3.
  rewrite get_word_word; [|now apply blanks_space|repeat constructor|discriminate|now apply blank_space]. unfold stream_end at 1; cbn [ended].
  match goal with |- context [mkStream (b1 :: ?t) false false] => change (mkStream (b1 :: t) false false) with (stream_of (b1 :: t)) end.
  rewrite (@get_word' b1 sp1 (txt "matrix")); [|assumption|assumption|repeat constructor|discriminate|now apply blank_space].
  unfold stream_end at 1; cbn [ended].
  match goal with |- context [mkStream (b2 :: ?t) false false] => change (mkStream (b2 :: t) false false) with (stream_of (b2 :: t)) end.
  rewrite (@get_word' b2 sp2 (txt "coordinate")); [|assumption|assumption|repeat constructor|discriminate|now apply blank_space].
  unfold stream_end at 1; cbn [ended].
  match goal with |- context [mkStream (b3 :: ?t) false false] => change (mkStream (b3 :: t) false false) with (stream_of (b3 :: t)) end.
  rewrite (@get_word' b3 sp3 (txt "real")); [|assumption|assumption|repeat constructor|discriminate|now apply blank_space].
  unfold stream_end at 1; cbn [ended].
  match goal with |- context [mkStream (b4 :: ?t) false false] => change (mkStream (b4 :: t) false false) with (stream_of (b4 :: t)) end.
  rewrite (@get_word' b4 sp4 (txt "general")); [|assumption|assumption|repeat constructor|discriminate|now apply (more_space M4)].
  repeat match goal with |- context [teq ?w ?v] => change (teq w v) with true end. cbn [assert_ bind].
  (* comments and sizes *)
  assert (Hcs' : Forall comment_line comments) by (eapply Forall_impl; [|exact Hcs]; apply comment_line_of).
  destruct (@holds_skip comments size entries Hcs' (proj2 Hszne) Hsz fuel s1 [] Hfu R1) as (s2 & E2 & R2). rewrite E2. cbn [bind]. cbv zeta.
  assert (Hsz0 := Hs).
  destruct Hs as (sp & w & ws' & t & Ew & Hsp & Es & M). injection Ew as <- <-. rewrite Es.
  inversion M as [|b5 sp5 w5 ws5 t5 Hb5 Hsp5 M5 X1 X2]; subst t ws5 w5. clear M.
  inversion M5 as [|b6 sp6 w6 ws6 t6 Hb6 Hsp6 M6 X1 X3]; subst t5 ws6 w6. clear M5.
  rewrite (@numeral_get _ tr sp _ None Nr); [|unfold size_max; lia|now apply blanks_space|now apply blank_space].
  unfold stream_end at 1; cbn [ended]. fold (stream_of (b5 :: sp5 ++ tc ++ b6 :: sp6 ++ tn ++ t6)).
  change (b5 :: sp5 ++ tc ++ b6 :: sp6 ++ tn ++ t6) with ((b5 :: sp5) ++ tc ++ b6 :: sp6 ++ tn ++ t6).
  rewrite (@numeral_get _ tc (b5 :: sp5) _ None Nc); [|unfold size_max; lia|apply blanks_space; now constructor|now apply blank_space].
  unfold stream_end at 1; cbn [ended]. fold (stream_of (b6 :: sp6 ++ tn ++ t6)).
  change (b6 :: sp6 ++ tn ++ t6) with ((b6 :: sp6) ++ tn ++ t6).
  rewrite (@numeral_get _ tn (b6 :: sp6) _ None Nn); [|unfold size_max; lia|apply blanks_space; now constructor|now apply (more_digit M6)].
  cbn [use bind]. destruct (N.eqb_spec col 0) as [Z0|Z0]; [lia|]. cbn [negb assert_ bind]. rewrite Nat2N.id.
  (* entries *)
  set (n := length es). assert (Ln : length entries = n) by (symmetry; unfold n; clear - HE; induction HE; cbn; congruence).
  match goal with |- context [for_ 0 n mm_entry ?s0] =>
    destruct (@for0_inv _ (fun i st => let '(s, _, (ri, ci, va)) := st in
       (i < n -> holds s (skipn i entries)) /\ length ri = n /\ length ci = n /\ length va = n /\
       forall k, k < i -> nth k ri 0%Z = Z.of_nat (fst (fst (nth k es (0, 0, f0)))) /\
         nth k ci 0%Z = Z.of_nat (snd (fst (nth k es (0, 0, f0)))) /\ nth k va f0 = snd (nth k es (0, 0, f0))) n mm_entry s0)
      as (st & E & P)
  end.
  - rewrite !repeat_length. split; [|repeat split; auto; intros; lia]. intros Hn. cbn [skipn].
    destruct R2 as [->|R2]; auto. cbn in Ln. lia.
  - intros i [[s b] [[ri ci] va]] Hi (Hh & L1 & L2 & L3 & HN). specialize (Hh Hi).
    assert (Hx : skipn i entries = nth i entries [] :: skipn (S i) entries).
    { clear - Hi Ln. rewrite <- Ln in Hi. clear Ln. revert i Hi. induction entries as [|x l IH]; intros i Hi; [cbn in Hi; lia|].
      destruct i; [reflexivity|]. cbn in Hi. cbn [skipn nth]. apply IH. lia. }
    rewrite Hx in Hh.
    assert (Het : entry_text (nth i es (0, 0, f0)) (nth i entries [])).
    { clear - HE Hi. subst n. revert i Hi. induction HE as [|e l es' ls' H _ IH]; intros i Hi; [cbn in Hi; lia|].
      destruct i; [exact H|]. cbn in Hi. cbn [nth]. apply IH. lia. }
    destruct (proj1 (Forall_forall _ _) HR (nth i es (0, 0, f0))) as (A & B); [apply nth_In; exact Hi|].
    destruct (@entry_ok HS _ _ s _ b i ri ci va Het Hh A B) as (s' & R & E); [lia|lia|lia|].
    rewrite E. eexists. split; [reflexivity|]. cbv iota beta. rewrite !upd_length. split; [|split; [auto|split; [auto|split; [auto|]]]].
    + intros Hi'. destruct R as [R|R]; auto. exfalso.
      assert (length (skipn (S i) entries) = 0) by now rewrite R. rewrite skipn_length in H. lia.
    + intros k Hk. destruct (Nat.eq_dec k i) as [->|Hne].
      * rewrite !nth_upd_same by lia. auto.
      * rewrite !nth_upd_other by auto. apply HN. lia.
  - destruct st as [[s b] [[ri ci] va]]. destruct P as (_ & L1 & L2 & L3 & HN). rewrite E. cbn [bind]. f_equal.
    f_equal.
    + apply (@list_ext _ 0%Z); [now rewrite map_length|]. intros k Hk. destruct (HN k ltac:(lia)) as (-> & _).
      change 0%Z with ((fun e : nat * nat * F => Z.of_nat (fst (fst e))) (0, 0, f0)). now rewrite map_nth.
    + apply (@list_ext _ 0%Z); [now rewrite map_length|]. intros k Hk. destruct (HN k ltac:(lia)) as (_ & -> & _).
      change 0%Z with ((fun e : nat * nat * F => Z.of_nat (snd (fst e))) (0, 0, f0)). now rewrite map_nth.
    + apply (@list_ext _ f0); [now rewrite map_length|]. intros k Hk. destruct (HN k ltac:(lia)) as (_ & _ & ->).
      change f0 with (snd (0, 0, f0)) at 2. now rewrite map_nth.
Qed.
End C105.

(** the scanners of double and float stop at white space *)
Theorem C105_double_stops : @scan_stops spec_float codec64.
Proof. intros w t H. now apply scan_float_tail. Qed.
Theorem C105_float_stops : @scan_stops spec_float codec32.
Proof. intros w t H. now apply scan_float_tail. Qed.
Print Assumptions C105_layout.

(** what output_mm writes for a finite double or float is a value text *)
Theorem C105_double_values x : valid_binary 53 1024 x = true -> is_finite_SF x = true ->
  @value_text spec_float codec64 (@fprint spec_float codec64 x) x.
Proof.
  intros HV HF. destruct (codec64_back x HV HF) as (H1 & H2 & H3). split; [|split; [|exact H3]].
  - destruct (@fprint spec_float codec64 x) as [|c r] eqn:E; [congruence|]. inversion H2; subst. eauto.
  - intros HI. apply no_space_nl in H2. apply (proj1 (Forall_forall _ _) H2) in HI. discriminate.
Qed.

(** CR LF line ends, tabs, leading zeros, plus signs, text behind the numbers, no newline at the end *)
Definition crlf_file : text :=
  txt "%%MatrixMarket" ++ ["009"%char] ++ txt "matrix coordinate real  general" ++ ["013"%char; nl] ++
  txt "% a comment" ++ ["013"%char; nl] ++
  txt "  2 03" ++ ["009"%char] ++ txt "+2" ++ ["013"%char; nl] ++
  txt "1 3 1.5 first" ++ ["013"%char; nl] ++
  txt "	2   1 -.25e1".
Example C105_example :
  @input_mm spec_float b64scalar codec64 1 crlf_file
  = Ok (mkMm 2 3 [0; 1]%Z [2; 0]%Z [S754_finite false 6755399441055744 (-52); S754_finite true 5629499534213120 (-51)]).
Proof. vm_compute. reflexivity. Qed.
Ltac mr := repeat match goal with
  | |- more (_ :: _) _ => apply more_cons | |- more [] _ => apply more_nil
  | |- Forall _ [] => constructor | |- Forall _ (_ :: _) => constructor | |- blank_char _ => cbn; auto 10 end.
(** its lines meet the hypotheses of C105_layout *)
Example C105_example_hyps : exists l1 l3 l4 l5,
  crlf_file ++ [nl] = unlines (l1 :: [txt "% a comment" ++ ["013"%char]] ++ l3 :: [l4; l5]) /\
  fields banner_words l1 /\ Forall is_comment_line [txt "% a comment" ++ ["013"%char]] /\
  (exists a b c, fields [a; b; c] l3 /\ numeral a 2 /\ numeral b 3 /\ numeral c 2) /\
  @entry_text spec_float codec64 (0, 2, S754_finite false 6755399441055744 (-52)) l4 /\
  @entry_text spec_float codec64 (1, 0, S754_finite true 5629499534213120 (-51)) l5.
Proof.
  exists (txt "%%MatrixMarket" ++ ["009"%char] ++ txt "matrix coordinate real  general" ++ ["013"%char]).
  exists (txt "  2 03" ++ ["009"%char] ++ txt "+2" ++ ["013"%char]).
  exists (txt "1 3 1.5 first" ++ ["013"%char]). exists (txt "	2   1 -.25e1").
  assert (B : forall b, In b [" "; "009"; "011"; "012"; "013"]%char -> blank_char b) by auto.
  assert (T0 : tail_ok []) by (split; [intros []|now left]).
  assert (T1 : tail_ok ["013"%char]).
  { split; [intros [H|[]]; discriminate H|right; exists "013"%char, []; split; [reflexivity|apply B; cbn; auto 10]]. }
  assert (D : forall c d, d <= 9 -> c = ascii_of_nat (48 + d) -> digit_val c d) by (intros; split; auto).
  split; [vm_compute; reflexivity|]. split; [|split; [|split; [|split]]].
  - exists [], (txt "%%MatrixMarket"), [txt "matrix"; txt "coordinate"; txt "real"; txt "general"].
    exists ("009"%char :: [] ++ txt "matrix" ++ " "%char :: [] ++ txt "coordinate" ++ " "%char :: [] ++ txt "real" ++ " "%char :: [" "%char] ++ txt "general" ++ ["013"%char]).
    split; [reflexivity|]. split; [constructor|]. split; [vm_compute; reflexivity|].
    mr. apply T1.
  - repeat constructor; [eexists; reflexivity|]. intros H. cbn in H. repeat (destruct H as [H|H]; [discriminate H|]). exact H.
  - exists (txt "2"), (txt "03"), (txt "+2"). split; [|split; [|split]].
    + exists (txt "  "), (txt "2"), [txt "03"; txt "+2"], (" "%char :: [] ++ txt "03" ++ "009"%char :: [] ++ txt "+2" ++ ["013"%char]).
      split; [reflexivity|]. split; [repeat constructor; apply B; cbn; auto|]. split; [vm_compute; reflexivity|].
      mr. apply T1.
    + exists (txt "2"), [2]. split; [now left|]. split; [discriminate|]. split; [repeat constructor; lia|reflexivity].
    + exists (txt "03"), [0; 3]. split; [now left|]. split; [discriminate|]. split; [repeat constructor; lia|reflexivity].
    + exists (txt "2"), [2]. split; [now right|]. split; [discriminate|]. split; [repeat constructor; lia|reflexivity].
  - exists (txt "1"), (txt "3"), (txt "1.5"). split; [|split; [|split]].
    + exists [], (txt "1"), [txt "3"; txt "1.5"], (" "%char :: [] ++ txt "3" ++ " "%char :: [] ++ txt "1.5" ++ txt " first" ++ ["013"%char]).
      split; [reflexivity|]. split; [constructor|]. split; [vm_compute; reflexivity|].
      mr. split.
      * intros H. cbn in H. repeat (destruct H as [H|H]; [discriminate H|]). exact H.
      * right. eexists. eexists. split; [reflexivity|]. apply B. cbn. auto.
    + exists (txt "1"), [1]. split; [now left|]. split; [discriminate|]. split; [repeat constructor; lia|reflexivity].
    + exists (txt "3"), [3]. split; [now left|]. split; [discriminate|]. split; [repeat constructor; lia|reflexivity].
    + split; [eexists; eexists; split; reflexivity|]. split; [|vm_compute; reflexivity].
      intros H. cbn in H. repeat (destruct H as [H|H]; [discriminate H|]). exact H.
  - exists (txt "2"), (txt "1"), (txt "-.25e1"). split; [|split; [|split]].
    + exists (txt "	"), (txt "2"), [txt "1"; txt "-.25e1"], (" "%char :: [" "; " "]%char ++ txt "1" ++ " "%char :: [] ++ txt "-.25e1" ++ []).
      split; [reflexivity|]. split; [repeat constructor; apply B; cbn; auto|]. split; [vm_compute; reflexivity|].
      mr. apply T0.
    + exists (txt "2"), [2]. split; [now left|]. split; [discriminate|]. split; [repeat constructor; lia|reflexivity].
    + exists (txt "1"), [1]. split; [now left|]. split; [discriminate|]. split; [repeat constructor; lia|reflexivity].
    + split; [eexists; eexists; split; reflexivity|]. split; [|vm_compute; reflexivity].
      intros H. cbn in H. repeat (destruct H as [H|H]; [discriminate H|]). exact H.
Qed.

(** an index that does not fit a size_t: the variables behind it are used uninitialised *)
Theorem C105_overflow_refuted :
  @input_mm spec_float b64scalar codec64 0
    (txt "%%MatrixMarket matrix coordinate real general" ++ [nl] ++ txt "1 1 1" ++ [nl] ++ txt "99999999999999999999 1 1.5" ++ [nl]) = UB.
Proof. vm_compute. reflexivity. Qed.
Print Assumptions C105_double_stops.
Print Assumptions C105_double_values.

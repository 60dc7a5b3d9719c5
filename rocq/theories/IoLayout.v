(** * IoLayout: specification of a MatrixMarket file by its lines and fields, independent of how input_mm reads it, and
    lemmas. *)
From Coq Require Import Ascii String NArith ZArith SpecFloat.
From Verif Require Import Base Scalar IoModel IoProof FloatText.
Import ListNotations.
Local Open Scope list_scope.
Local Open Scope nat_scope.
Set Implicit Arguments.

(** white space inside a line: blank, tab, vertical tab, form feed, carriage return *)
Definition blank_char (c : ascii) : Prop := In c [" "; "009"; "011"; "012"; "013"]%char.
(** nothing, or white space and then anything up to the end of the line *)
Definition tail_ok (t : text) : Prop := ~ In nl t /\ (t = [] \/ exists b r, t = b :: r /\ blank_char b).
(** [more ws t]: [t] consists of the fields [ws], each after at least one white-space character, and a tail *)
Inductive more : list text -> text -> Prop :=
| more_nil t : tail_ok t -> more [] t
| more_cons b sp w ws t : blank_char b -> Forall blank_char sp -> more ws t -> more (w :: ws) (b :: sp ++ w ++ t).
(** a line with the fields [ws]: leading white space is optional *)
Definition fields (ws : list text) (l : text) : Prop :=
  exists sp w ws' t, ws = w :: ws' /\ Forall blank_char sp /\ l = sp ++ w ++ t /\ more ws' t.

(** value of a decimal digit *)
Definition digit_val (c : ascii) (d : nat) : Prop := d <= 9 /\ c = ascii_of_nat (48 + d).
(** [t] is a decimal numeral for [n]: an optional plus sign and digits, the most significant first *)
Definition numeral (t : text) (n : N) : Prop :=
  exists ds vs, (t = ds \/ t = "+"%char :: ds) /\ ds <> [] /\ Forall2 digit_val ds vs /\
    n = fold_left (fun a d => (10 * a + N.of_nat d)%N) vs 0%N.
(** lines, each ended by a newline *)
Definition unlines (ls : list text) : text := concat (map (fun l => l ++ [nl]) ls).

Lemma blank_space c : blank_char c -> is_space c = true /\ Ascii.eqb c nl = false /\ Ascii.eqb c "%"%char = false /\ is_digit c = false.
Proof. intros H. cbn in H. repeat (destruct H as [<-|H]; [vm_compute; auto|]). destruct H. Qed.
Lemma blanks_space sp : Forall blank_char sp -> spaces sp.
Proof. apply Forall_impl. intros c H. now apply blank_space. Qed.
Lemma not_nl c : c <> nl -> Ascii.eqb c nl = false.
Proof. apply Ascii.eqb_neq. Qed.
Lemma no_nl_in t : ~ In nl t -> no_nl t.
Proof. intros H. apply Forall_forall. intros c Hc. apply not_nl. intros ->. auto. Qed.

Lemma digit_val_eq c d : digit_val c d -> digit c = Some d /\ is_digit c = true.
Proof.
  intros (H & ->). assert (D : d = 0 \/ d = 1 \/ d = 2 \/ d = 3 \/ d = 4 \/ d = 5 \/ d = 6 \/ d = 7 \/ d = 8 \/ d = 9) by lia.
  repeat (destruct D as [->|D]; [vm_compute; auto|]). subst; vm_compute; auto.
Qed.
Lemma uint_acc ds vs : Forall2 digit_val ds vs -> forall acc,
  Npos (Pos.of_uint_acc (uint_of_text ds) acc) = fold_left (fun a d => (10 * a + N.of_nat d)%N) vs (Npos acc).
Proof.
  induction 1 as [|c d ds vs Hc H IH]; intros acc; cbn [uint_of_text fold_left]; [reflexivity|].
  destruct (digit_val_eq Hc) as (E & _). rewrite E. destruct Hc as (Hd & _).
  assert (D : d = 0 \/ d = 1 \/ d = 2 \/ d = 3 \/ d = 4 \/ d = 5 \/ d = 6 \/ d = 7 \/ d = 8 \/ d = 9) by lia.
  repeat (destruct D as [->|D]; [cbn [Pos.of_uint_acc]; rewrite IH; f_equal; cbn [N.of_nat]; lia|]).
  subst d. cbn [Pos.of_uint_acc]; rewrite IH; f_equal; cbn [N.of_nat]; lia.
Qed.
Lemma uint_val ds vs : Forall2 digit_val ds vs -> N_of_text ds = fold_left (fun a d => (10 * a + N.of_nat d)%N) vs 0%N.
Proof.
  unfold N_of_text, N.of_uint. induction 1 as [|c d ds vs Hc H IH]; cbn [uint_of_text fold_left]; [reflexivity|].
  destruct (digit_val_eq Hc) as (E & _). rewrite E. destruct Hc as (Hd & _).
  assert (D : d = 0 \/ d = 1 \/ d = 2 \/ d = 3 \/ d = 4 \/ d = 5 \/ d = 6 \/ d = 7 \/ d = 8 \/ d = 9) by lia.
  destruct D as [->|D]; [cbn [Pos.of_uint]; rewrite IH; reflexivity|].
  repeat (destruct D as [->|D]; [cbn [Pos.of_uint]; rewrite (uint_acc H); reflexivity|]).
  subst d. cbn [Pos.of_uint]; rewrite (uint_acc H); reflexivity.
Qed.

Lemma numeral_get n w pre r old : numeral w n -> (n <= size_max)%N -> spaces pre ->
  (match r with [] => True | c :: _ => is_digit c = false end) ->
  get_size (stream_of (pre ++ w ++ r)) old = (stream_end r, Some n).
Proof.
  intros (ds & vs & Hw & Hne & HD & ->) Hn Hp Hr. unfold get_size.
  assert (HDs : all_digits ds).
  { clear - HD. induction HD; constructor; auto. now apply digit_val_eq in H. }
  destruct ds as [|c ds]; [congruence|]. inversion HDs as [|? ? Hc HDs']; subst.
  destruct (digit_not_sign c Hc) as [H1 H2].
  assert (T : take_while is_digit ((c :: ds) ++ r) = (c :: ds, r)) by now apply take_while_app.
  assert (V : N_of_text (c :: ds) = fold_left (fun a d => (10 * a + N.of_nat d)%N) vs 0%N) by now apply uint_val.
  destruct Hw as [-> | ->].
  - cbn [app]. rewrite sentry_word by (auto using digit_not_space). cbn [s_rest stream_of].
    rewrite H1, H2. cbv iota beta. cbn [s_rest]. change (c :: ds ++ r) with ((c :: ds) ++ r). rewrite T. cbn [ended].
    rewrite V. destruct (N.ltb_spec size_max (fold_left (fun a d => (10 * a + N.of_nat d)%N) vs 0%N)); [lia|]. reflexivity.
  - cbn [app]. rewrite sentry_word by (auto; reflexivity). cbn [s_rest stream_of].
    change (Ascii.eqb "+" "-") with false. change (Ascii.eqb "+" "+") with true. cbv iota beta.
    change (c :: ds ++ r) with ((c :: ds) ++ r). rewrite T. cbn [ended].
    rewrite V. destruct (N.ltb_spec size_max (fold_left (fun a d => (10 * a + N.of_nat d)%N) vs 0%N)); [lia|]. reflexivity.
Qed.
Lemma numeral_start w n : numeral w n -> exists c t, w = c :: t /\ Ascii.eqb c "%"%char = false /\ no_nl w.
Proof.
  intros (ds & vs & Hw & Hne & HD & _).
  assert (HDs : all_digits ds).
  { clear - HD. induction HD; constructor; auto. now apply digit_val_eq in H. }
  assert (NN : no_nl ds) by now apply no_space_nl, digits_no_space.
  destruct ds as [|c ds]; [congruence|]. inversion HDs; subst.
  destruct Hw as [-> | ->]; eexists; eexists; (split; [reflexivity|]); split; auto.
  - now apply digit_not_pct.
  - constructor; auto.
Qed.

Lemma more_start ws t : more ws t -> t = [] \/ exists b r, t = b :: r /\ blank_char b.
Proof. intros H. destruct H as [t (_ & H)|]; auto. right. eauto. Qed.
Lemma more_digit ws t : more ws t -> match t with [] => True | c :: _ => is_digit c = false end.
Proof. intros H. destruct (more_start H) as [->|(b & r & -> & Hb)]; auto. now apply blank_space. Qed.
Lemma more_space ws t : more ws t -> match t with [] => True | c :: _ => is_space c = true end.
Proof. intros H. destruct (more_start H) as [->|(b & r & -> & Hb)]; auto. now apply blank_space. Qed.
Lemma blanks_no_nl sp : Forall blank_char sp -> no_nl sp.
Proof. apply Forall_impl. intros c H. now apply blank_space. Qed.
Lemma more_no_nl ws t : more ws t -> Forall no_nl ws -> no_nl t.
Proof.
  induction 1 as [t (H & _)|b sp w ws t Hb Hsp H IH]; intros HW; [now apply no_nl_in|].
  inversion HW; subst. constructor; [now apply blank_space|]. apply Forall_app. split; [now apply blanks_no_nl|].
  apply Forall_app. split; [assumption|]. apply IH. assumption.
Qed.
Lemma fields_no_nl ws l : fields ws l -> Forall no_nl ws -> no_nl l.
Proof.
  intros (sp & w & ws' & t & -> & Hsp & -> & H) HW. inversion HW; subst.
  apply Forall_app. split; [now apply blanks_no_nl|]. apply Forall_app. split; auto. now apply (more_no_nl H).
Qed.

(** ** streams that hold certain lines next: the last one may lack its newline *)
Definition holds (s : stream) (ls : list text) : Prop :=
  (exists rest, s = stream_of (unlines ls ++ rest)) \/
  (exists ls' l, ls = ls' ++ [l] /\ l <> [] /\ s = stream_of (unlines ls' ++ l)).
Lemma holds_getline s l ls buf : holds s (l :: ls) -> no_nl l ->
  exists s', getline s buf = (s', l) /\ (ls = [] \/ holds s' ls).
Proof.
  intros [(rest & ->)|(ls' & l' & E & Hl' & ->)] Hn.
  - exists (stream_of (unlines ls ++ rest)). split; [|right; left; eauto].
    unfold unlines. cbn [map concat]. rewrite <- !app_assoc. cbn [app]. apply getline_nl; auto.
  - destruct ls' as [|x ls'].
    + cbn in E. injection E as -> ->. cbn [unlines map concat app].
      exists (mkStream [] true false). split; [|now left].
      unfold getline, stream_of, good. cbn [s_eof s_fail s_rest orb negb].
      assert (L : line_split l' = (l', None)).
      { clear - Hn. induction Hn as [|c t Hc H IH]; cbn; auto. now rewrite Hc, IH. }
      rewrite L. destruct l'; [congruence|reflexivity].
    + cbn [app] in E. injection E as -> ->. exists (stream_of (unlines ls' ++ l')). split.
      * unfold unlines. cbn [map concat]. rewrite <- !app_assoc. cbn [app]. apply getline_nl; auto.
      * right. right. eauto.
Qed.
Lemma holds_skip cs l ls : Forall comment_line cs -> is_comment l = false -> no_nl l -> forall fuel s buf,
  length cs <= fuel -> holds s (cs ++ l :: ls) ->
  exists s', mm_skip fuel s buf = Ok (s', l) /\ (ls = [] \/ holds s' ls).
Proof.
  intros Hcs Hl Hn. induction Hcs as [|c cs [Hc Hc'] Hcs IH]; intros fuel s buf Hf Hs; cbn [app] in Hs.
  - destruct (holds_getline buf Hs Hn) as (s' & E & R). exists s'. split; auto.
    destruct fuel; cbn [mm_skip]; rewrite E, Hl; reflexivity.
  - destruct (holds_getline buf Hs Hc') as (s' & E & R). destruct fuel as [|fuel]; [cbn in Hf; lia|].
    cbn [mm_skip]. rewrite E, Hc. cbn in Hf. destruct R as [R|R]; [destruct cs; discriminate|].
    apply IH; auto. lia.
Qed.

(** ** the float scanner stops at white space *)
Lemma take_while_tail p (w r : text) : (match r with [] => True | c :: _ => p c = false end) ->
  take_while p (w ++ r) = (fst (take_while p w), snd (take_while p w) ++ r).
Proof.
  intros H. induction w as [|c w IH]; cbn [app take_while].
  - destruct r as [|c r]; cbn; auto. now rewrite H.
  - destruct (p c); cbn; auto. rewrite IH. destruct (take_while p w); reflexivity.
Qed.
Lemma blank_misc c : blank_char c -> Ascii.eqb c "-" = false /\ Ascii.eqb c "+" = false /\ Ascii.eqb c "." = false /\
  Ascii.eqb c "e" = false /\ Ascii.eqb c "E" = false.
Proof. intros H. cbn in H. repeat (destruct H as [<-|H]; [vm_compute; auto 10|]). destruct H. Qed.
Lemma scan_sign_tail (w r : text) : (r = [] \/ exists b r', r = b :: r' /\ blank_char b) ->
  scan_sign (w ++ r) = (fst (scan_sign w), snd (scan_sign w) ++ r).
Proof.
  intros H. destruct w as [|c w]; cbn [app].
  - destruct H as [->|(b & r' & -> & Hb)]; [reflexivity|]. destruct (blank_misc Hb) as (E1 & E2 & _). cbn. now rewrite E1, E2.
  - cbn. destruct (Ascii.eqb c "-"); auto. destruct (Ascii.eqb c "+"); auto.
Qed.
Lemma scan_exp_tail (w r : text) : (r = [] \/ exists b r', r = b :: r' /\ blank_char b) -> scan_exp (w ++ r) = scan_exp w.
Proof.
  intros H. assert (Hd : match r with [] => True | c :: _ => is_digit c = false end).
  { destruct H as [->|(b & r' & -> & Hb)]; auto. now apply blank_space. }
  destruct w as [|c w]; cbn [app].
  - destruct H as [->|(b & r' & -> & Hb)]; [reflexivity|]. destruct (blank_misc Hb) as (_ & _ & _ & E1 & E2). cbn. now rewrite E1, E2.
  - cbn. destruct (Ascii.eqb c "e" || Ascii.eqb c "E"); auto.
    rewrite scan_sign_tail by auto. destruct (scan_sign w) as [s u]. cbn [fst snd].
    rewrite take_while_tail by auto. destruct (take_while is_digit u); reflexivity.
Qed.
Lemma scan_float_tail p e (w r : text) : (r = [] \/ exists b r', r = b :: r' /\ blank_char b) ->
  scan_float p e (w ++ r) = scan_float p e w.
Proof.
  intros H. assert (Hd : match r with [] => True | c :: _ => is_digit c = false end).
  { destruct H as [->|(b & r' & -> & Hb)]; auto. now apply blank_space. }
  unfold scan_float. rewrite scan_sign_tail by auto. destruct (scan_sign w) as [s u]. cbn [fst snd].
  rewrite take_while_tail by auto. destruct (take_while is_digit u) as [ip v]. cbn [fst snd].
  destruct v as [|c v]; cbn [app].
  - destruct H as [->|(b & r' & -> & Hb)]; [reflexivity|]. destruct (blank_misc Hb) as (_ & _ & E & E1 & E2). rewrite E.
    destruct (ended ip && ended [])%bool; auto. cbn. now rewrite E1, E2.
  - destruct (Ascii.eqb c ".").
    + rewrite take_while_tail by auto. destruct (take_while is_digit v) as [fp v']. cbn [fst snd].
      now rewrite scan_exp_tail by auto.
    + change (c :: v ++ r) with ((c :: v) ++ r). now rewrite scan_exp_tail by auto.
Qed.

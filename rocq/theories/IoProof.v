(** * IoProof: reading back what output_mm writes. *)
From Coq Require Import Ascii NArith ZArith Decimal DecimalFacts DecimalN.
From Verif Require Import Base Scalar CooModel Observe IoModel.
Set Implicit Arguments.

(** ** characters *)
Lemma digit_not_space c : is_digit c = true -> is_space c = false.
Proof. destruct c as [[] [] [] [] [] [] [] []]; vm_compute; auto. Qed.
Lemma digit_not_sign c : is_digit c = true -> Ascii.eqb c "-"%char = false /\ Ascii.eqb c "+"%char = false.
Proof. destruct c as [[] [] [] [] [] [] [] []]; vm_compute; auto. Qed.
Lemma digit_not_pct c : is_digit c = true -> Ascii.eqb c "%"%char = false.
Proof. destruct c as [[] [] [] [] [] [] [] []]; vm_compute; auto. Qed.
Lemma space_nl c : is_space c = false -> Ascii.eqb c nl = false.
Proof. destruct c as [[] [] [] [] [] [] [] []]; vm_compute; auto. Qed.

Definition all_digits (t : text) : Prop := Forall (fun c => is_digit c = true) t.
Definition no_space (t : text) : Prop := Forall (fun c => is_space c = false) t.
Definition no_nl (t : text) : Prop := Forall (fun c => Ascii.eqb c nl = false) t.
Lemma digits_no_space t : all_digits t -> no_space t.
Proof. intros H. eapply Forall_impl; [|exact H]. intros c. apply digit_not_space. Qed.
Lemma no_space_nl t : no_space t -> no_nl t.
Proof. intros H. eapply Forall_impl; [|exact H]. intros c. apply space_nl. Qed.

(** ** decimal numbers *)
Lemma text_uint_digits u : all_digits (text_of_uint u).
Proof. induction u; cbn; constructor; auto. Qed.
Lemma uint_text u : uint_of_text (text_of_uint u) = u.
Proof. induction u; cbn [text_of_uint uint_of_text]; rewrite ?IHu; reflexivity. Qed.
Lemma N_print n : N_of_text (print_N n) = n.
Proof. unfold N_of_text, print_N. rewrite uint_text. apply DecimalN.Unsigned.of_to. Qed.
Lemma print_digits n : all_digits (print_N n).
Proof. apply text_uint_digits. Qed.
Lemma print_nonempty n : exists c t, print_N n = c :: t /\ is_digit c = true.
Proof.
  assert (H := print_digits n). destruct (print_N n) as [|c t] eqn:E; [|inversion H; eauto].
  exfalso. unfold print_N in E. assert (Hu : N.to_uint n = Nil) by (destruct (N.to_uint n); auto; discriminate E).
  destruct n as [|p]; [discriminate Hu|]. cbn in Hu. assert (Z := DecimalPos.Unsigned.to_uint_nonnil p). auto.
Qed.

(** ** lines *)
Lemma line_split_nl l r : no_nl l -> line_split (l ++ nl :: r) = (l, Some r).
Proof. induction 1 as [|c l Hc H IH]; cbn [app line_split]; auto. rewrite Hc, IH. auto. Qed.
Lemma getline_nl l r buf : no_nl l -> getline (stream_of (l ++ nl :: r)) buf = (stream_of r, l).
Proof.
  intros H. unfold getline, good, stream_of. cbn [s_eof s_fail s_rest orb negb]. rewrite line_split_nl by auto. now destruct l.
Qed.

(** ** extraction *)
Lemma take_while_app p t r : Forall (fun c => p c = true) t -> (match r with [] => True | c :: _ => p c = false end) ->
  take_while p (t ++ r) = (t, r).
Proof.
  intros H Hr. induction H as [|c t Hc H IH]; cbn [app take_while].
  - destruct r as [|c r]; cbn; auto. now rewrite Hr.
  - now rewrite Hc, IH.
Qed.
Definition spaces (t : text) : Prop := Forall (fun c => is_space c = true) t.
Lemma sentry_word pre c t : spaces pre -> is_space c = false ->
  sentry (stream_of (pre ++ c :: t)) = (stream_of (c :: t), true).
Proof.
  intros H Hc. unfold sentry, good, stream_of. cbn [s_eof s_fail s_rest orb negb].
  replace (skip_space (pre ++ c :: t)) with (c :: t); auto.
  induction H as [|d pre Hd H IH]; cbn [app skip_space]; [now rewrite Hc|now rewrite Hd].
Qed.
Definition stream_end (r : text) : stream := mkStream r (ended r) false.
Lemma get_size_print n pre r old : (n <= size_max)%N -> spaces pre ->
  (match r with [] => True | c :: _ => is_digit c = false end) ->
  get_size (stream_of (pre ++ print_N n ++ r)) old = (stream_end r, Some n).
Proof.
  intros Hn Hp Hr. unfold get_size. destruct (print_nonempty n) as (c & t & E & Hc).
  assert (HD : all_digits (c :: t)) by (rewrite <- E; apply print_digits).
  replace (pre ++ print_N n ++ r) with (pre ++ c :: (t ++ r)) by (now rewrite E).
  rewrite sentry_word by (auto using digit_not_space). cbn [s_rest stream_of].
  destruct (digit_not_sign c Hc) as [H1 H2]. rewrite H1, H2. cbv iota beta. cbn [s_rest].
  change (c :: t ++ r) with ((c :: t) ++ r). rewrite take_while_app by auto. cbn [ended].
  rewrite <- E, N_print. destruct (N.ltb_spec size_max n); [lia|]. auto.
Qed.
Lemma stream_end_cons c t : stream_end (c :: t) = stream_of (c :: t).
Proof. reflexivity. Qed.
Lemma get_word_word pre w r old : spaces pre -> no_space w -> w <> [] ->
  (match r with [] => True | c :: _ => is_space c = true end) ->
  get_word (stream_of (pre ++ w ++ r)) old = (stream_end r, w).
Proof.
  intros Hp Hw Hn Hr. unfold get_word. destruct w as [|c w]; [congruence|]. cbn [app]. inversion Hw as [|? ? Hc Hw']; subst.
  rewrite sentry_word by auto. cbn [s_rest stream_of]. change (c :: w ++ r) with ((c :: w) ++ r).
  rewrite take_while_app; [reflexivity| |].
  - eapply Forall_impl; [|exact Hw]. cbv beta. intros a ->. auto.
  - destruct r as [|d r]; auto. now rewrite Hr.
Qed.

(** ** comments *)
Definition comment_line (l : text) : Prop := is_comment l = true /\ no_nl l.
Definition lines (ls : list text) : text := concat (map (fun l => l ++ [nl]) ls).
Lemma skip_comments cs l r : Forall comment_line cs -> is_comment l = false -> no_nl l ->
  forall fuel buf, length cs <= fuel -> mm_skip fuel (stream_of (lines cs ++ l ++ nl :: r)) buf = Ok (stream_of r, l).
Proof.
  intros Hcs Hl Hn. induction Hcs as [|c cs [Hc Hc'] Hcs IH]; intros fuel buf Hf; unfold lines; cbn [map concat app].
  - destruct fuel; cbn [mm_skip]; rewrite getline_nl by auto; now rewrite Hl.
  - fold (lines cs). destruct fuel as [|fuel]; [cbn in Hf; lia|]. rewrite <- !app_assoc. cbn [app mm_skip].
    rewrite getline_nl by auto. rewrite Hc. apply IH. cbn in Hf. lia.
Qed.

Section IoProof.
Context {F : Type} {SF : Scalar F} {CF : Codec F}.

(** the codec reads [v] back *)
Definition codec_ok (v : F) : Prop := fprint v <> [] /\ no_space (fprint v) /\ fscan (fprint v) = v.

Definition the_line (r c : nat) (v : F) : text := print_nat (r + 1) ++ blank :: print_nat (c + 1) ++ blank :: fprint v.
Definition idx_ok (r : nat) : Prop := (Z.of_nat r < 2 ^ 31 - 1)%Z.
Lemma entry_line_ok r c v : idx_ok r -> idx_ok c -> entry_line r c v = Ok (the_line r c v ++ [nl]).
Proof.
  unfold idx_ok, entry_line, the_line. intros H1 H2. apply Z.ltb_lt in H1, H2. rewrite H1, H2. cbn [andb defined_ bind]. f_equal.
  rewrite <- !app_assoc. cbn [app]. rewrite <- !app_assoc. auto.
Qed.
Lemma line_no_nl r c v : no_space (fprint v) -> no_nl (the_line r c v).
Proof.
  intros H. unfold the_line. apply Forall_app. split; [apply no_space_nl, digits_no_space, print_digits|].
  constructor; [reflexivity|]. apply Forall_app. split; [apply no_space_nl, digits_no_space, print_digits|].
  constructor; [reflexivity|]. now apply no_space_nl.
Qed.

Definition ent (c : coo F) (i : nat) : text := the_line (nth i (c_ri c) 0) (nth i (c_ci c) 0) (nth i (c_val c) f0).
Lemma print_all_ok c : coo_ok c -> (forall i, i < c_nnz c -> idx_ok (nth i (c_ri c) 0) /\ idx_ok (nth i (c_ci c) 0)) ->
  print_all c = Ok (lines (map (ent c) (seq 0 (c_nnz c)))).
Proof.
  intros (H1 & H2 & H3 & H4 & H5) HI. unfold print_all.
  destruct (@for0_inv text (fun i out => out = lines (map (ent c) (seq 0 i))) (c_nnz c) (fun i out =>
    r <- rd (c_ri c) i ;; k <- rd (c_ci c) i ;; v <- rd (c_val c) i ;; l <- entry_line r k v ;; Ok (out ++ l)) []) as (out & E & ->).
  - reflexivity.
  - intros i out Hi ->. rewrite (@rd_lt _ _ i 0) by lia. rewrite (@rd_lt _ _ i 0) by lia. rewrite (@rd_lt _ _ i f0) by lia. cbn [bind].
    destruct (HI i Hi). rewrite entry_line_ok by auto. cbn [bind]. eexists; split; [reflexivity|].
    rewrite seq_S, map_app. unfold lines. rewrite map_app, concat_app. cbn. now rewrite app_nil_r.
  - exact E.
Qed.

Lemma idx_back r : idx_ok r -> int_of_size (size_pred (N.of_nat (r + 1))) = Z.of_nat r.
Proof.
  unfold idx_ok. intros H. unfold size_pred, int_of_size.
  replace (N.of_nat (r + 1) + (2 ^ 64 - 1))%N with (N.of_nat r + 1 * 2 ^ 64)%N by lia.
  rewrite N.mod_add by discriminate. rewrite N.mod_small by lia. rewrite nat_N_Z. rewrite Z.mod_small by lia. lia.
Qed.
Lemma entry_back r c v rest i ri ci va buf : idx_ok r -> idx_ok c -> codec_ok v ->
  i < length ri -> i < length ci -> i < length va ->
  mm_entry i (stream_of (the_line r c v ++ nl :: rest), buf, (ri, ci, va)) =
  Ok (stream_of rest, the_line r c v, (upd ri i (Z.of_nat r), upd ci i (Z.of_nat c), upd va i v)).
Proof.
  intros Hr Hc (Hv1 & Hv2 & Hv3) L1 L2 L3. unfold mm_entry. rewrite getline_nl by (now apply line_no_nl).
  assert (B : forall k, idx_ok k -> (N.of_nat (k + 1) <= size_max)%N) by (unfold idx_ok, size_max; intros; lia).
  cbv zeta.
  change (the_line r c v) with ([] ++ print_N (N.of_nat (r + 1)) ++ blank :: print_nat (c + 1) ++ blank :: fprint v) at 1.
  rewrite (@get_size_print (N.of_nat (r + 1)) [] (blank :: print_nat (c + 1) ++ blank :: fprint v) None);
    [| auto | constructor | reflexivity]. rewrite stream_end_cons.
  change (blank :: print_nat (c + 1) ++ blank :: fprint v) with ([blank] ++ print_N (N.of_nat (c + 1)) ++ blank :: fprint v).
  rewrite (@get_size_print (N.of_nat (c + 1)) [blank] (blank :: fprint v) None); [|auto|repeat constructor|reflexivity]. rewrite stream_end_cons.
  unfold get_float. destruct (fprint v) as [|d t] eqn:Ev; [congruence|]. inversion_clear Hv2 as [|? ? Hd Ht].
  change (blank :: d :: t) with ([blank] ++ d :: t). rewrite (@sentry_word [blank] d t) by (repeat constructor; auto). cbn [s_rest stream_of use bind].
  rewrite wr_lt by auto. cbn [bind]. rewrite wr_lt by auto. cbn [bind]. rewrite wr_lt by auto. cbn [bind].
  rewrite !idx_back by auto. rewrite Hv3. reflexivity.
Qed.

Lemma loop_back (c : coo F) : coo_ok c ->
  (forall i, i < c_nnz c -> idx_ok (nth i (c_ri c) 0) /\ idx_ok (nth i (c_ci c) 0) /\ codec_ok (nth i (c_val c) f0)) ->
  forall buf, exists s' buf', let n := c_nnz c in
  for_ 0 n mm_entry (stream_of (lines (map (ent c) (seq 0 n))), buf, (repeat 0%Z n, repeat 0%Z n, repeat f0 n)) =
  Ok (s', buf', (map Z.of_nat (firstn n (c_ri c)), map Z.of_nat (firstn n (c_ci c)), firstn n (c_val c))).
Proof.
  intros (H1 & H2 & H3 & H4 & H5) HI buf.
  set (n := c_nnz c) in *. cbv zeta.
  destruct (@for0_inv (stream * text * (list Z * list Z * list F)) (fun i st => let '(s, _, (ri, ci, va)) := st in
      s = stream_of (lines (map (ent c) (seq i (n - i)))) /\ length ri = n /\ length ci = n /\ length va = n /\
      forall k, k < i -> nth k ri 0%Z = Z.of_nat (nth k (c_ri c) 0) /\ nth k ci 0%Z = Z.of_nat (nth k (c_ci c) 0) /\
        nth k va f0 = nth k (c_val c) f0) n mm_entry
      (stream_of (lines (map (ent c) (seq 0 n))), buf, (repeat 0%Z n, repeat 0%Z n, repeat f0 n))) as (st & E & HS).
  - rewrite Nat.sub_0_r, !repeat_length. repeat split; auto; intros; lia.
  - intros i [[s b] [[ri ci] va]] Hi (-> & L1 & L2 & L3 & HN). destruct (HI i Hi) as (I1 & I2 & I3).
    replace (n - i) with (S (n - S i)) by lia. cbn [seq map]. unfold lines at 1. cbn [map concat]. rewrite <- app_assoc. cbn [app].
    fold (lines (map (ent c) (seq (S i) (n - S i)))). unfold ent at 1. rewrite entry_back by (auto; lia).
    eexists; split; [reflexivity|]. cbv iota beta. rewrite !upd_length. repeat (split; [auto; lia|]).
    intros k Hk. destruct (Nat.eq_dec k i) as [->|Hne].
    + rewrite !nth_upd_same by lia. auto.
    + rewrite !nth_upd_other by auto. apply HN. lia.
  - destruct st as [[s b] [[ri ci] va]]. destruct HS as (_ & L1 & L2 & L3 & HN). exists s, b. rewrite E. f_equal. f_equal.
    assert (FN : forall A (l : list A) d k, k < n -> nth k (firstn n l) d = nth k l d).
    { intros A l d. revert l. generalize n. clear. intros n. induction n as [|n IH]; intros l k Hk; [lia|].
      destruct l as [|x l]; destruct k; cbn; auto. apply IH. lia. }
    f_equal; [f_equal|].
    + apply (@list_ext _ 0%Z); [rewrite map_length, firstn_length; lia|]. intros k Hk.
      change 0%Z with (Z.of_nat 0) at 2. rewrite map_nth, FN by lia. apply HN. lia.
    + apply (@list_ext _ 0%Z); [rewrite map_length, firstn_length; lia|]. intros k Hk.
      change 0%Z with (Z.of_nat 0) at 2. rewrite map_nth, FN by lia. apply HN. lia.
    + apply (@list_ext _ f0); [rewrite firstn_length; lia|]. intros k Hk. rewrite FN by lia. apply HN. lia.
Qed.

Definition banner_line : text :=
  mm_banner ++ blank :: mm_mat ++ blank :: mm_fmt ++ blank :: mm_real ++ blank :: mm_general.
Definition size_line (c : coo F) : text := print_nat (c_row c) ++ blank :: print_nat (c_col c) ++ blank :: print_nat (c_nnz c).
Lemma header_eq (c : coo F) : mm_header c = banner_line ++ nl :: size_line c ++ [nl].
Proof. unfold mm_header, banner_line, size_line. rewrite <- !app_assoc. cbn [app]. repeat (rewrite <- ?app_assoc; cbn [app]). reflexivity. Qed.
Lemma banner_no_nl : no_nl banner_line.
Proof. repeat constructor. Qed.
Lemma size_no_nl c : no_nl (size_line c).
Proof.
  unfold size_line. apply Forall_app. split; [apply no_space_nl, digits_no_space, print_digits|].
  constructor; [reflexivity|]. apply Forall_app. split; [apply no_space_nl, digits_no_space, print_digits|].
  constructor; [reflexivity|]. apply no_space_nl, digits_no_space, print_digits.
Qed.
Lemma size_not_comment c : is_comment (size_line c) = false.
Proof.
  unfold size_line, print_nat. destruct (print_nonempty (N.of_nat (c_row c))) as (d & t & -> & Hd). cbn [app is_comment]. now apply digit_not_pct.
Qed.
Lemma teq_refl a : teq a a = true.
Proof. induction a as [|c a IH]; cbn; auto. now rewrite Ascii.eqb_refl. Qed.
Lemma teq_eq a b : teq a b = true -> a = b.
Proof.
  revert b; induction a as [|c a IH]; intros [|d b]; cbn; try discriminate; auto.
  intros H. apply andb_prop in H. destruct H as [H1 H2]. apply Ascii.eqb_eq in H1. subst. f_equal. auto.
Qed.
Lemma input_header (c : coo F) cs rest fuel : Forall comment_line cs -> length cs <= fuel -> 0 < c_col c ->
  (N.of_nat (c_row c) <= size_max)%N -> (N.of_nat (c_col c) <= size_max)%N -> (N.of_nat (c_nnz c) <= size_max)%N ->
  input_mm fuel (banner_line ++ nl :: lines cs ++ size_line c ++ nl :: rest) =
  ('(_, _, (ri, ci, va)) <- for_ 0 (c_nnz c) mm_entry (stream_of rest, size_line c, (repeat 0%Z (c_nnz c), repeat 0%Z (c_nnz c), repeat f0 (c_nnz c))) ;;
   Ok (mkMm (N.of_nat (c_row c)) (N.of_nat (c_col c)) ri ci va)).
Proof.
  intros Hcs Hf H0 B1 B2 B3. unfold input_mm. rewrite getline_nl by apply banner_no_nl.
  change (get_word (stream_of banner_line) []) with (get_word (stream_of ([] ++ mm_banner ++ blank :: mm_mat ++ blank :: mm_fmt ++ blank :: mm_real ++ blank :: mm_general)) []).
  rewrite get_word_word; [|constructor|repeat constructor|discriminate|reflexivity]. rewrite stream_end_cons.
  change (blank :: mm_mat ++ ?r) with ([blank] ++ mm_mat ++ r) at 1.
  rewrite get_word_word; [|repeat constructor|repeat constructor|discriminate|reflexivity]. rewrite stream_end_cons.
  change (blank :: mm_fmt ++ ?r) with ([blank] ++ mm_fmt ++ r) at 1.
  rewrite get_word_word; [|repeat constructor|repeat constructor|discriminate|reflexivity]. rewrite stream_end_cons.
  change (blank :: mm_real ++ ?r) with ([blank] ++ mm_real ++ r) at 1.
  rewrite get_word_word; [|repeat constructor|repeat constructor|discriminate|reflexivity]. rewrite stream_end_cons.
  change (blank :: mm_general) with ([blank] ++ mm_general ++ []) at 1.
  rewrite get_word_word; [|repeat constructor|repeat constructor|discriminate|exact I].
  rewrite !teq_refl. cbn [assert_ bind].
  rewrite skip_comments; [|auto|apply size_not_comment|apply size_no_nl|auto]. cbn [bind]. cbv zeta.
  change (get_size (stream_of (size_line c)) None) with (get_size (stream_of ([] ++ print_N (N.of_nat (c_row c)) ++ blank :: print_nat (c_col c) ++ blank :: print_nat (c_nnz c))) None).
  rewrite get_size_print; [|auto|constructor|reflexivity]. rewrite stream_end_cons.
  change (blank :: print_nat (c_col c) ++ ?r) with ([blank] ++ print_N (N.of_nat (c_col c)) ++ r) at 1.
  rewrite get_size_print; [|auto|repeat constructor|reflexivity]. rewrite stream_end_cons.
  rewrite <- (app_nil_r (blank :: print_nat (c_nnz c))).
  change ((blank :: print_nat (c_nnz c)) ++ []) with ([blank] ++ print_N (N.of_nat (c_nnz c)) ++ []) at 1.
  rewrite get_size_print; [|auto|repeat constructor|exact I]. cbn [use bind].
  destruct (N.eqb_spec (N.of_nat (c_col c)) 0); [lia|]. cbn [negb assert_ bind]. rewrite Nat2N.id. reflexivity.
Qed.
End IoProof.

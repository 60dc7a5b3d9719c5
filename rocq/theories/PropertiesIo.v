(** * PropertiesIo: C31, MatrixMarket files.

    [output_mm] returns the bytes written, [input_mm fuel] the matrix read from such bytes ([fuel] bounds the
    number of comment lines skipped; [NoFuel] means the comment loop is still running).  *)
From Coq Require Import Ascii String NArith ZArith SpecFloat.
From Flocq Require Import IEEE754.BinarySingleNaN.
From Verif Require Import Base Scalar CooModel Observe IoModel IoProof FloatText FloatTextProof.
Import ListNotations.
Local Open Scope list_scope.
Local Open Scope nat_scope.
Set Implicit Arguments.

(** ** specification helpers *)

(** the file with further lines inserted after its first line *)
Definition insert_after_banner (ls : list text) (file : text) : text :=
  match line_split file with
  | (l, Some r) => l ++ nl :: concat (map (fun x => x ++ [nl]) ls) ++ r
  | _ => file
  end.
(** a line that starts with '%' *)
Definition is_comment_line (l : text) : Prop := (exists t, l = "%"%char :: t) /\ ~ In nl l.
(** what must be read back *)
Definition same_matrix {F} (c : coo F) (r : mm F) : Prop :=
  mm_row r = N.of_nat (c_row c) /\ mm_col r = N.of_nat (c_col c) /\
  mm_ri r = map Z.of_nat (firstn (c_nnz c) (c_ri c)) /\ mm_ci r = map Z.of_nat (firstn (c_nnz c) (c_ci c)) /\
  mm_val r = firstn (c_nnz c) (c_val c).
(** sizes and indices in the range of the C++ types (size_t; int, with +1 for the 1-based file format) *)
Definition in_range {F} (c : coo F) : Prop :=
  (N.of_nat (c_row c) < 2 ^ 64)%N /\ (N.of_nat (c_col c) < 2 ^ 64)%N /\ (N.of_nat (c_nnz c) < 2 ^ 64)%N /\
  forall i, i < c_nnz c -> (Z.of_nat (nth i (c_ri c) O) < 2 ^ 31 - 1)%Z /\ (Z.of_nat (nth i (c_ci c) O) < 2 ^ 31 - 1)%Z.

Lemma comment_line_of l : is_comment_line l -> comment_line l.
Proof.
  intros [[t ->] H]. split; [reflexivity|]. apply Forall_forall. intros x Hx. apply Ascii.eqb_neq. intros ->. auto.
Qed.

(** ** Write, then read: any value format whose numerals read back *)
Theorem C31_roundtrip {F} {SF : Scalar F} {CF : Codec F} (c : coo F) (comments : list text) (fuel : nat) :
  coo_ok c -> 0 < c_col c -> in_range c ->
  (forall i, i < c_nnz c -> codec_ok (nth i (c_val c) f0)) ->
  Forall is_comment_line comments -> length comments <= fuel ->
  exists file r, output_mm c = Ok file /\ input_mm fuel (insert_after_banner comments file) = Ok r /\ same_matrix c r.
Proof.
  intros HC H0 (R1 & R2 & R3 & RI) HV Hcs Hf.
  assert (PA := @print_all_ok F SF CF c HC RI). unfold output_mm. rewrite PA. cbn [bind].
  rewrite header_eq, <- app_assoc. cbn [app]. rewrite <- app_assoc. cbn [app].
  destruct (@loop_back F SF CF c HC) with (buf := size_line c) as (s' & b' & E).
  { intros i Hi. destruct (RI i Hi) as [I1 I2]. split; [exact I1|]. split; [exact I2|]. auto. }
  cbv zeta in E. eexists. eexists. split; [reflexivity|]. split.
  - unfold insert_after_banner. rewrite line_split_nl by apply banner_no_nl. fold (lines comments).
    rewrite (@input_header F SF CF c comments); auto; try (unfold size_max; lia).
    + rewrite E. cbn [bind]. reflexivity.
    + eapply Forall_impl; [|exact Hcs]. apply comment_line_of.
  - unfold same_matrix. cbn [mm_row mm_col mm_ri mm_ci mm_val]. auto.
Qed.
Print Assumptions C31_roundtrip.

(** ** double and float: every matrix whose values are finite *)
Theorem C31_roundtrip_double_partial (c : coo spec_float) (comments : list text) (fuel : nat) :
  coo_ok c -> 0 < c_col c -> in_range c ->
  (forall i, i < c_nnz c -> valid_binary 53 1024 (nth i (c_val c) (S754_zero false)) = true /\
                            is_finite_SF (nth i (c_val c) (S754_zero false)) = true) ->
  Forall is_comment_line comments -> length comments <= fuel ->
  exists file r, @output_mm spec_float codec64 c = Ok file /\
    @input_mm spec_float b64scalar codec64 fuel (insert_after_banner comments file) = Ok r /\ same_matrix c r.
Proof.
  intros HC H0 HR HV. apply (@C31_roundtrip spec_float b64scalar codec64 c); auto.
  intros i Hi. destruct (HV i Hi). now apply codec64_back.
Qed.
Print Assumptions C31_roundtrip_double_partial.
Theorem C31_roundtrip_float_partial (SF : Scalar spec_float) (c : coo spec_float) (comments : list text) (fuel : nat) :
  coo_ok c -> 0 < c_col c -> in_range c ->
  (forall i, i < c_nnz c -> valid_binary 24 128 (nth i (c_val c) f0) = true /\ is_finite_SF (nth i (c_val c) f0) = true) ->
  Forall is_comment_line comments -> length comments <= fuel ->
  exists file r, @output_mm spec_float codec32 c = Ok file /\
    @input_mm spec_float SF codec32 fuel (insert_after_banner comments file) = Ok r /\ same_matrix c r.
Proof.
  intros HC H0 HR HV. apply (@C31_roundtrip spec_float SF codec32 c); auto.
  intros i Hi. destruct (HV i Hi). now apply codec32_back.
Qed.
Print Assumptions C31_roundtrip_float_partial.

(** a 2x3 matrix with the values 0.1 and -5e-324 *)
Definition exC : coo spec_float :=
  mkCoo 2 3 [0; 1] [2; 0] [S754_finite false 7205759403792794 (-56); S754_finite true 1 (-1074)] 2 2 true.
Example C31_example_file : exists file, @output_mm spec_float codec64 exC = Ok file /\
  string_of_list_ascii file =
"%%MatrixMarket matrix coordinate real general
2 3 2
1 3 1.00000000000000006e-01
2 1 -4.94065645841246544e-324
"%string.
Proof. eexists. split; [vm_compute; reflexivity|]. vm_compute. reflexivity. Qed.
Example C31_example_hyps : coo_ok exC /\ 0 < c_col exC /\ in_range exC /\
  (forall i, i < c_nnz exC -> valid_binary 53 1024 (nth i (c_val exC) (S754_zero false)) = true /\
                              is_finite_SF (nth i (c_val exC) (S754_zero false)) = true) /\
  Forall is_comment_line [txt "% a comment"].
Proof.
  split; [repeat split|]; [cbn; lia|]. split; [cbn; lia|]. split; [|split].
  - split; [reflexivity|]. split; [reflexivity|]. split; [reflexivity|]. intros [|[|i]] Hi; cbn in *; lia.
  - intros [|[|i]] Hi; cbn in Hi; try lia; split; vm_compute; reflexivity.
  - repeat constructor; [eexists; reflexivity|]. cbn. intros H. repeat (destruct H as [H|H]; [discriminate H|]). exact H.
Qed.

(** ** Banner: anything but the five words of the banner is rejected, whatever follows *)
Definition words5 (l : text) : list text :=
  let '(s, a) := get_word (stream_of l) [] in let '(s, b) := get_word s [] in let '(s, c) := get_word s [] in
  let '(s, d) := get_word s [] in let '(_, e) := get_word s [] in [a; b; c; d; e].
Theorem C31_banner {F} {SF : Scalar F} {CF : Codec F} (fuel : nat) (file : text) :
  let banner := fst (line_split file) in
  (words5 banner <> [txt "%%MatrixMarket"; txt "matrix"; txt "coordinate"; txt "real"; txt "general"] -> input_mm fuel file = Abort) /\
  (forall r, input_mm fuel file = Ok r ->
     words5 banner = [txt "%%MatrixMarket"; txt "matrix"; txt "coordinate"; txt "real"; txt "general"] /\ mm_col r <> 0%N /\
     length (mm_ri r) = length (mm_val r) /\ length (mm_ci r) = length (mm_val r)).
Proof.
  cbv zeta.
  assert (G : exists s, getline (stream_of file) [] = (s, fst (line_split file))).
  { unfold getline, stream_of, good. cbn. destruct file as [|x file]; [eexists; reflexivity|].
    destruct (line_split (x :: file)) as [l [r|]]; eexists; reflexivity. }
  destruct G as (s & G). set (l := fst (line_split file)) in *.
  assert (D : input_mm fuel file = (
    assert_ (teq (nth 0 (words5 l) []) mm_banner) ;;; assert_ (teq (nth 1 (words5 l) []) mm_mat) ;;;
    assert_ (teq (nth 2 (words5 l) []) mm_fmt) ;;; assert_ (teq (nth 3 (words5 l) []) mm_real) ;;;
    assert_ (teq (nth 4 (words5 l) []) mm_general) ;;;
    '(ifs, buf) <- mm_skip fuel s [] ;;
    let td := stream_of buf in
    let '(td, rowNN) := get_size td None in
    let '(td, colNN) := get_size td None in
    let '(td, NNZ) := get_size td None in
    colNN <- use colNN ;; assert_ (negb (colNN =? 0)%N) ;;; rowNN <- use rowNN ;; NNZ <- use NNZ ;;
    let n := N.to_nat NNZ in
    '(_, _, (ri, ci, va)) <- for_ 0 n mm_entry (ifs, buf, (repeat 0%Z n, repeat 0%Z n, repeat f0 n)) ;;
    Ok (mkMm rowNN colNN ri ci va))).
  { unfold input_mm, words5. rewrite G. destruct (get_word (stream_of l) []) as [s1 w1]. destruct (get_word s1 []) as [s2 w2].
    destruct (get_word s2 []) as [s3 w3]. destruct (get_word s3 []) as [s4 w4]. destruct (get_word s4 []) as [s5 w5]. reflexivity. }
  assert (L5 : exists a b c d e, words5 l = [a; b; c; d; e]).
  { unfold words5. destruct (get_word (stream_of l) []) as [s1 w1]. destruct (get_word s1 []) as [s2 w2].
    destruct (get_word s2 []) as [s3 w3]. destruct (get_word s3 []) as [s4 w4]. destruct (get_word s4 []) as [s5 w5]. eauto 10. }
  destruct L5 as (a & b & c & d & e & EW). rewrite EW in *. cbn [nth] in D. rewrite D. clear D.
  fold mm_banner mm_mat mm_fmt mm_real mm_general.
  destruct (teq a mm_banner) eqn:E1; [apply teq_eq in E1|split; [reflexivity|discriminate]].
  destruct (teq b mm_mat) eqn:E2; [apply teq_eq in E2|split; [reflexivity|discriminate]].
  destruct (teq c mm_fmt) eqn:E3; [apply teq_eq in E3|split; [reflexivity|discriminate]].
  destruct (teq d mm_real) eqn:E4; [apply teq_eq in E4|split; [reflexivity|discriminate]].
  destruct (teq e mm_general) eqn:E5; [apply teq_eq in E5|split; [reflexivity|discriminate]].
  subst. split; [congruence|]. intros r. cbn [assert_ bind]. intros E. split; auto.
  apply bind_ok in E. destruct E as ([ifs buf] & _ & E). cbv zeta in E.
  destruct (get_size (stream_of buf) None) as [t1 n1]. destruct (get_size t1 None) as [t2 n2]. destruct (get_size t2 None) as [t3 n3].
  apply bind_ok in E. destruct E as (cn & _ & E). destruct (N.eqb_spec cn 0) as [|Hcn]; [discriminate E|]. cbn [negb assert_ bind] in E.
  apply bind_ok in E. destruct E as (rn & _ & E). apply bind_ok in E. destruct E as (k & _ & E).
  apply bind_ok in E. destruct E as ([[s' b'] [[ri ci] va]] & EL & E). injection E as <-. cbn [mm_col mm_ri mm_ci mm_val]. split; auto.
  set (n := N.to_nat k) in *.
  assert (P : forall st, for_ 0 n mm_entry (ifs, buf, (repeat 0%Z n, repeat 0%Z n, repeat f0 n)) = Ok st ->
     let '(_, _, (ri, ci, va)) := st in length ri = n /\ length ci = n /\ length va = n).
  { intros st. unfold for_. generalize (n - 0). intros j.
    assert (I0 : let '(_, _, (ri, ci, va)) := (ifs, buf, (repeat 0%Z n, repeat 0%Z n, repeat (@f0 F SF) n)) in length ri = n /\ length ci = n /\ length va = n)
      by (rewrite !repeat_length; auto).
    revert I0. generalize (ifs, buf, (repeat 0%Z n, repeat 0%Z n, repeat (@f0 F SF) n)). generalize 0. clear EL.
    induction j as [|j IH]; intros i st0 I0 Ei; cbn [iter_] in Ei.
    - now injection Ei as <-.
    - apply bind_ok in Ei. destruct Ei as (st1 & Es & Ei). apply (IH _ _ ) in Ei; auto.
      destruct st0 as [[s0 b0] [[ri0 ci0] va0]]. destruct I0 as (L1 & L2 & L3). unfold mm_entry in Es.
      destruct (getline s0 b0) as [s2 b2]. destruct (get_size (stream_of b2) None) as [d1 ix]. destruct (get_size d1 None) as [d2 jx].
      do 6 (apply bind_ok in Es; let x := fresh "x" in let H := fresh "HX" in destruct Es as (x & H & Es)).
      injection Es as <-.
      assert (WL : forall A (l l' : list A) i v, wr l i v = Ok l' -> length l' = length l).
      { intros A l0 l' i0 v Hw. unfold wr in Hw. destruct (i0 <? length l0); [|discriminate]. injection Hw as <-. apply upd_length. }
      apply WL in HX0, HX2, HX4. lia. }
  specialize (P _ EL). cbv beta iota in P. lia.
Qed.
Print Assumptions C31_banner.

(** ** Where the claim is false *)

(** an infinite value is written as "inf" and read back as 0, without any error *)
Theorem C31_infinity_refuted : exists (c : coo spec_float) file r,
  coo_ok c /\ in_range c /\ c_val c = [S754_infinity false] /\
  @output_mm spec_float codec64 c = Ok file /\ @input_mm spec_float b64scalar codec64 1 file = Ok r /\ mm_val r = [S754_zero false].
Proof.
  exists (mkCoo 1 1 [0] [0] [S754_infinity false] 1 1 true). eexists. eexists.
  split; [repeat split|]; [cbn; lia|]. split.
  { split; [reflexivity|]. split; [reflexivity|]. split; [reflexivity|]. intros [|i] Hi; cbn in *; lia. }
  split; [reflexivity|]. split; [vm_compute; reflexivity|]. split; vm_compute; reflexivity.
Qed.
(** a matrix without columns is written but cannot be read (the process exits) *)
Theorem C31_no_columns_refuted : exists file,
  @output_mm spec_float codec64 (mkCoo 2 0 [] [] [] 0 0 true) = Ok file /\ @input_mm spec_float b64scalar codec64 1 file = Abort.
Proof. eexists. split; [vm_compute; reflexivity|]. vm_compute. reflexivity. Qed.
(** a file that ends inside its comment block: the comment loop never ends *)
Theorem C31_hang_refuted : forall fuel,
  @input_mm spec_float b64scalar codec64 fuel
    (txt "%%MatrixMarket matrix coordinate real general" ++ nl :: txt "% no more lines") = NoFuel.
Proof.
  intros fuel. unfold input_mm. rewrite getline_nl by (repeat constructor).
  match goal with |- context [mm_skip fuel ?s []] => assert (E : mm_skip fuel s [] = NoFuel) end.
  { destruct fuel as [|fuel]; [reflexivity|]. cbn [mm_skip]. unfold getline at 1. unfold good, stream_of.
    cbn [s_eof s_fail s_rest orb negb]. set (t := txt "% no more lines").
    change (line_split t) with (t, @None text). change t with ("%"%char :: txt " no more lines") at 1. cbv iota.
    change (is_comment t) with true. cbv iota beta.
    assert (G : forall fuel f, mm_skip fuel (mkStream [] true f) t = NoFuel).
    { induction fuel0 as [|n IH]; intros f; [reflexivity|]. cbn [mm_skip]. unfold getline, good. cbn [s_eof s_fail s_rest orb negb].
      change (is_comment t) with true. cbv iota. apply IH. }
    apply G. }
  rewrite E. vm_compute. reflexivity.
Qed.
(** a truncated file without a final newline: the last entry is silently used again for the missing ones *)
Theorem C31_truncated_refuted : exists r,
  @input_mm spec_float b64scalar codec64 1
    (txt "%%MatrixMarket matrix coordinate real general" ++ nl :: txt "2 2 2" ++ nl :: txt "1 1 3.0") = Ok r /\
  mm_ri r = [0; 0]%Z /\ mm_ci r = [0; 0]%Z /\ mm_val r = [b64_of_Z 3; b64_of_Z 3].
Proof. eexists. split; [vm_compute; reflexivity|]. repeat split. Qed.
(** the same with a final newline: uninitialised variables are stored *)
Theorem C31_truncated_newline_refuted :
  @input_mm spec_float b64scalar codec64 1
    (txt "%%MatrixMarket matrix coordinate real general" ++ nl :: txt "2 2 2" ++ nl :: txt "1 1 3.0" ++ [nl]) = UB.
Proof. vm_compute. reflexivity. Qed.
(** an empty file body: uninitialised sizes are used *)
Theorem C31_no_size_refuted :
  @input_mm spec_float b64scalar codec64 1 (txt "%%MatrixMarket matrix coordinate real general") = UB.
Proof. vm_compute. reflexivity. Qed.
(** positions outside the matrix, 0 included, are accepted *)
Theorem C31_positions_unchecked_refuted : exists r,
  @input_mm spec_float b64scalar codec64 1
    (txt "%%MatrixMarket matrix coordinate real general" ++ nl :: txt "2 2 2" ++ nl :: txt "0 1 3.0" ++ nl :: txt "1 9 4.0" ++ [nl]) = Ok r /\
  mm_row r = 2%N /\ mm_col r = 2%N /\ mm_ri r = [-1; 0]%Z /\ mm_ci r = [0; 8]%Z.
Proof. eexists. split; [vm_compute; reflexivity|]. repeat split. Qed.

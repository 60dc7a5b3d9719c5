(** * PropertiesVecMore: C106 (constructors, assignment, unary minus and named functions of monolish::vector). *)
From Coq Require Import ZArith Reals Psatz Floats.SpecFloat.
From Flocq Require Import Core BinarySingleNaN.
From Verif Require Import Base Scalar Mem MemSpec VecModel VecSpec KernelProof VecProof Loops VmlModel RoundSpec RoundProof VecMoreModel.
Set Implicit Arguments.
Local Open Scope nat_scope.

(** the first N results of a generator *)
Fixpoint draws {F G : Type} (draw : G -> F * G) (N : nat) (g : G) : list F :=
  match N with O => [] | S n => fst (draw g) :: draws draw n (snd (draw g)) end.
(** the buffers that existed before are as they were *)
Definition kept {F : Type} (m m' : list (list F)) : Prop := forall c, c < length m -> nth c m' [] = nth c m [].

Section Exact.
Context {F : Type} {SF : Scalar F}.
Hypothesis X : exact SF.
Let Hrt : ring_theory f0 f1 fadd fmul fsub fopp (@eq F) := X.
Add Ring Fring : Hrt.
Local Open Scope F_scope.
Lemma times_minus_one (x : F) : x * (- (1)) = - x.
Proof. ring. Qed.
End Exact.

Lemma skipn_one {A : Type} (l : list A) : forall i, skipn 1 (skipn i l) = skipn (S i) l.
Proof. induction l; intros [|i]; cbn; auto. apply IHl. Qed.

Section C106.
Context {F : Type} {SF : Scalar F}.
Notation mem := (Mem.mem F).
Local Open Scope F_scope.

(** vector(N, value), every schedule of its loop *)
Theorem C106_filled (m : mem) N value : exists m1 v, vec_new m N = Ok (m1, v) /\ kept m m1 /\ length m <= v_buf v /\
  makes (k_vec_init v N value) m1 v (repeat value N).
Proof.
  destruct (vec_new_holds m N) as (m1 & v & E & H & K & L1 & L2). exists m1, v. do 3 (split; auto).
  pose proof (vec_fill_makes value H) as X.
  assert (En : v_nnz v = N) by (destruct H as (_ & _ & _ & _ & H & _); rewrite H; apply repeat_length).
  assert (Ef : v_first v = 0%nat) by apply H.
  unfold k_vec_fill, v_begin in X. unfold k_vec_init, v_data. rewrite En, Ef in X. rewrite repeat_length in X. exact X.
Qed.

(** a new vector filled by y[i] = g(x[i]) from existing memory *)
Lemma new_map (g : F -> F) (m : mem) (p : ptr) n : window m p n ->
  exists m1 w, vec_new m n = Ok (m1, w) /\ kept m m1 /\ length m <= v_buf w /\ length m <= length m1 /\ v_nnz w = n /\ v_first w = 0%nat /\
  makes (mkKernel true n (map1 g p (v_data w))) m1 w (map (fun i => g (cell m (padd p i))) (seq 0 n)).
Proof.
  intros W. destruct (vec_new_holds m n) as (m1 & w & E & H & K & L1 & L2). exists m1, w.
  assert (En : v_nnz w = n) by (destruct H as (_ & _ & _ & _ & H & _); rewrite H; apply repeat_length).
  assert (Ef : v_first w = 0%nat) by apply H.
  assert (B : forall i, i < n -> fst p < length m).
  { intros i Hi. specialize (W i Hi). unfold valid, padd in W. cbn [fst snd] in W. destruct (Nat.lt_ge_cases (fst p) (length m)); auto.
    rewrite nth_overflow in W by auto. cbn in W. lia. }
  do 2 (split; auto). split; [auto|]. split; [lia|]. split; [auto|]. split; [auto|].
  destruct (@map1_result F SF g p (v_data w) n m1) as (m2 & A & B2 & C).
  { intros i Hi. pose proof (B i Hi). specialize (W i Hi). unfold valid, padd in *. cbn [fst snd] in *. rewrite K; auto. }
  { unfold v_data. eapply holds_window; [exact H|]. rewrite repeat_length. lia. }
  { right. intros i j Hi _ E'. unfold padd, v_data in E'. cbn in E'. injection E' as E' _. pose proof (B i Hi). lia. }
  assert (C' : written m1 m2 (v_buf w, 0%nat) n (fun i => g (cell m (padd p i)))).
  { eapply written_ext; [|exact C]. intros i Hi. cbn beta. unfold cell, padd. cbn [fst snd]. rewrite K; auto. eapply B; eauto. }
  assert (HN : 0 + n <= length (repeat (f0 (Scalar:=SF)) n)) by (rewrite repeat_length; lia).
  destruct (written_holds H HN C') as [D G].
  exists m2. unfold kernel_result, kernel_seq. cbn [k_assert k_n k_body assert_ bind]. do 2 (split; [auto|]). split; auto.
  replace (map (fun i => g (cell m (padd p i))) (seq 0 n)) with (splice (repeat f0 n) 0 n (fun i => g (cell m (padd p i)))); auto.
  rewrite <- (repeat_length (f0 (Scalar:=SF)) n) at 2. rewrite splice_full, repeat_length. reflexivity.
Qed.

(** vector(start, end): the elements of [start, end), wherever they are *)
Theorem C106_range (m : mem) (start : ptr) n : window m start n ->
  exists m' v, vec_of_ptr m start n = Ok (m', v) /\ vec_holds m' v (map (fun i => cell m (padd start i)) (seq 0 n)) /\ kept m m'.
Proof.
  intros W. destruct (new_map (fun a => a) W) as (m1 & w & E & K & L1 & L2 & En & Ef & m2 & _ & S & H & [O1 O2]).
  exists m2, w. unfold vec_of_ptr. rewrite E. cbn [bind]. unfold kernel_seq in S. cbn [k_assert assert_ bind k_n k_body] in S. rewrite S. cbn [bind].
  split; auto. split; auto. intros c Hc. rewrite O2; auto; lia.
Qed.

(** -x: a new vector holding x[i] * -1; x is unchanged.  In exact arithmetic that is the negative. *)
Theorem C106_minus (m : mem) (x : vec) : window m (v_begin x) (v_nnz x) ->
  exists m1 ans, vec_new m (v_nnz x) = Ok (m1, ans) /\ kept m m1 /\ length m <= v_buf ans /\
    makes (k_vec_minus x ans) m1 ans (map (fun i => cell m (padd (v_begin x) i) * (- (1))) (seq 0 (v_nnz x))).
Proof.
  intros W. destruct (new_map (fun a => a * (- (1))) W) as (m1 & w & E & K & L1 & L2 & En & Ef & M).
  exists m1, w. do 3 (split; auto). assert (Eb : v_begin w = v_data w) by (unfold v_begin, v_data; now rewrite Ef). unfold k_vec_minus. rewrite Eb. exact M.
Qed.
Theorem C106_minus_exact (m : mem) (x : vec) l : exact SF -> vec_holds m x l ->
  exists m1 ans, vec_new m (v_nnz x) = Ok (m1, ans) /\ makes (k_vec_minus x ans) m1 ans (map (fun a => - a) l).
Proof.
  intros X H. assert (En : v_nnz x = length l) by apply H. assert (Ef : v_first x = 0%nat) by apply H.
  destruct (@C106_minus m x) as (m1 & ans & E & _ & _ & M).
  { unfold v_begin. rewrite Ef, En. eapply holds_window; eauto. }
  exists m1, ans. split; auto. replace (map (fun a => - a) l) with (map (fun i => cell m (padd (v_begin x) i) * (- (1))) (seq 0 (v_nnz x))); auto.
  rewrite En. transitivity (map (fun i => - nth i l f0) (seq 0 (length l))).
  2:{ rewrite <- (map_map (fun i => nth i l f0) (fun a => - a)). now rewrite <- (@list_as_map_seq F l f0). }
  apply map_ext_in. intros i Hi. apply in_seq in Hi.
  rewrite (times_minus_one X). f_equal. unfold cell, padd, v_begin. rewrite Ef. cbn [fst snd Nat.add]. eapply holds_cell; eauto. lia.
Qed.
(** writing the values of a list one after the other *)
Lemma store_draws {G : Type} (draw : G -> F * G) (v : vec) N : forall (m : mem) g l, vec_holds m v l -> N <= length l ->
  exists m' g', for_ 0 N (fun i '(m, g) => let '(x, g') := draw g in m' <- vec_set m v i x ;; Ok (m', g')) (m, g) = Ok (m', g') /\
    vec_holds m' v (draws draw N g ++ skipn N l) /\ others_kept m m' (v_buf v).
Proof.
  intros m g l H HN.
  assert (D : forall n g, length (draws draw n g) = n) by (intros n; induction n; intros; cbn; auto).
  assert (S : forall n g, draws draw (S n) g = draws draw n g ++ [fst (draw (Nat.iter n (fun g => snd (draw g)) g))]).
  { intros n. induction n; intros g0; [reflexivity|]. 
    change (draws draw (S (S n)) g0) with (fst (draw g0) :: draws draw (S n) (snd (draw g0))). rewrite IHn.
    change (draws draw (S n) g0) with (fst (draw g0) :: draws draw n (snd (draw g0))). cbn [app]. replace (Nat.iter (S n) (fun g => snd (draw g)) g0) with (Nat.iter n (fun g => snd (draw g)) (snd (draw g0))); [reflexivity|].
    clear. induction n as [|n IH]; [reflexivity|]. change (snd (draw (Nat.iter n (fun g => snd (draw g)) (snd (draw g0)))) = snd (draw (Nat.iter (Datatypes.S n) (fun g => snd (draw g)) g0))). now rewrite IH. }
  destruct (@for0_inv (mem * G) (fun i s => snd s = Nat.iter i (fun g => snd (draw g)) g /\
      vec_holds (fst s) v (draws draw i g ++ skipn i l) /\ others_kept m (fst s) (v_buf v)) N
    (fun i '(m, g) => let '(x, g') := draw g in m' <- vec_set m v i x ;; Ok (m', g')) (m, g)) as ([m' g'] & E & _ & H2 & H3).
  - cbn [fst snd Nat.iter draws app skipn]. split; auto. split; auto. split; auto.
  - intros i [m2 g2] Hi (Eg & HH & [K1 K2]). cbn [fst snd] in *. destruct (draw g2) as [x g3] eqn:Ed.
    destruct (@set_holds F SF m2 v _ i x HH) as (m3 & A & B & [C1 C2] & _).
    { rewrite app_length, skipn_length, D. lia. }
    rewrite A. cbn [bind]. eexists. split; [reflexivity|]. cbn [fst snd]. split.
    { change (g3 = snd (draw (Nat.iter i (fun g => snd (draw g)) g))). rewrite <- Eg, Ed. reflexivity. }
    split.
    + rewrite S, <- Eg, Ed. cbn [fst].
      replace ((draws draw i g ++ [x]) ++ skipn (Datatypes.S i) l) with
        (firstn i (draws draw i g ++ skipn i l) ++ x :: skipn (Datatypes.S i) (draws draw i g ++ skipn i l)); [exact B|].
      rewrite firstn_app, D, Nat.sub_diag, firstn_O, app_nil_r, firstn_all2 by (rewrite D; auto).
      rewrite skipn_app, D, skipn_all2 by (rewrite D; auto). replace (Datatypes.S i - i)%nat with 1%nat by lia. cbn [app].
      rewrite skipn_one. now rewrite <- app_assoc.
    + split; [lia|]. intros c Hc Hb. rewrite C2; auto. lia.
  - exists m', g'. auto.
Qed.

(** vector(N, min, max): N successive results of the generator; with a seed the vector depends on the seed alone *)
Theorem C106_random {G : Type} (draw : G -> F * G) (m : mem) N g :
  exists m' v, vec_random draw m N g = Ok (m', v) /\ vec_holds m' v (draws draw N g) /\ kept m m'.
Proof.
  unfold vec_random. destruct (vec_new_holds m N) as (m1 & v & E & H & K & L1 & L2). rewrite E. cbn [bind].
  destruct (@store_draws G draw v N m1 g _ H) as (m2 & g' & E2 & H2 & [O1 O2]); [rewrite repeat_length; auto|].
  assert (Ef : v_first v = 0%nat) by apply H. 
  assert (E3 : for_ 0 N (fun i '(m, g) => let '(x, g') := draw g in m' <- st m (padd (v_data v) i) x ;; Ok (m', g')) (m1, g) = Ok (m2, g')).
  { rewrite <- E2. apply for_ext. intros i [m0 g0] Hi. unfold vec_set. now rewrite Ef. }
  rewrite E3. cbn [bind].
  exists m2, v. split; auto. rewrite skipn_all2, app_nil_r in H2 by (rewrite repeat_length; auto). split; auto.
  intros c Hc. rewrite O2; auto; lia.
Qed.
Theorem C106_random_vector {G : Type} (draw : G -> F * G) (m : mem) v l g : vec_holds m v l ->
  exists m', random_vector draw m v g = Ok m' /\ vec_holds m' v (draws draw (length l) g) /\ others_kept m m' (v_buf v).
Proof.
  intros H. unfold random_vector. destruct (@store_draws G draw v (length l) m g l H) as (m2 & g' & E2 & H2 & O); auto.
  assert (En : v_nnz v = length l) by apply H. rewrite En, E2. cbn [bind]. exists m2. split; auto.
  rewrite skipn_all, app_nil_r in H2. auto.
Qed.
Theorem C106_draws_in {G : Type} (draw : G -> F * G) (P : F -> Prop) : (forall g, P (fst (draw g))) -> forall N g, length (draws draw N g) = N /\ Forall P (draws draw N g).
Proof. intros HP N. induction N; intros g; cbn; auto. destruct (IHN (snd (draw g))). split; auto. Qed.

(** v = std::vector for a vector that owns its buffer *)
Theorem C106_assign_list_partial (m : mem) v l0 l : vec_holds m v l0 ->
  exists m' v', vec_assign_list m v l = Ok (m', v') /\ vec_holds m' v' l /\ others_kept m m' (v_buf v).
Proof.
  intros H. assert (Eo : v_own v = true) by apply H. assert (Ef : v_first v = 0%nat) by apply H.
  destruct (resize_holds (length l) f0 H) as (m1 & v1 & A & B & C & [D1 D2] & G & L).
  assert (Q : vec_assign_list m v l = ('(m1, v1) <- vec_resize m v (length l) f0 ;;
     m2 <- for_ 0 (length l) (fun i m => x <- rd l i ;; st m (padd (v_begin v1) i) x) m1 ;; Ok (m2, v1))).
  { unfold vec_assign_list, vec_resize. rewrite Eo. destruct (for_ 0 (Nat.min _ _) _ _); cbn [bind]; auto.
    destruct (for_ (Nat.min _ _) _ _ _); cbn [bind]; auto. }
  rewrite Q, A. cbn [bind].
  assert (Hlen : length (firstn (length l) l0 ++ repeat (f0 (Scalar:=SF)) (length l - length l0)) = length l) by (rewrite app_length, firstn_length, repeat_length; lia).
  set (l1 := firstn (length l) l0 ++ repeat f0 (length l - length l0)) in *. clearbody l1.
  assert (Ef1 : v_first v1 = 0%nat) by apply B.
  destruct (@for0_inv mem (fun i m2 => vec_holds m2 v1 (firstn i l ++ skipn i l1) /\ length m1 <= length m2 /\
     (forall c, c < length m -> c <> v_buf v -> nth c m2 [] = nth c m [])) (length l)
     (fun i m => x <- rd l i ;; st m (padd (v_begin v1) i) x) m1) as (m2 & E2 & H2 & L2 & K2).
  - cbn [firstn skipn app]. auto.
  - intros i m2 Hi (HH & L1 & HK). rewrite (@rd_lt _ l i f0 Hi). cbn [bind].
    destruct (@set_holds F SF m2 v1 _ i (nth i l f0) HH) as (m3 & A3 & B3 & [C1 C2] & _).
    { rewrite app_length, firstn_length, skipn_length. lia. }
    rewrite st_get, Ef1 in A3. cbn [Nat.add] in A3. unfold padd, v_begin. rewrite Ef1. cbn [fst snd Nat.add]. rewrite A3.
    eexists. split; [reflexivity|].
    assert (Hfl : length (firstn i l) = i) by (rewrite firstn_length; lia).
    split; [|split; [lia|]].
    + rewrite firstn_app, Hfl, Nat.sub_diag, firstn_O, app_nil_r, firstn_firstn, Nat.min_id in B3.
      rewrite skipn_app, Hfl, skipn_all2 in B3 by lia. replace (S i - i)%nat with 1%nat in B3 by lia.
      rewrite (@firstn_S_nth _ l i f0) by auto. rewrite <- app_assoc. cbn [app] in *. rewrite skipn_one in B3. exact B3.
    + intros c Hc Hb. rewrite C2; auto; try lia.
  - rewrite E2. cbn [bind]. exists m2, v1. split; auto. rewrite firstn_all, skipn_all2, app_nil_r in H2 by lia. split; auto.
    split; [lia|auto].
Qed.


(** the named functions, every schedule *)
Theorem C106_functions (L : libm F) (x y : arg) (m : mem) : a_len x = a_len y -> arg_ok m x -> arg_ok m y -> same_or_apart x y ->
  computes (k_vml_sin L x y) m y (fun i => l_sin L (el m x i)) /\ computes (k_vml_sinh L x y) m y (fun i => l_sinh L (el m x i)) /\
  computes (k_vml_asin L x y) m y (fun i => l_asin L (el m x i)) /\ computes (k_vml_asinh L x y) m y (fun i => l_asinh L (el m x i)) /\
  computes (k_vml_tan L x y) m y (fun i => l_tan L (el m x i)) /\ computes (k_vml_tanh L x y) m y (fun i => l_tanh L (el m x i)) /\
  computes (k_vml_atan L x y) m y (fun i => l_atan L (el m x i)) /\ computes (k_vml_atanh L x y) m y (fun i => l_atanh L (el m x i)) /\
  computes (k_vml_ceil L x y) m y (fun i => l_ceil L (el m x i)) /\ computes (k_vml_floor L x y) m y (fun i => l_floor L (el m x i)) /\
  computes (k_vml_exp L x y) m y (fun i => l_exp L (el m x i)) /\
  (forall alpha, computes (k_vml_pows L alpha x y) m y (fun i => l_pow L (el m x i) alpha)).
Proof.
  intros Hl Hx Hy Ha.
  assert (P : forall g : F -> F, computes (k_v g x y) m y (fun i => g (el m x i))).
  { intros g. apply (@k1_computes F SF _ _ g x y m); auto using same2_true. }
  repeat apply conj; try apply P. intros alpha. apply (P (fun a => l_pow L a alpha)).
Qed.
Theorem C106_pow (L : libm F) (a b y : arg) (m : mem) : a_len a = a_len y -> a_len b = a_len y -> arg_ok m a -> arg_ok m b -> arg_ok m y ->
  same_or_apart a y -> same_or_apart b y -> computes (k_vml_pow L a b y) m y (fun i => l_pow L (el m a i) (el m b i)).
Proof. intros. apply (@k2_computes F SF _ _ (l_pow L) a b y m); auto using same3_true. Qed.
Theorem C106_sizes (L : libm F) alpha (x y : arg) (m : mem) : a_len x <> a_len y ->
  kernel_seq (k_vml_sin L x y) m = Abort /\ kernel_seq (k_vml_exp L x y) m = Abort /\ kernel_seq (k_vml_floor L x y) m = Abort /\ kernel_seq (k_vml_pows L alpha x y) m = Abort.
Proof.
  intros H. unfold k_vml_sin, k_vml_exp, k_vml_floor, k_vml_pows, kernel_seq, k_v. cbn [k_assert]. rewrite (same2_false _ _ H). auto.
Qed.
End C106.

(** v = std::vector after v.move(tensor window that starts at element 1): val_create_flag becomes true, the new buffer has
    exactly l.size() elements, but the copy starts at element 1 of it: heap overflow, whatever is assigned *)
Theorem C106_assign_list_refuted : exists (m : list (list Z)) (v : vec), window m (v_begin v) (v_nnz v) /\ v_own v = false /\
  forall l, l <> [] -> vec_assign_list (SF := Zscalar) m v l = UB.
Proof.
  exists [[7; 8; 9]%Z], (mkVec 0 1 2 3 false). split; [|split; [reflexivity|]].
  { intros i Hi. cbn in *. unfold valid, padd. cbn [fst snd nth length v_begin v_first v_buf]. lia. }
  intros l Hl. unfold vec_assign_list. cbn [v_nnz v_own v_first v_buf v_data].
  set (N := length l). assert (0 < N) by (destruct l; [congruence|cbn in N; lia]).
  destruct (@for0_inv (list Z) (fun _ t => length t = N) (Nat.min 2 N) (fun i t => x <- ld [[7; 8; 9]%Z] (padd (v_data (mkVec 0 1 2 3 false)) i) ;; wr t i x) (repeat (f0 (Scalar:=Zscalar)) N)) as (t & E & Ht).
  { apply repeat_length. }
  { intros i t Hi Ht. destruct i as [|[|i]]; [| |lia]; cbn -[wr]; (rewrite wr_lt by lia); eexists; (split; [reflexivity|]); now rewrite upd_length. }
  rewrite E. cbn [bind]. clear E.
  destruct (@for_inv (list Z) (fun _ t => length t = N) (Nat.min 2 N) N (fun i t => wr t i (f0 (Scalar:=Zscalar))) t) as (t2 & E2 & Ht2).
  { lia. }
  { exact Ht. }
  { intros i s Hi Hs. rewrite wr_lt by lia. eexists. split; [reflexivity|]. now rewrite upd_length. }
  rewrite E2. cbn [bind malloc app]. clear E2 t Ht.
  assert (K : forall k, k < N -> for_ 0 k (fun i m => x <- rd l i ;; st m (padd (v_begin (mkVec (length [[7; 8; 9]%Z]) 1 N N true)) i) x) [[7;8;9]%Z; t2] = UB \/
     exists t3, for_ 0 k (fun i m => x <- rd l i ;; st m (padd (v_begin (mkVec (length [[7; 8; 9]%Z]) 1 N N true)) i) x) [[7;8;9]%Z; t2] = Ok [[7;8;9]%Z; t3] /\ length t3 = N).
  { intros k Hk. right. destruct (@for0_inv (list (list Z)) (fun _ m => exists t3, m = [[7;8;9]%Z; t3] /\ length t3 = N) k
      (fun i m => x <- rd l i ;; st m (padd (v_begin (mkVec (length [[7; 8; 9]%Z]) 1 N N true)) i) x) [[7;8;9]%Z; t2]) as (mm & Em & t3 & -> & H3).
    - eauto.
    - intros i mm Hi (t3 & -> & H3). rewrite (@rd_lt _ l i 0%Z) by (fold N; lia). cbn [bind].
      unfold st, padd, v_begin. cbn [fst snd v_buf v_first length Nat.add]. cbn [rd nth_error bind]. rewrite wr_lt by lia. cbn [bind]. unfold wr. cbn.
      eexists. split; [reflexivity|]. eexists. split; [reflexivity|]. change (length (upd t3 (S i) (nth i l 0%Z)) = N). now rewrite upd_length.
    - eauto. }
  destruct (K (N - 1) ltac:(lia)) as [K1|(t3 & K1 & H3)].
  - replace N with (S (N - 1)) at 1 by lia. rewrite for_last by lia. rewrite K1. reflexivity.
  - replace N with (S (N - 1)) at 1 by lia. rewrite for_last by lia. rewrite K1. cbn [bind].
    rewrite (@rd_lt _ l (N - 1) 0%Z) by (fold N; lia). cbn [bind]. unfold st, padd, v_begin. cbn [fst snd v_buf v_first length rd nth_error bind].
    replace (1 + (N - 1)) with N by lia. unfold wr. rewrite (proj2 (Nat.ltb_ge _ _)) by lia. reflexivity.
Qed.

(** IEEE arithmetic: multiplying by -1 flips the sign and nothing else (zeros, infinities and NaN included) *)
Section Minus.
Variables prec emax : Z.
Context (Hp : Prec_gt_0 prec) (He : Prec_lt_emax prec emax).
Lemma mul_minus_one (x one : spec_float) : num prec emax x -> num prec emax one -> val one = 1%R -> (exists m e, one = S754_finite false m e) ->
  SFmul prec emax x (SFopp one) = SFopp x.
Proof.
  intros Hx H1 V (mo & eo & E1). destruct (num_B Hx) as (b & ->). destruct (num_B H1) as (o & Eo). rewrite Eo in *.
  assert (So : Bsign o = false) by (destruct o; cbn in E1; try discriminate; injection E1; auto).
  assert (Fo : is_finite o = true) by (destruct o; cbn in E1; try discriminate; reflexivity).
  rewrite val_B in V.
  assert (OP : forall q : binary_float prec emax, SFopp (B2SF q) = B2SF (Bopp q)) by (intros []; reflexivity).
  rewrite !OP, (mul_equiv Hp He). f_equal.
  destruct (is_finite b) eqn:Fb.
  - pose proof (Bmult_correct prec emax Hp He mode_NE b (Bopp o)) as H.
    rewrite B2R_Bopp, V in H. replace (B2R b * - (1))%R with (- B2R b)%R in H by ring. rewrite <- B2R_Bopp in H.
    rewrite round_generic in H; [|apply valid_rnd_N|rewrite B2R_Bopp; apply generic_format_opp, generic_format_B2R].
    rewrite Rlt_bool_true in H by (apply abs_B2R_lt_emax). destruct H as (A & B & C).
    rewrite is_finite_Bopp, Fb, Fo in B. cbn in B.
    apply B2R_Bsign_inj; auto.
    + now rewrite is_finite_Bopp.
    + rewrite C by (destruct (Bmult _ _ _); cbn in *; congruence). rewrite !Bsign_Bopp.
      * rewrite So. now destruct (Bsign b).
      * destruct b; cbn in *; congruence.
      * destruct o; cbn in *; congruence.
  - destruct b as [s|s| |s m e B]; cbn in Fb; try discriminate; destruct o as [s'|s'| |s' m' e' B']; cbn in Fo, So; try discriminate; subst; cbn; auto; try (exfalso; cbn in E1; discriminate); try (destruct s; reflexivity).
Qed.
End Minus.
Theorem C106_minus_ieee (x : spec_float) :
  (num 53 1024 x -> fmul (Scalar := b64scalar) x (fopp (Scalar := b64scalar) (f1 (Scalar := b64scalar))) = fopp (Scalar := b64scalar) x) /\ (num 24 128 x -> fmul (Scalar := b32scalar) x (fopp (Scalar := b32scalar) (f1 (Scalar := b32scalar))) = fopp (Scalar := b32scalar) x).
Proof.
  split; intros H.
  - apply (@mul_minus_one 53 1024 eq_refl eq_refl); auto; [vm_compute; reflexivity| |eexists _, _; reflexivity].
    change (val (@f1 _ b64scalar)) with (1 * IZR 4503599627370496 * powerRZ 2 (-52))%R. rewrite powerRZ_bpow. cbn. lra.
  - apply (@mul_minus_one 24 128 eq_refl eq_refl); auto; [vm_compute; reflexivity| |].
    + change (val (@f1 _ b32scalar)) with (1 * IZR 8388608 * powerRZ 2 (-23))%R. rewrite powerRZ_bpow. cbn. lra.
    + eexists _, _. vm_compute. reflexivity.
Qed.

(** vector<float>(N, min, max): each element is a double of [min, max) rounded to float, so it lies in [min, max]... *)
Theorem C106_random_float (lo hi d : spec_float) : num 24 128 lo -> num 24 128 hi -> finite lo -> finite hi -> num 53 1024 d -> finite d ->
  (val lo <= val d < val hi)%R -> num 24 128 (d2f d) /\ finite (d2f d) /\ (val lo <= val (d2f d) <= val hi)%R.
Proof.
  intros Hl Hh Fl Fh Hd Fd [Ll Lh].
  destruct d as [s|s| |s m e]; try contradiction Fd; cbn [d2f].
  { split; [reflexivity|]. split; [exact I|]. change (val (S754_zero s)) with 0%R in *. lra. }
  assert (P24 : Prec_gt_0 24) by reflexivity. assert (E128 : Prec_lt_emax 24 128) by reflexivity.
  rewrite (normalize_equiv P24 E128). split; [apply num_B2SF|]. rewrite finite_B, val_B.
  pose proof (binary_normalize_correct 24 128 P24 E128 mode_NE (if s then Z.neg m else Z.pos m) e s) as H.
  assert (V : F2R (Float radix2 (if s then Z.neg m else Z.pos m) e) = val (S754_finite s m e)).
  { rewrite val_SF2R. cbn [SF2R]. now destruct s. }
  cbv zeta in H. rewrite V in H. set (r := val (S754_finite s m e)) in *.
  assert (G : forall q, num 24 128 q -> round radix2 (SpecFloat.fexp 24 128) (round_mode mode_NE) (val q) = val q).
  { intros q Hq. destruct (num_B Hq) as (b & ->). rewrite val_B. apply round_generic; [apply valid_rnd_N|]. apply generic_format_B2R. }
  assert (R1 : (val lo <= round radix2 (SpecFloat.fexp 24 128) (round_mode mode_NE) r)%R).
  { rewrite <- (G lo Hl). apply round_le; [apply fexp_correct; auto|apply valid_rnd_N|auto]. }
  assert (R2 : (round radix2 (SpecFloat.fexp 24 128) (round_mode mode_NE) r <= val hi)%R).
  { rewrite <- (G hi Hh). apply round_le; [apply fexp_correct; auto|apply valid_rnd_N|lra]. }
  rewrite Rlt_bool_true in H.
  - destruct H as (A & B & _). split; auto. rewrite A. auto.
  - destruct (num_B Hl) as (bl & ->), (num_B Hh) as (bh & ->). rewrite val_B in *.
    pose proof (abs_B2R_lt_emax _ _ bl). pose proof (abs_B2R_lt_emax _ _ bh).
    apply Rabs_def1; unfold Rabs in *; repeat destruct Rcase_abs; lra.
Qed.
(** ... but not always below max: the double 1 - 2^-53 of [0, 1) becomes the float 1 *)
Theorem C106_random_float_refuted : exists d, num 53 1024 d /\ finite d /\ (0 <= val d < 1)%R /\ d2f d = f1 (Scalar := b32scalar).
Proof.
  exists (S754_finite false 9007199254740991 (-53)). split; [vm_compute; reflexivity|]. split; [exact I|]. split; [|vm_compute; reflexivity].
  unfold val. rewrite powerRZ_bpow. cbn. lra.
Qed.

(** concrete cases for the hypotheses: a vector, a moved window, a generator *)
Theorem C106_example :
  (exists m v, vec_of_list (SF := Zscalar) [] [4; -7; 9]%Z = Ok (m, v) /\ vec_holds m v [4; -7; 9]%Z /\
     exists m' v', vec_assign_list (SF := Zscalar) m v [1; 2]%Z = Ok (m', v') /\ vec_holds m' v' [1; 2]%Z) /\
  draws (fun g : Z => (g mod 10, (g * 7 + 3) mod 101)%Z) 4 5%Z = [5; 8; 7; 8]%Z /\
  window (F := Z) [[7; 8; 9]%Z] (0, 1) 2.
Proof.
  split; [|split].
  - destruct (@vec_of_list_holds Z Zscalar [] [4; -7; 9]%Z) as (m & v & E & H & _). exists m, v. split; auto. split; auto.
    destruct (C106_assign_list_partial [1; 2]%Z H) as (m' & v' & E' & H' & _). eauto.
  - vm_compute. reflexivity.
  - intros i Hi. unfold valid, padd. cbn. lia.
Qed.
Print Assumptions C106_minus_ieee.
Print Assumptions C106_random_float.
Print Assumptions C106_assign_list_refuted.

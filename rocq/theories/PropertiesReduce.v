(** * PropertiesReduce: C26, reductions under every schedule. *)
From Coq Require Import ZArith Floats.SpecFloat.
From Verif Require Import Base Scalar Spec Mem MemSpec VecModel VecSpec ReduceModel ReduceSpec ReduceProof.
Set Implicit Arguments.
Local Open Scope nat_scope.

(** ** C26 exact arithmetic: the mathematical sum, whatever the schedule *)
Theorem C26_sum {F} {SF : Scalar F} (m : mem F) (x : arg) : exact SF -> arg_ok m x ->
  returns (r_sum x) m (sum_n (a_len x) (el m x)).
Proof. intros Hex Hx. refine (@additive_returns F SF Hex true _ _ (fun v => v) m (el m x) _ _); auto. intros i Hi. now apply el_ld. Qed.
Print Assumptions C26_sum.
Theorem C26_nrm1_asum {F} {SF : Scalar F} (m : mem F) (x : arg) : exact SF -> arg_ok m x ->
  returns (r_nrm1 x) m (sum_n (a_len x) (fun i => fabs (el m x i))) /\
  returns (r_asum x) m (sum_n (a_len x) (fun i => fabs (el m x i))).
Proof.
  intros Hex Hx. split; refine (@additive_returns F SF Hex true _ _ (fun v => v) m (fun i => fabs (el m x i)) _ _); auto;
    intros i Hi; rewrite (el_ld Hx Hi); reflexivity.
Qed.
Print Assumptions C26_nrm1_asum.
Theorem C26_dot {F} {SF : Scalar F} (m : mem F) (x y : arg) : exact SF -> arg_ok m x -> arg_ok m y ->
  a_len x = a_len y ->
  returns (r_dot x y) m (dotp (a_len x) (el m x) (el m y)).
Proof.
  intros Hex Hx Hy He. refine (@additive_returns F SF Hex (same2 x y) _ _ (fun v => v) m (fun i => fmul (el m x i) (el m y i)) _ _).
  - unfold same2. now apply Nat.eqb_eq.
  - intros i Hi. rewrite (el_ld Hx Hi). rewrite He in Hi. cbn [bind]. rewrite (el_ld Hy Hi). reflexivity.
Qed.
Print Assumptions C26_dot.
Theorem C26_nrm2 {F} {SF : Scalar F} (m : mem F) (x : arg) : exact SF -> arg_ok m x ->
  returns (r_nrm2 x) m (fsqrt (sum_n (a_len x) (fun i => fmul (el m x i) (el m x i)))).
Proof.
  intros Hex Hx. refine (@additive_returns F SF Hex true _ _ fsqrt m (fun i => fmul (el m x i) (el m x i)) _ _); auto.
  intros i Hi. rewrite (el_ld Hx Hi). reflexivity.
Qed.
Print Assumptions C26_nrm2.
(** vectors of different length are rejected *)
Theorem C26_dot_sizes {F} {SF : Scalar F} (m : mem F) (x y : arg) : a_len x <> a_len y ->
  forall v, ~ red_val (r_dot x y) m v.
Proof. intros H v (Ha & _). cbn in Ha. unfold same2 in Ha. apply Nat.eqb_eq in Ha. auto. Qed.
Print Assumptions C26_dot_sizes.

(** ** max and min: any arithmetic whose operator< is a strict weak order on the elements; [lowest] bounds
    them from below *)
Theorem C26_max {F} {SF : Scalar F} (lowest : F) (P : F -> Prop) (m : mem F) (y : arg) :
  weak_order P -> P lowest -> arg_ok m y -> 0 < a_len y ->
  (forall i, i < a_len y -> P (el m y i) /\ (el m y i = lowest \/ fltb lowest (el m y i) = true)) ->
  (exists v, red_val (r_max lowest y) m v) /\ (forall v, red_val (r_max lowest y) m v -> is_max m y v) /\
  ~ red_fault (r_max lowest y) m.
Proof. exact (@max_values F SF lowest P m y). Qed.
Print Assumptions C26_max.
Theorem C26_min {F} {SF : Scalar F} (greatest : F) (P : F -> Prop) (m : mem F) (y : arg) :
  weak_order P -> P greatest -> arg_ok m y -> 0 < a_len y ->
  (forall i, i < a_len y -> P (el m y i) /\ (el m y i = greatest \/ fltb (el m y i) greatest = true)) ->
  (exists v, red_val (r_min greatest y) m v) /\ (forall v, red_val (r_min greatest y) m v -> is_min m y v) /\
  ~ red_fault (r_min greatest y) m.
Proof. exact (@min_values F SF greatest P m y). Qed.
Print Assumptions C26_min.

(** ** binary64 *)
Section B64.
Local Existing Instance b64scalar.
Definition ninf : b64 := S754_infinity true.
Definition pinf : b64 := S754_infinity false.

(** max/min of doubles, none of them NaN: an element that no other exceeds, under every schedule; two
    possible results compare equal *)
Theorem C26_max_min_b64 (m : mem b64) (y : arg) :
  arg_ok m y -> 0 < a_len y -> (forall i, i < a_len y -> fnan (el m y i) = false) ->
  (forall v, red_val (r_max ninf y) m v -> is_max m y v) /\ ~ red_fault (r_max ninf y) m /\
  (forall v, red_val (r_min pinf y) m v -> is_min m y v) /\ ~ red_fault (r_min pinf y) m /\
  (forall v w, red_val (r_max ninf y) m v -> red_val (r_max ninf y) m w -> feqb v w = true) /\
  (forall v w, red_val (r_min pinf y) m v -> red_val (r_min pinf y) m w -> feqb v w = true).
Proof.
  intros Hy Hn HP.
  assert (L : forall i, i < a_len y -> fnan (el m y i) = false /\ (el m y i = ninf \/ fltb ninf (el m y i) = true)).
  { intros i Hi. specialize (HP i Hi). split; auto. destruct (el m y i) as [s|[|]| |s e f]; auto; discriminate. }
  assert (G : forall i, i < a_len y -> fnan (el m y i) = false /\ (el m y i = pinf \/ fltb (el m y i) pinf = true)).
  { intros i Hi. specialize (HP i Hi). split; auto. destruct (el m y i) as [s|[|]| |s e f]; auto; try discriminate; destruct s; auto. }
  destruct (@C26_max b64 _ ninf _ m y b64_weak_order eq_refl Hy Hn L) as (_ & A1 & A2).
  destruct (@C26_min b64 _ pinf _ m y b64_weak_order eq_refl Hy Hn G) as (_ & B1 & B2).
  assert (T : forall v w : b64, fnan v = false -> fnan w = false -> fltb v w = false -> fltb w v = false -> feqb v w = true).
  { intros v w Hv Hw. cbn [fltb feqb b64scalar]. unfold SFltb, SFeqb. unfold SFcompare.
    destruct v as [sv|sv| |sv mv ev], w as [sw|sw| |sw mw ew]; try destruct sv; try destruct sw; try discriminate; auto;
    rewrite (Z.compare_antisym ev ew), ?(Pos.compare_cont_antisym ev ew);
    destruct (ev ?= ew)%Z; cbn; try discriminate; auto;
    change (Pos.compare_cont Eq mv mw) with (Pos.compare mv mw); change (Pos.compare_cont Eq mw mv) with (Pos.compare mw mv);
    rewrite (Pos.compare_antisym mv mw); destruct (mv ?= mw)%positive; cbn; try discriminate; auto. }
  repeat split; auto.
  - apply A1; auto. - apply A1; auto. - apply B1; auto. - apply B1; auto.
  - intros v w Hv Hw. destruct (A1 v Hv) as ((i & Hi & <-) & Bv). destruct (A1 w Hw) as ((j & Hj & <-) & Bw).
    apply T; auto.
  - intros v w Hv Hw. destruct (B1 v Hv) as ((i & Hi & <-) & Bv). destruct (B1 w Hw) as ((j & Hj & <-) & Bw).
    apply T; auto.
Qed.

(** the IEEE half of the property is false: the same call on the same data has two different results.
    sum of (1, 2^60, -2^60): 0 with one thread, 1 when the first element is on its own thread. *)
Definition mB (l : list b64) : mem b64 := [l].
Definition argB (n : nat) : arg := mkArg (0, 0) n.
Definition b1 : b64 := b64_of_Z 1.
Lemma comb3 op (a b c v : b64) : op a (op b c) = v -> combine op [a; b; c] v.
Proof.
  intros <-. apply comb_op with (l1 := [a]) (l2 := [b; c]); [constructor| |reflexivity].
  apply comb_op with (l1 := [b]) (l2 := [c]); try constructor. reflexivity.
Qed.
Theorem C26_sum_float_refuted :
  exists m x v w, arg_ok m x /\ red_val (r_sum x) m v /\ red_val (r_sum x) m w /\ feqb v w = false.
Proof.
  exists (mB [b1; b64_big; fopp b64_big]), (argB 3), (S754_zero false), b1.
  split. { intros i Hi. unfold valid. cbn in *. lia. }
  split; [|split; [|reflexivity]]; split; auto.
  - exists f0, [[0; 1; 2]], [S754_zero false], (S754_zero false).
    split; auto. split. { unfold distribution; cbn. reflexivity. }
    split. { constructor; [vm_compute; reflexivity|constructor]. }
    split; [|reflexivity]. exact (@combine_two b64 fadd f0 (S754_zero false)).
  - exists f0, [[0]; [1; 2]], [b1; S754_zero false], b1.
    split; auto. split. { unfold distribution; cbn. reflexivity. }
    split. { constructor; [vm_compute; reflexivity|]. constructor; [vm_compute; reflexivity|constructor]. }
    split; [|reflexivity]. apply comb3. reflexivity.
Qed.
(** the same for dot and hence nrm2-like sums of products: x = (1, 2^60, -2^60), y = (1, 1, 1) *)
Theorem C26_dot_float_refuted :
  exists m x y v w, arg_ok m x /\ arg_ok m y /\ red_val (r_dot x y) m v /\ red_val (r_dot x y) m w /\ feqb v w = false.
Proof.
  exists [[b1; b64_big; fopp b64_big]; [b1; b1; b1]], (argB 3), (mkArg (1, 0) 3), (S754_zero false), b1.
  split. { intros i Hi. unfold valid. cbn in *. lia. }
  split. { intros i Hi. unfold valid. cbn in *. lia. }
  split; [|split; [|reflexivity]]; split; auto.
  - exists f0, [[0; 1; 2]], [S754_zero false], (S754_zero false).
    split; auto. split. { unfold distribution; cbn. reflexivity. }
    split. { constructor; [vm_compute; reflexivity|constructor]. }
    split; [|reflexivity]. exact (@combine_two b64 fadd f0 (S754_zero false)).
  - exists f0, [[0]; [1; 2]], [b1; S754_zero false], b1.
    split; auto. split. { unfold distribution; cbn. reflexivity. }
    split. { constructor; [vm_compute; reflexivity|]. constructor; [vm_compute; reflexivity|constructor]. }
    split; [|reflexivity]. apply comb3. reflexivity.
Qed.
(** max of (-1, -0, +0): the sign of the result depends on the schedule (the two results compare equal) *)
Theorem C26_max_zero_sign_refuted :
  exists m y, arg_ok m y /\ red_val (r_max ninf y) m (S754_zero true) /\ red_val (r_max ninf y) m (S754_zero false).
Proof.
  exists (mB [fopp b1; S754_zero true; S754_zero false]), (argB 3).
  split. { intros i Hi. unfold valid. cbn in *. lia. }
  split; split; auto.
  - exists (fopp b1), [[0; 1; 2]], [S754_zero true], (S754_zero true).
    split; auto. split. { unfold distribution; cbn. reflexivity. }
    split. { constructor; [vm_compute; reflexivity|constructor]. }
    split; [|reflexivity]. exact (@combine_two b64 fmax (fopp b1) (S754_zero true)).
  - exists (fopp b1), [[2]; [0; 1]], [S754_zero false; S754_zero true], (S754_zero false).
    split; auto. split. { unfold distribution; cbn. apply (Permutation_cons_append [0; 1] 2). }
    split. { constructor; [vm_compute; reflexivity|]. constructor; [vm_compute; reflexivity|constructor]. }
    split; [|reflexivity]. apply comb3. reflexivity.
Qed.
(** with a NaN among the elements even the value of max depends on the combination order, which OpenMP
    leaves open: (NaN, 1) gives NaN or 1 *)
Theorem C26_max_nan_refuted :
  exists m y, arg_ok m y /\ red_val (r_max ninf y) m S754_nan /\ red_val (r_max ninf y) m b1.
Proof.
  exists (mB [S754_nan; b1]), (argB 2).
  split. { intros i Hi. unfold valid. cbn in *. lia. }
  split; split; auto; exists S754_nan, [[0; 1]], [b1].
  - exists S754_nan. split; auto. split. { unfold distribution; cbn. reflexivity. }
    split. { constructor; [vm_compute; reflexivity|constructor]. }
    split; [|reflexivity]. exact (@combine_two b64 fmax S754_nan b1).
  - exists b1. split; auto. split. { unfold distribution; cbn. reflexivity. }
    split. { constructor; [vm_compute; reflexivity|constructor]. }
    split; [|reflexivity]. refine (@comb_op b64 fmax _ [b1] [S754_nan] b1 S754_nan _ _ _); [constructor|constructor|]. apply perm_swap.
Qed.
End B64.
Print Assumptions C26_max_min_b64.
Print Assumptions C26_sum_float_refuted.
Print Assumptions C26_dot_float_refuted.
Print Assumptions C26_max_zero_sign_refuted.
Print Assumptions C26_max_nan_refuted.

(** max/min of an empty vector reads y[0] out of bounds (a vector with no elements at the end of its buffer) *)
Theorem C26_max_empty_refuted {F} {SF : Scalar F} (low : F) (m : mem F) (y : arg) :
  ~ valid m (a_ptr y) -> red_fault (r_max low y) m /\ red_fault (r_min low y) m.
Proof.
  intros H. split; left; cbn; intros (o & E); apply H; unfold ld, rd in E; unfold valid;
  destruct (nth_error m (fst (a_ptr y))) as [l|] eqn:E1; cbn in E; try discriminate;
  destruct (nth_error l (snd (a_ptr y))) as [v|] eqn:E2; try discriminate;
  rewrite (nth_error_nth _ _ _ E1); apply nth_error_Some; congruence.
Qed.
Print Assumptions C26_max_empty_refuted.

(** the hypotheses hold for concrete data: integers (4, -1, 3), max 4, min -1, sum 6, |.| sum 8, dot 26 *)
Example C26_example :
  let m : mem Z := [[4; -1; 3]%Z] in let x := mkArg (0, 0) 3 in
  arg_ok m x /\ weak_order (fun _ : Z => True) /\
  returns (r_sum x) m 6%Z /\ returns (r_nrm1 x) m 8%Z /\ returns (r_dot x x) m 26%Z /\
  red_val (r_max (-100)%Z x) m 4%Z /\ red_val (r_min 100%Z x) m (-1)%Z.
Proof.
  intros m x. assert (Hx : arg_ok m x) by (intros i Hi; unfold valid; cbn in *; lia).
  split; auto. split. { unfold weak_order. cbn [fltb Zscalar]. repeat split; intros; rewrite ?Z.ltb_lt, ?Z.ltb_ge in *; lia. }
  split; [exact (C26_sum Z_exact Hx)|]. split; [apply (C26_nrm1_asum Z_exact Hx)|]. split; [exact (C26_dot Z_exact Hx Hx eq_refl)|].
  split; split; auto; exists 4%Z, [[0; 1; 2]].
  - exists [4%Z], 4%Z. split; [reflexivity|]. split; [unfold distribution; cbn; reflexivity|].
    split; [constructor; [reflexivity|constructor]|]. split; [|reflexivity]. exact (@combine_two Z fmax 4%Z 4%Z).
  - exists [(-1)%Z], (-1)%Z. split; [reflexivity|]. split; [unfold distribution; cbn; reflexivity|].
    split; [constructor; [reflexivity|constructor]|]. split; [|reflexivity]. exact (@combine_two Z fmin 4%Z (-1)%Z).
Qed.

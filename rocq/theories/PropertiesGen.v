(** * PropertiesGen: C32, the matrix and tensor generators.

    Every theorem gives, for the COO object returned: its size, the exact set of stored entries, their order
    (strictly increasing, row by row, so the matrix can be converted to CRS without sorting) and every element as
    read by at(). *)
From Coq Require Import ZArith Sorting.Sorted.
From Verif Require Import Base Scalar Spec DenseModel CooModel Observe TensorModel TensorSpec TensorCooProof
  GenModel GenProof GenRandProof.
Set Implicit Arguments.

(** ** specification *)

(** [r] is an M x N matrix with elements A, storing exactly the positions where [P] holds *)
Definition is_matrix {F} {SF : Scalar F} (r : res (coo F)) (M N : nat) (P : nat -> nat -> Prop) (A : nat -> nat -> F) : Prop :=
  exists c, r = Ok c /\ coo_ok c /\ c_row c = M /\ c_col c = N /\
    StronglySorted pos_lt (map fst (coo_entries c)) /\
    (forall i j v, In (i, j, v) (coo_entries c) <-> i < M /\ j < N /\ P i j /\ v = A i j) /\
    forall i j, i < M -> j < N -> coo_at c i j = Ok (A i j).

(** |i - j| *)
Definition dist (i j : nat) : nat := (i - j) + (j - i).
(** the documented value [v], where a zero of either sign may be represented by not storing it *)
Definition stored_value {F} {SF : Scalar F} (v : F) : F := if feqb v f0 then f0 else v.

(** ** eye, frank_matrix *)
Theorem C32_eye {F} {SF : Scalar F} (M : nat) :
  is_matrix (eye M) M M (fun i j => i = j) (fun i j => if i =? j then f1 else f0).
Proof. exact (@eye_ok F SF M). Qed.
Print Assumptions C32_eye.

Theorem C32_frank {F} {SF : Scalar F} {FI : FromInt F} (M : nat) :
  is_matrix (frank_matrix M) M M (fun _ _ => True) (fun i j => of_int (Z.of_nat M - Z.of_nat (Nat.max i j))).
Proof. exact (@frank_ok F SF FI M). Qed.
Print Assumptions C32_frank.

(** ** tridiagonal_toeplitz_matrix, laplacian_matrix_1D.  Missing from the full claim: M = 1, where the
    documented matrix is (a) but the function aborts (C32_tridiagonal_small_refuted). *)
Definition tridiagonal {F} {SF : Scalar F} (a b : F) (i j : nat) : F :=
  match dist i j with 0 => a | 1 => b | _ => f0 end.

Lemma is_matrix_ext {F} {SF : Scalar F} r M N (P P' : nat -> nat -> Prop) (A A' : nat -> nat -> F) :
  is_matrix r M N P A -> (forall i j, i < M -> j < N -> (P i j <-> P' i j)) ->
  (forall i j, i < M -> j < N -> A i j = A' i j) -> is_matrix r M N P' A'.
Proof.
  intros (c & E & W & Hr & Hc & HS & HI & HA) H1 H2. exists c. repeat (split; [solve [auto]|]). split.
  - intros i j v. rewrite HI. split; intros (Hi & Hj & HP & Hv); repeat (split; auto).
    + apply H1; auto.
    + rewrite <- H2; auto.
    + apply H1; auto.
    + rewrite H2; auto.
  - intros i j Hi Hj. rewrite HA by auto. f_equal. auto.
Qed.

Lemma tri_tridiagonal {F} {SF : Scalar F} (a b : F) i j : tri a b i j = tridiagonal a b i j.
Proof.
  unfold tri, tridiagonal, dist. destruct (Nat.eqb_spec i j) as [->|].
  - rewrite Nat.sub_diag. reflexivity.
  - destruct (Nat.eqb_spec i (j + 1)), (Nat.eqb_spec j (i + 1)); cbn [orb];
      try (replace (i - j + (j - i)) with 1 by lia; reflexivity).
    destruct (i - j + (j - i)) as [|[|d]] eqn:E; [lia|lia|reflexivity].
Qed.

Theorem C32_tridiagonal_partial {F} {SF : Scalar F} (M : nat) (a b : F) : 2 <= M ->
  is_matrix (tridiagonal_toeplitz_matrix M a b) M M (fun i j => dist i j <= 1) (tridiagonal a b).
Proof.
  intros HM. eapply is_matrix_ext; [exact (@tri_ok F SF M a b HM)| |].
  - intros i j _ _. cbn. unfold dist. lia.
  - intros i j _ _. apply tri_tridiagonal.
Qed.
Print Assumptions C32_tridiagonal_partial.

Theorem C32_laplacian_1D_partial {F} {SF : Scalar F} {FI : FromInt F} (M : nat) : 2 <= M ->
  is_matrix (laplacian_matrix_1D M) M M (fun i j => dist i j <= 1) (tridiagonal (of_int 2) (of_int (-1))).
Proof. exact (@C32_tridiagonal_partial F SF M (of_int 2) (of_int (-1))). Qed.
Print Assumptions C32_laplacian_1D_partial.

Theorem C32_tridiagonal_small_refuted {F} {SF : Scalar F} {FI : FromInt F} (a b : F) :
  tridiagonal_toeplitz_matrix 1 a b = Abort /\ laplacian_matrix_1D (F:=F) 1 = Abort.
Proof. split; apply tri_small; auto. Qed.
Print Assumptions C32_tridiagonal_small_refuted.

(** ** laplacian_matrix_2D_5p(m, n): the grid point (x, y), x < m, y < n, has number y * m + x; the element
    is 4 on the diagonal, -1 between horizontal or vertical neighbours, 0 elsewhere.  m * n must be an int. *)
Definition num (m x y : nat) : nat := y * m + x.
Definition laplacian {F} {SF : Scalar F} {FI : FromInt F} (x y x' y' : nat) : F :=
  match dist x x' + dist y y' with 0 => of_int 4 | 1 => of_int (-1) | _ => f0 end.

Theorem C32_laplacian_2D {F} {SF : Scalar F} {FI : FromInt F} (m n : nat) :
  (Z.of_nat m * Z.of_nat n < 2 ^ 31)%Z ->
  exists c, laplacian_matrix_2D_5p m n = Ok c /\ coo_ok c /\ c_row c = m * n /\ c_col c = m * n /\
    StronglySorted pos_lt (map fst (coo_entries c)) /\
    (forall x y x' y', x < m -> y < n -> x' < m -> y' < n ->
       coo_at c (num m x y) (num m x' y') = Ok (laplacian x y x' y') /\
       forall v, In (num m x y, num m x' y', v) (coo_entries c) <->
         dist x x' + dist y y' <= 1 /\ v = laplacian x y x' y') /\
    (forall i j v, In (i, j, v) (coo_entries c) -> i < m * n /\ j < m * n).
Proof.
  intros HB. destruct (@lap2_ok F SF FI m n ltac:(lia)) as (c & E & W & Hr & Hc & HS & HI & HA).
  exists c. repeat (split; [solve [auto]|]). split.
  - intros x y x' y' Hx Hy Hx' Hy'.
    assert (L : forall x y, x < m -> y < n -> num m x y < m * n) by (intros; unfold num; nia).
    assert (GD : grid_dist m (num m x y) (num m x' y') = dist x x' + dist y y').
    { unfold grid_dist, dist. destruct (@divmod m y x _ Hx eq_refl) as [H1 H2].
      destruct (@divmod m y' x' _ Hx' eq_refl) as [H3 H4]. unfold num. rewrite H1, H2, H3, H4. lia. }
    split.
    + rewrite HA by auto. unfold lap2, laplacian. now rewrite GD.
    + intros v. rewrite HI. unfold lap2, laplacian. rewrite GD. split; [tauto|]. intros (? & ->). auto.
  - intros i j v H. apply HI in H. tauto.
Qed.
Print Assumptions C32_laplacian_2D.

(** ** toeplitz_plus_hankel_matrix.  Missing from the full claim: M < 4 (the function aborts). *)
Definition toeplitz_hankel {F} {SF : Scalar F} (M : nat) (a0 a1 a2 : F) (i j : nat) : F :=
  match dist i j with
  | 0 => if (i =? 0) || (i =? M - 1) then fsub a0 a2 else a0
  | 1 => a1 | 2 => a2 | _ => f0 end.

Theorem C32_toeplitz_plus_hankel_partial {F} {SF : Scalar F} (M : nat) (a0 a1 a2 : F) : 4 <= M ->
  is_matrix (toeplitz_plus_hankel_matrix M a0 a1 a2) M M (fun i j => dist i j <= 2) (toeplitz_hankel M a0 a1 a2).
Proof.
  intros HM. eapply is_matrix_ext; [exact (@tph_ok F SF M a0 a1 a2 HM)| |].
  - intros i j _ _. cbn. unfold dist. lia.
  - intros i j Hi Hj. unfold toeplitz_hankel, tph, dist.
    destruct (Nat.eqb_spec i j) as [->|]; [now rewrite Nat.sub_diag|].
    destruct (Nat.eqb_spec i (j + 1)), (Nat.eqb_spec j (i + 1)); cbn [orb];
      try (replace (i - j + (j - i)) with 1 by lia; reflexivity).
    destruct (Nat.eqb_spec i (j + 2)), (Nat.eqb_spec j (i + 2)); cbn [orb];
      try (replace (i - j + (j - i)) with 2 by lia; reflexivity).
    destruct (i - j + (j - i)) as [|[|[|d]]] eqn:E; [lia|lia|lia|reflexivity].
Qed.
Print Assumptions C32_toeplitz_plus_hankel_partial.

Theorem C32_toeplitz_plus_hankel_small_refuted {F} {SF : Scalar F} (M : nat) (a0 a1 a2 : F) :
  M < 4 -> toeplitz_plus_hankel_matrix M a0 a1 a2 = Abort.
Proof. exact (@tph_small F SF M a0 a1 a2). Qed.
Print Assumptions C32_toeplitz_plus_hankel_small_refuted.

(** ** band_matrix, asym_band_matrix: element (i,j) is 0 when |i - j| > W, [d] on the diagonal, [v] (resp. [u]
    above and [l] below) elsewhere; zero values are not stored. *)
Definition in_band (W : Z) (i j : nat) : bool := (Z.of_nat (dist i j) <=? W)%Z.
Definition band {F} {SF : Scalar F} (W : Z) (d u l : F) (i j : nat) : F :=
  if in_band W i j then (if i =? j then d else if i <? j then u else l) else f0.

Lemma in_band_abs W i j : in_band W i j = (Z.abs (Z.of_nat i - Z.of_nat j) <=? W)%Z.
Proof. unfold in_band, dist. f_equal. lia. Qed.

(** Missing from the full claim: diag_val = 0 with val <> 0 (C32_band_refuted). *)
Theorem C32_band_partial {F} {SF : Scalar F} (M N : nat) (W : Z) (d v : F) :
  (W < Z.of_nat N)%Z -> (Z.of_nat M + Z.abs W < 2 ^ 31)%Z ->
  (feqb d f0 = false \/ feqb v f0 = true) ->
  is_matrix (band_matrix M N W d v) M N
    (fun i j => in_band W i j = true /\ feqb (if i =? j then d else v) f0 = false)
    (fun i j => stored_value (band W d v v i j)).
Proof.
  intros HW HM Hdv. rewrite band_is_like.
  assert (Sz : feqb (f0 : F) f0 = true \/ feqb (f0 : F) f0 = false) by (destruct (feqb (f0 : F) f0); auto).
  eapply is_matrix_ext; [exact (@band_like_ok F SF M N W (band_pick d v) HW ltac:(lia))| |].
  - intros i j _ _. cbn beta. rewrite in_band_abs, Z.leb_le. unfold band_pick.
    destruct (Nat.eqb_spec i j) as [->|]; destruct (feqb d f0) eqn:Ed, (feqb v f0) eqn:Ev; cbn [andb negb];
      destruct Hdv as [Hdv|Hdv]; try discriminate; intuition congruence.
  - intros i j _ _. cbn beta. unfold band, stored_value. rewrite in_band_abs. unfold band_pick.
    destruct (Z.abs (Z.of_nat i - Z.of_nat j) <=? W)%Z.
    + destruct (Nat.eqb_spec i j) as [->|Hn].
      * destruct (feqb d f0) eqn:Ed; cbn [andb negb]; [|now rewrite ?Ed].
        destruct Hdv as [Hdv|Hdv]; [discriminate|]. rewrite Hdv. reflexivity.
      * cbn [andb]. destruct (i <? j); destruct (feqb v f0); reflexivity.
    + destruct ((i =? j) && negb (feqb d f0)), (negb (feqb v f0)); destruct Sz as [-> | ->]; reflexivity.
Qed.
Print Assumptions C32_band_partial.

(** a zero diagonal value is replaced by the off-diagonal value *)
Theorem C32_band_refuted : exists c : coo Z, band_matrix 3 3 1 0%Z 5%Z = Ok c /\
  coo_at c 0 0 = Ok 5%Z /\ band 1 0%Z 5%Z 5%Z 0 0 = 0%Z.
Proof. eexists. split; [vm_compute; reflexivity|]. split; vm_compute; reflexivity. Qed.
Print Assumptions C32_band_refuted.

Theorem C32_asym_band {F} {SF : Scalar F} (M N : nat) (W : Z) (d u l : F) :
  (W < Z.of_nat N)%Z -> (Z.of_nat M + Z.abs W < 2 ^ 31)%Z ->
  is_matrix (asym_band_matrix M N W d u l) M N
    (fun i j => in_band W i j = true /\ feqb (if i =? j then d else if i <? j then u else l) f0 = false)
    (fun i j => stored_value (band W d u l i j)).
Proof.
  intros HW HM. rewrite asym_is_like.
  assert (Sz : feqb (f0 : F) f0 = true \/ feqb (f0 : F) f0 = false) by (destruct (feqb (f0 : F) f0); auto).
  eapply is_matrix_ext; [exact (@band_like_ok F SF M N W (asym_pick d u l) HW ltac:(lia))| |].
  - intros i j _ _. cbn beta. rewrite in_band_abs, Z.leb_le. unfold asym_pick.
    destruct (Nat.eqb_spec i j) as [->|]; destruct (feqb d f0) eqn:Ed, (feqb u f0) eqn:Eu, (feqb l f0) eqn:El; cbn [andb negb];
      rewrite ?Nat.ltb_irrefl; try (destruct (Nat.ltb_spec i j), (Nat.ltb_spec j i); try lia); cbn [andb negb]; intuition congruence.
  - intros i j _ _. cbn beta. unfold band, stored_value. rewrite in_band_abs. unfold asym_pick.
    destruct (Z.abs (Z.of_nat i - Z.of_nat j) <=? W)%Z.
    + destruct (Nat.eqb_spec i j) as [->|Hn].
      * rewrite Nat.ltb_irrefl. destruct (feqb d f0); reflexivity.
      * cbn [andb]. destruct (Nat.ltb_spec i j), (Nat.ltb_spec j i); try lia; cbn [andb];
          destruct (feqb u f0), (feqb l f0); reflexivity.
    + destruct ((i =? j) && negb (feqb d f0)), ((i <? j) && negb (feqb u f0)), ((j <? i) && negb (feqb l f0));
        destruct Sz as [-> | ->]; reflexivity.
Qed.
Print Assumptions C32_asym_band.

(** a bandwidth that does not fit is rejected *)
Theorem C32_band_reject {F} {SF : Scalar F} (M N : nat) (W : Z) (d v u l : F) : (Z.of_nat N <= W)%Z ->
  band_matrix M N W d v = Throw /\ asym_band_matrix M N W d u l = Throw.
Proof. intros H. rewrite band_is_like, asym_is_like. split; apply band_like_throw; auto. Qed.
Print Assumptions C32_band_reject.

(** ** random structure.  [draw] is the sequence of values returned by the random engine: any sequence of
    columns.  Every terminating run gives exactly nnzrow elements in each row, all equal to val; no run fails; and
    the loop ends whenever every column keeps being drawn.  Missing: nnzrow = 0 or M = 0
    (C32_random_structure_empty_refuted), val = 0. *)
Definition keeps_drawing (N : nat) (draw : nat -> nat) : Prop :=
  forall col k, col < N -> exists k', k <= k' /\ draw k' = col.

Theorem C32_random_structure_matrix_partial {F} {SF : Scalar F} (draw : nat -> nat) (M N nnzrow : nat) (val : F) :
  feqb val f0 = false -> feqb (f0 : F) f0 = true -> (forall k, draw k < N) -> 0 < M -> 0 < nnzrow < N ->
  (forall fuel, match random_structure_matrix fuel draw M N nnzrow val with
     | Ok c => coo_ok c /\ c_row c = M /\ c_col c = N /\
         StronglySorted pos_lt (map fst (coo_entries c)) /\
         (forall i j v, In (i, j, v) (coo_entries c) -> i < M /\ j < N /\ v = val) /\
         (forall i, i < M -> length (filter (fun t => fst (fst t) =? i) (coo_entries c)) = nnzrow)
     | NoFuel => True   (* still drawing *)
     | _ => False end) /\
  (keeps_drawing N draw -> exists n c, forall fuel, n <= fuel -> random_structure_matrix fuel draw M N nnzrow val = Ok c).
Proof. exact (@random_matrix_ok F SF draw M N nnzrow val). Qed.
Print Assumptions C32_random_structure_matrix_partial.

Theorem C32_random_structure_reject {F} {SF : Scalar F} fuel draw (M N nnzrow : nat) (val : F) :
  N <= nnzrow -> random_structure_matrix fuel draw M N nnzrow val = Throw.
Proof. exact (@random_matrix_throw F SF fuel draw M N nnzrow val). Qed.
Print Assumptions C32_random_structure_reject.

Theorem C32_random_structure_empty_refuted {F} {SF : Scalar F} fuel draw (M N : nat) (val : F) : 0 < N ->
  exists c, random_structure_matrix fuel draw M N 0 val = Ok c /\ c_nnz c = 1 /\ coo_at c 0 0 = UB.
Proof. exact (@random_matrix_empty F SF fuel draw M N val). Qed.
Print Assumptions C32_random_structure_empty_refuted.

(** the tensor versions: [lead] are all dimensions but the last; every line along the last dimension holds exactly
    nnzrow elements *)
Definition random_tensor {F} {SF : Scalar F} (lead : list nat) (L nnzrow : nat) (val : F) (q : tcoo F) : Prop :=
  tc_ok q /\ q_shape q = lead ++ [L] /\ tc_inside q /\
  StronglySorted lex_lt (map fst (tc_entries q)) /\
  (forall p v, In (p, v) (tc_entries q) -> v = val) /\
  forall p, inside lead p ->
    length (filter (fun e => if list_eq_dec Nat.eq_dec (removelast (fst e)) p then true else false) (tc_entries q)) = nnzrow.

Theorem C32_random_structure_tensor_partial {F} {SF : Scalar F} (draw : nat -> nat) (K M N L nnzrow : nat) (val : F) :
  feqb val f0 = false -> feqb (f0 : F) f0 = true -> (forall k, draw k < L) -> 0 < nnzrow < L ->
  0 < K -> 0 < M -> 0 < N -> (Z.of_nat K * Z.of_nat M * Z.of_nat N * Z.of_nat L <= 2 ^ 31)%Z ->
  ((forall fuel, match random_structure_tensor2 fuel draw M L nnzrow val with
      | Ok q => random_tensor [M] L nnzrow val q | NoFuel => True | _ => False end) /\
   (keeps_drawing L draw -> exists n q, forall fuel, n <= fuel -> random_structure_tensor2 fuel draw M L nnzrow val = Ok q)) /\
  ((forall fuel, match random_structure_tensor3 fuel draw M N L nnzrow val with
      | Ok q => random_tensor [M; N] L nnzrow val q | NoFuel => True | _ => False end) /\
   (keeps_drawing L draw -> exists n q, forall fuel, n <= fuel -> random_structure_tensor3 fuel draw M N L nnzrow val = Ok q)) /\
  ((forall fuel, match random_structure_tensor4 fuel draw K M N L nnzrow val with
      | Ok q => random_tensor [K; M; N] L nnzrow val q | NoFuel => True | _ => False end) /\
   (keeps_drawing L draw -> exists n q, forall fuel, n <= fuel -> random_structure_tensor4 fuel draw K M N L nnzrow val = Ok q)).
Proof.
  intros Hv H00 Hd Hn HK HM HN Hfit.
  split; [apply random_tensor2_ok|split; [apply random_tensor3_ok|apply random_tensor4_ok]]; auto;
    unfold fits_int; cbn [prod]; nia.
Qed.
Print Assumptions C32_random_structure_tensor_partial.

(** ** concrete cases *)
Definition show (r : res (coo Z)) : res (list (nat * nat * Z)) := c <- r ;; Ok (coo_entries c).

Example C32_example :
  show (eye 2) = Ok [(0,0,1%Z); (1,1,1%Z)] /\
  show (frank_matrix 3) = Ok [(0,0,3%Z);(0,1,2%Z);(0,2,1%Z);(1,0,2%Z);(1,1,2%Z);(1,2,1%Z);(2,0,1%Z);(2,1,1%Z);(2,2,1%Z)] /\
  show (laplacian_matrix_1D 3) = Ok [(0,0,2%Z);(0,1,(-1)%Z);(1,0,(-1)%Z);(1,1,2%Z);(1,2,(-1)%Z);(2,1,(-1)%Z);(2,2,2%Z)] /\
  show (laplacian_matrix_2D_5p 2 2) = Ok [(0,0,4%Z);(0,1,(-1)%Z);(0,2,(-1)%Z);(1,0,(-1)%Z);(1,1,4%Z);(1,3,(-1)%Z);
     (2,0,(-1)%Z);(2,2,4%Z);(2,3,(-1)%Z);(3,1,(-1)%Z);(3,2,(-1)%Z);(3,3,4%Z)] /\
  show (toeplitz_plus_hankel_matrix 4 9%Z 5%Z 2%Z) = Ok [(0,0,7%Z);(0,1,5%Z);(0,2,2%Z);(1,0,5%Z);(1,1,9%Z);(1,2,5%Z);(1,3,2%Z);
     (2,0,2%Z);(2,1,5%Z);(2,2,9%Z);(2,3,5%Z);(3,1,2%Z);(3,2,5%Z);(3,3,7%Z)] /\
  show (asym_band_matrix 2 3 1 0%Z 7%Z 8%Z) = Ok [(0,1,7%Z);(1,0,8%Z);(1,2,7%Z)].
Proof. repeat split; vm_compute; reflexivity. Qed.

(** a run of the random generator: the column 1 is drawn twice for row 0 *)
Example C32_random_example :
  let draw k := nth k [1;1;2;0;2] 0 in
  show (random_structure_matrix 10 draw 2 3 2 5%Z) = Ok [(0,1,5%Z);(0,2,5%Z);(1,0,5%Z);(1,2,5%Z)] /\
  (forall k, draw k < 3) /\ feqb 5%Z f0 = false.
Proof.
  intros draw. split; [vm_compute; reflexivity|]. split; [|reflexivity].
  intros k. unfold draw. do 5 (destruct k as [|k]; [cbn; lia|]). destruct k; cbn; lia.
Qed.
(** a sequence that keeps drawing every column *)
Example C32_fair_example : keeps_drawing 3 (fun k => k mod 3) /\ forall k, k mod 3 < 3.
Proof.
  split; [|intros; apply Nat.mod_upper_bound; lia].
  intros col k Hc. exists (k * 3 + col). split; [lia|]. rewrite Nat.add_comm, Nat.mod_add by lia. apply Nat.mod_small. auto.
Qed.

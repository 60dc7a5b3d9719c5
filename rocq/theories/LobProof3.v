(** * LobProof3: an accepted step with info = 0 gives orthonormal Ritz vectors (proof support for C74, C75). *)
From Coq Require Import Ring.
From Verif Require Import Base Scalar Spec SumFacts SolverModel SolverSpec SolverProof LobModel LobSpec LobProof LobProof2.
Set Implicit Arguments.

Section Ritz.
Context {F : Type} {SF : Scalar F}.
Local Open Scope F_scope.
Hypothesis Hex : exact SF.
Let Hrt : ring_theory f0 f1 fadd fmul fsub fopp (@eq F) := Hex.
Add Ring FringLob4 : Hrt.
Hypothesis Hone : fsqrt 1 = 1 /\ 1 / 1 = (1 : F).
Variables (pre : list F -> list F -> res (list F)) (sygvd : sygvd_t (F:=F)).
Variables (m n : nat) (M : nat -> nat -> F).
Hypothesis Hsym : symmetric n M.
Hypothesis Hlap : lapack_info0 sygvd.
Local Notation linv := (linv m n M).

Lemma sum_split a b (f : nat -> F) : sum_n (a + b) f = sum_n a f + sum_n b (fun i => f (a + i)%nat).
Proof.
  induction b as [|b IH]; cbn [sum_n].
  - rewrite Nat.add_0_r. ring.
  - rewrite Nat.add_succ_r. cbn [sum_n]. rewrite IH. ring.
Qed.

Lemma ritz_basis small st V i b k : linv st -> coeffs m small V i = Ok b ->
  ritz m small st b k = sum_n (dim m small) (fun r => rowf V i r * rowf (basis small st) r k).
Proof.
  intros ((w1 & _) & (x1 & _) & (p1 & _) & _) Hb. destruct (coeffs_inv _ _ _ _ Hb) as (_ & _ & _ & EV & EZ).
  destruct w1 as (wl & _), x1 as (xl & _), p1 as (pl & _).
  unfold ritz, dim, basis. destruct small.
  - replace (2 * m)%nat with (m + m)%nat by lia. rewrite sum_split, <- (sum_add Hex). apply sum_ext. intros j Hj.
    rewrite <- !EV by lia. rewrite rowf_app1 by lia. rewrite (@rowf_app2' F SF _ _ m) by auto. ring.
  - replace (3 * m)%nat with (m + (m + m))%nat by lia. rewrite !sum_split, <- !(sum_add Hex). apply sum_ext. intros j Hj.
    rewrite <- !EV by lia. rewrite rowf_app1 by lia. rewrite !(@rowf_app2' F SF _ _ m) by auto.
    rewrite rowf_app1 by lia.
    replace (m + (m + j))%nat with (2 * m + j)%nat by lia. ring.
Qed.

Lemma dotp_lin n' k (a b : nat -> F) (q Q : nat -> nat -> F) :
  dotp n' (fun t => sum_n k (fun r => a r * q r t)) (fun t => sum_n k (fun s => b s * Q s t)) =
  sum_n k (fun r => a r * sum_n k (fun s => dotp n' (q r) (Q s) * b s)).
Proof.
  unfold dotp.
  transitivity (sum_n n' (fun t => sum_n k (fun r => sum_n k (fun s => a r * (q r t * Q s t * b s))))).
  { apply sum_ext. intros t Ht. rewrite <- (sum_scal_r Hex). apply sum_ext. intros r Hr. rewrite <- (sum_scal Hex). apply sum_ext. intros s Hs. ring. }
  rewrite (sum_swap Hex). apply sum_ext. intros r Hr. rewrite (sum_swap Hex).
  rewrite <- (sum_scal Hex). apply sum_ext. intros s Hs. rewrite (sum_scal Hex). f_equal. now rewrite (sum_scal_r Hex).
Qed.

Lemma dotp_ext' n' (u v u' v' : nat -> F) : (forall i, (i < n')%nat -> u i = u' i) -> (forall i, (i < n')%nat -> v i = v' i) -> dotp n' u v = dotp n' u' v'.
Proof. intros H1 H2. unfold dotp. apply sum_ext. intros i Hi. now rewrite H1, H2. Qed.
Lemma dotp_comm' n' (u v : nat -> F) : dotp n' u v = dotp n' v u.
Proof. unfold dotp. apply sum_ext. intros; ring. Qed.

Lemma sym_swap (u v : nat -> F) : dotp n (mv n M u) v = dotp n u (mv n M v).
Proof.
  rewrite (adjoint Hex). apply dotp_ext'; auto. intros i Hi. unfold mv. apply sum_ext. intros j Hj. now rewrite Hsym.
Qed.

(** the facts about a step whose ?sygvd call returned info = 0 *)
Record ritz_pairs (st : lst (F:=F)) (small : bool) (l : list F) (X : list (list F)) (lam : list F) (V : list (list F)) : Prop := {
  rp_dec : exists Sa Sb, shaped (dim m small) (dim m small) Sa /\ shaped (dim m small) (dim m small) Sb /\
    decomposes (dim m small) Sa Sb lam V /\
    (forall i j, (i < dim m small)%nat -> (j < dim m small)%nat -> rowf Sb i j = dotp n (rowf (basis small st) i) (rowf (basis small st) j)) /\
    (forall i j, (i < dim m small)%nat -> (j < dim m small)%nat -> rowf Sa i j = dotp n (mv n M (rowf (basis small st) i)) (rowf (basis small st) j));
  rp_x : forall i k, (i < m)%nat -> (k < n)%nat -> rowf X i k = sum_n (dim m small) (fun r => rowf V i r * rowf (basis small st) r k);
  rp_l : forall i, (i < m)%nat -> fn l i = fn lam i;
  rp_orth : orthonormal m n X;
  rp_ritz : forall i j, (i < m)%nat -> (j < m)%nat -> dotp n (rowf X i) (mv n M (rowf X j)) = if (i =? j)%nat then fn l i else 0
}.

Lemma quad_ext k S (u v u' v' : nat -> F) : (forall i, (i < k)%nat -> u i = u' i) -> (forall i, (i < k)%nat -> v i = v' i) -> quad k S u v = quad k S u' v'.
Proof.
  intros H1 H2. unfold quad. apply sum_ext. intros r Hr. rewrite H1 by auto. f_equal. apply sum_ext. intros s Hs. now rewrite H2.
Qed.

Lemma dim_ge small : (m <= dim m small)%nat.
Proof. unfold dim. destruct small; lia. Qed.

Lemma step_ritz small call st l X rs : linv st -> step pre sygvd m n M small call st l X rs 0%Z ->
  exists lam V, ritz_pairs st small l X lam V.
Proof.
  intros Hst (Sa & Sb & lam & V & Ea & Eb & Es & _ & _ & Hd).
  destruct (basis_images small Hst) as (B1 & B2 & B3).
  destruct (gram_ok Hex B2 B1) as (Sa' & Ea' & Ha & Va). rewrite Ea in Ea'. injection Ea' as <-.
  destruct (gram_ok Hex B1 B1) as (Sb' & Eb' & Hb & Vb). rewrite Eb in Eb'. injection Eb' as <-.
  set (d := dim m small) in *. set (q := rowf (basis small st)) in *.
  assert (Va' : forall i j, (i < d)%nat -> (j < d)%nat -> rowf Sa i j = dotp n (mv n M (q i)) (q j)).
  { intros i j Hi Hj. rewrite Va by auto. apply dotp_ext'; [|auto]. intros k Hk. now apply B3. }
  assert (Dec : decomposes d Sa Sb lam V).
  { eapply Hlap; [| |exact Es|reflexivity]; (split; [assumption|]); intros i j Hi Hj.
    - rewrite !Va' by auto. rewrite sym_swap. apply dotp_comm'.
    - rewrite !Vb by auto. apply dotp_comm'. }
  destruct Dec as (D1 & D2 & D3 & D4 & D5). pose proof (dim_ge small) as Hdim. fold d in Hdim.
  assert (Rz : forall i b k, coeffs m small V i = Ok b -> ritz m small st b k = sum_n d (fun r => rowf V i r * q r k)).
  { intros i b k Hb'. now apply ritz_basis. }
  assert (QB : forall i j, dotp n (fun t => sum_n d (fun r => rowf V i r * q r t)) (fun t => sum_n d (fun r => rowf V j r * q r t)) = quad d Sb (rowf V i) (rowf V j)).
  { intros i j. rewrite dotp_lin. unfold quad. apply sum_ext. intros r Hr. f_equal. apply sum_ext. intros s Hs. now rewrite Vb. }
  assert (EX : forall i k, (i < m)%nat -> (k < n)%nat -> rowf X i k = sum_n d (fun r => rowf V i r * q r k)).
  { intros i k Hi Hk. destruct (Hd i Hi) as (_ & _ & _ & b & Hb' & E). rewrite E by auto. rewrite (Rz i b k Hb').
    assert (En : norm2 n (ritz m small st b) = 1).
    { unfold norm2. rewrite <- (proj1 Hone). f_equal.
      transitivity (dotp n (fun t => sum_n d (fun r => rowf V i r * q r t)) (fun t => sum_n d (fun r => rowf V i r * q r t))).
      - unfold dotp. apply sum_ext. intros t Ht. now rewrite (Rz i b t Hb').
      - rewrite QB, D4 by lia. now rewrite Nat.eqb_refl. }
    rewrite En, (proj2 Hone). ring. }
  assert (Hl : forall i, (i < m)%nat -> fn l i = fn lam i) by (intros i Hi; apply (Hd i Hi)).
  exists lam, V. constructor; auto.
  - exists Sa, Sb. do 2 (split; auto). split; [|split; auto]. unfold decomposes. auto.
  - intros i j Hi Hj. rewrite (@dotp_ext' n _ _ _ _ (fun k => EX i k Hi) (fun k => EX j k Hj)). rewrite QB, D4 by lia. reflexivity.
  - intros i j Hi Hj.
    transitivity (quad d Sa (rowf V j) (rowf V i)).
    + rewrite dotp_comm'. rewrite (@dotp_ext' n (mv n M (rowf X j)) (rowf X i) (fun t => sum_n d (fun r => rowf V j r * mv n M (q r) t)) (fun t => sum_n d (fun r => rowf V i r * q r t))).
      * rewrite dotp_lin. unfold quad. apply sum_ext. intros r Hr. f_equal. apply sum_ext. intros s Hs. now rewrite Va'.
      * intros k Hk. rewrite (@mv_ext F SF n M _ _ k (fun k => EX j k Hj)). rewrite (mv_sum Hex). apply sum_ext. intros r Hr. now rewrite (mv_scal Hex).
      * intros k Hk. now apply EX.
    + assert (Es' : forall r s, (r < d)%nat -> (s < d)%nat -> rowf Sa r s = rowf Sa s r).
      { intros r s Hr Hs. rewrite !Va' by auto. rewrite sym_swap. apply dotp_comm'. }
      assert (Eb' : forall r s, (r < d)%nat -> (s < d)%nat -> rowf Sb r s = rowf Sb s r).
      { intros r s Hr Hs. rewrite !Vb by auto. apply dotp_comm'. }
      transitivity (sum_n d (fun r => rowf V j r * (fn lam i * mv d (rowf Sb) (rowf V i) r))).
      * unfold quad. apply sum_ext. intros r Hr. f_equal. exact (D5 i r ltac:(lia) Hr).
      * transitivity (fn lam i * quad d Sb (rowf V j) (rowf V i)).
        { unfold quad. rewrite <- (sum_scal Hex). apply sum_ext. intros r Hr. unfold mv. ring. }
        rewrite D4 by lia. rewrite Hl by auto. rewrite (Nat.eqb_sym j i). destruct (i =? j)%nat; ring.
Qed.
End Ritz.

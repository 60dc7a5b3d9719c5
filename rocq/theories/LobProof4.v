(** * LobProof4: Rayleigh-Ritz over an ordered field (proof support for C73-C75, C80). *)
From Coq Require Import Ring.
From Verif Require Import Base Scalar Spec SumFacts SolverModel SolverSpec SolverProof CgProof LobModel LobSpec LobProof LobProof2 LobProof3 LobGen.
Set Implicit Arguments.

Section Ordered.
Context {F : Type} {SF : Scalar F}.
Local Open Scope F_scope.
Hypothesis Ho : ordered_field (F:=F).
Let Hex : exact SF := of_ring Ho.
Let Hrt : ring_theory f0 f1 fadd fmul fsub fopp (@eq F) := Hex.
Add Ring FringOrd : Hrt.
Local Notation "a << b" := (fltb a b = true) (at level 70).
Local Notation "a <<= b" := (leq a b) (at level 70).

Lemma ltle a b : a << b -> a <<= b.
Proof.
  intros H. unfold leq. destruct (fltb b a) eqn:E; auto. pose proof (of_trans Ho _ _ _ H E) as G. now rewrite (of_irr Ho) in G.
Qed.
Lemma le_refl a : a <<= a.
Proof. apply (of_irr Ho). Qed.
Lemma le_cases a b : a <<= b -> a << b \/ a = b.
Proof. intros H. destruct (of_tri Ho a b) as [G|[G|G]]; auto. unfold leq in H. congruence. Qed.
Lemma lt_or_le a b : a << b \/ b <<= a.
Proof. unfold leq. destruct (fltb a b); auto. Qed.
Lemma lt_not_le a b : a << b -> b <<= a -> False.
Proof. unfold leq. congruence. Qed.
Lemma le_trans' a b c : a <<= b -> b <<= c -> a <<= c.
Proof.
  intros H1 H2. destruct (le_cases H1) as [G1| -> ]; auto. destruct (le_cases H2) as [G2| <- ]; auto.
  apply ltle. eapply (of_trans Ho); eauto.
Qed.
Lemma lt_le_trans' a b c : a << b -> b <<= c -> a << c.
Proof. intros H1 H2. destruct (le_cases H2) as [G2| <- ]; auto. eapply (of_trans Ho); eauto. Qed.
Lemma le_lt_trans' a b c : a <<= b -> b << c -> a << c.
Proof. intros H1 H2. destruct (le_cases H1) as [G2| -> ]; auto. eapply (of_trans Ho); eauto. Qed.
Lemma le_add_r a b c : a <<= b -> a + c <<= b + c.
Proof. intros H. destruct (le_cases H) as [G| -> ]; [apply ltle; now apply (of_add Ho)|apply le_refl]. Qed.
Lemma le_add a b c d : a <<= b -> c <<= d -> a + c <<= b + d.
Proof.
  intros H1 H2. apply le_trans' with (b + c); [now apply le_add_r|].
  replace (b + c) with (c + b) by ring. replace (b + d) with (d + b) by ring. now apply le_add_r.
Qed.
Lemma le_sub a b : a <<= b <-> 0 <<= b - a.
Proof.
  split; intros H.
  - replace (0 : F) with (a + - a) by ring. replace (b - a) with (b + - a) by ring. now apply le_add_r.
  - replace a with (0 + a) by ring. replace b with ((b - a) + a) by ring. now apply le_add_r.
Qed.
Lemma lt_sub a b : a << b <-> 0 << b - a.
Proof.
  split; intros H.
  - replace (0 : F) with (a + - a) by ring. replace (b - a) with (b + - a) by ring. now apply (of_add Ho).
  - replace a with (0 + a) by ring. replace b with ((b - a) + a) by ring. now apply (of_add Ho).
Qed.
Lemma le_mul a b : 0 <<= a -> 0 <<= b -> 0 <<= a * b.
Proof.
  intros H1 H2. destruct (le_cases H1) as [G1| <- ]; [|replace (0 * b) with (0 : F) by ring; apply le_refl].
  destruct (le_cases H2) as [G2| <- ]; [|replace (a * 0) with (0 : F) by ring; apply le_refl]. apply ltle. now apply (of_mul Ho).
Qed.
Lemma neg_pos a : a << 0 -> 0 << - a.
Proof. intros H. apply lt_sub in H. replace (- a) with (0 - a) by ring. exact H. Qed.
Lemma sq_pos a : a <> 0 -> 0 << a * a.
Proof.
  intros H. destruct (of_tri Ho 0 a) as [G|[G|G]]; [now apply (of_mul Ho)|congruence|].
  replace (a * a) with ((- a) * (- a)) by ring. apply neg_pos in G. now apply (of_mul Ho).
Qed.
Lemma F_eq_dec (a b : F) : a = b \/ a <> b.
Proof.
  destruct (of_tri Ho a b) as [H|[H|H]]; [right|left; auto|right]; intros ->; now rewrite (of_irr Ho) in H.
Qed.
Lemma sq_nonneg a : 0 <<= a * a.
Proof.
  destruct (F_eq_dec a 0) as [ -> |H]; [replace (0 * 0) with (0 : F) by ring; apply le_refl|apply ltle; now apply sq_pos].
Qed.
Lemma one_zero : (1 : F) <> 0.
Proof. intros E. pose proof (of_01 Ho) as H. rewrite E, (of_irr Ho) in H. discriminate. Qed.
Lemma le_mul_l a b c : 0 <<= a -> b <<= c -> a * b <<= a * c.
Proof. intros H1 H2. apply le_sub. replace (a * c - a * b) with (a * (c - b)) by ring. apply le_mul; auto. now apply le_sub in H2. Qed.

Lemma sumF_nonneg n f : (forall i, (i < n)%nat -> 0 <<= f i) -> 0 <<= sum_n n f.
Proof.
  induction n as [|n IH]; intros H; cbn [sum_n]; [apply le_refl|].
  replace (0 : F) with (0 + 0 : F) by ring. apply le_add; auto.
Qed.
Lemma sumF_le n f g : (forall i, (i < n)%nat -> f i <<= g i) -> sum_n n f <<= sum_n n g.
Proof. induction n as [|n IH]; intros H; cbn [sum_n]; [apply le_refl|]. apply le_add; auto. Qed.
Lemma sumF_pos n (c : nat -> F) s : (s < n)%nat -> c s <> 0 -> 0 << sum_n n (fun i => c i * c i).
Proof.
  intros Hs Hc. pose proof (sq_pos Hc) as Hp.
  induction n as [|n IH]; [lia|]. cbn [sum_n].
  destruct (Nat.eq_dec s n) as [ -> |Hne].
  - apply lt_le_trans' with (c n * c n); auto. apply le_sub. match goal with |- _ <<= ?e => replace e with (sum_n n (fun i => c i * c i)) by ring end.
    apply sumF_nonneg. intros; apply sq_nonneg.
  - apply lt_le_trans' with (sum_n n (fun i => c i * c i)); [apply IH; lia|]. apply le_sub.
    match goal with |- _ <<= ?e => replace e with (c n * c n) by ring end. apply sq_nonneg.
Qed.

Lemma sum_delta' n k (g : nat -> F) : sum_n n (fun i => if (i =? k)%nat then g i else 0) = if (k <? n)%nat then g k else 0.
Proof.
  induction n as [|n IH]; cbn [sum_n]; [reflexivity|]. rewrite IH.
  destruct (Nat.eqb_spec n k) as [ -> |Hne].
  - rewrite Nat.ltb_irrefl, (proj2 (Nat.ltb_lt k (S k))) by lia. ring.
  - destruct (Nat.ltb_spec k n), (Nat.ltb_spec k (S n)); try lia; ring.
Qed.

(** p > k vectors of F^k are dependent *)
Lemma dependent_fn k p (e : nat -> nat -> F) : (k < p)%nat ->
  exists c : nat -> F, (exists s, (s < p)%nat /\ c s <> 0) /\ forall i, (i < k)%nat -> sum_n p (fun s => c s * e s i) = 0.
Proof.
  intros H. destruct (@dependent F SF Hex (of_field Ho) k one_zero (map e (seq 0 p))) as (cs & HL & (c & Hc & Hcz) & HZ).
  { now rewrite map_length, seq_length. }
  rewrite map_length, seq_length in HL. exists (fun s => nth s cs 0). split.
  - destruct (In_nth cs c 0 Hc) as (s & Hs & <-). exists s. split; [lia|auto].
  - intros i Hi. transitivity (comb cs (map e (seq 0 p)) i); [|exact (HZ i Hi)]. clear -HL Hex Hrt. revert e cs HL.
    assert (G : forall p a (e : nat -> nat -> F) cs, length cs = p -> sum_n p (fun s => nth s cs 0 * e (a + s)%nat i) = comb cs (map e (seq a p)) i).
    { clear p. induction p as [|p IH]; intros a e cs HL; destruct cs as [|c cs]; cbn in HL; try discriminate; [reflexivity|].
      cbn [seq map comb]. rewrite <- (IH (S a) e cs) by lia.
      replace (S p) with (1 + p)%nat by lia. rewrite (sum_split Hex). cbn [sum_n nth Nat.add].
      rewrite Nat.add_0_r. rewrite (@sum_ext F SF p (fun i0 => nth i0 cs 0 * e (a + S i0)%nat i) (fun s => nth s cs 0 * e (S (a + s)) i)); [ring|].
      intros j Hj. now rewrite Nat.add_succ_r. }
    intros e cs HL. apply (G p 0%nat e cs HL).
Qed.

Lemma form_diag k S p (e : nat -> nat -> F) d c :
  (forall s t, (s < p)%nat -> (t < p)%nat -> dotp k (e s) (mv k S (e t)) = if (s =? t)%nat then d s else 0) ->
  dotp k (fun i => sum_n p (fun s => c s * e s i)) (mv k S (fun i => sum_n p (fun s => c s * e s i))) = sum_n p (fun s => c s * c s * d s).
Proof.
  intros H.
  rewrite (@dotp_ext' F SF k _ (mv k S (fun i => sum_n p (fun s => c s * e s i))) (fun i => sum_n p (fun s => c s * e s i)) (fun t => sum_n p (fun s => c s * mv k S (e s) t))); auto.
  - rewrite (dotp_lin Hex). apply sum_ext. intros s Hs.
    transitivity (c s * (d s * c s)); [|ring]. f_equal.
    rewrite (@sum_ext F SF p _ (fun t => if (t =? s)%nat then d s * c s else 0)).
    + rewrite sum_delta'. now rewrite (proj2 (Nat.ltb_lt _ _) Hs).
    + intros t Ht. rewrite H by auto. rewrite (Nat.eqb_sym s t). destruct (Nat.eqb_spec t s) as [ -> |]; ring.
  - intros t Ht. rewrite (mv_sum Hex). apply sum_ext. intros s Hs. apply (mv_scal Hex).
Qed.

Lemma interlace k Sa Sb p1 (e : nat -> nat -> F) (l : nat -> F) p2 (v : nat -> nat -> F) (la : nat -> F) L Lam :
  (k < p1 + p2)%nat ->
  (forall s t, (s < p1)%nat -> (t < p1)%nat -> dotp k (e s) (mv k Sb (e t)) = if (s =? t)%nat then 1 else 0) ->
  (forall s t, (s < p1)%nat -> (t < p1)%nat -> dotp k (e s) (mv k Sa (e t)) = if (s =? t)%nat then l s else 0) ->
  (forall s t, (s < p2)%nat -> (t < p2)%nat -> dotp k (v s) (mv k Sb (v t)) = if (s =? t)%nat then 1 else 0) ->
  (forall s t, (s < p2)%nat -> (t < p2)%nat -> dotp k (v s) (mv k Sa (v t)) = if (s =? t)%nat then la s else 0) ->
  (forall s, (s < p1)%nat -> l s <<= L) -> (forall s, (s < p2)%nat -> Lam <<= la s) -> Lam <<= L.
Proof.
  intros Hk Eb Ea Vb Va HL HLam.
  destruct (@dependent_fn k (p1 + p2) (fun s => if (s <? p1)%nat then e s else v (s - p1)%nat) Hk) as (c & (s & Hs & Hc) & HZ).
  set (c2 := fun t => c (p1 + t)%nat).
  assert (HZ' : forall i, (i < k)%nat -> sum_n p1 (fun s => c s * e s i) = - sum_n p2 (fun t => c2 t * v t i)).
  { intros i Hi. specialize (HZ i Hi). rewrite (sum_split Hex) in HZ.
    rewrite (@sum_ext F SF p1 _ (fun s => c s * e s i)) in HZ by (intros j Hj; now rewrite (proj2 (Nat.ltb_lt _ _) Hj)).
    rewrite (@sum_ext F SF p2 _ (fun t => c2 t * v t i)) in HZ.
    - match goal with |- ?a = - ?b => transitivity ((a + b) - b); [ring|rewrite HZ; ring] end.
    - intros j Hj. rewrite (proj2 (Nat.ltb_ge _ _)) by lia. unfold c2. now replace (p1 + j - p1)%nat with j by lia. }
  assert (Form : forall S, dotp k (fun i => sum_n p1 (fun s => c s * e s i)) (mv k S (fun i => sum_n p1 (fun s => c s * e s i))) =
                 dotp k (fun i => sum_n p2 (fun t => c2 t * v t i)) (mv k S (fun i => sum_n p2 (fun t => c2 t * v t i)))).
  { intros S. transitivity (dotp k (fun i => - sum_n p2 (fun t => c2 t * v t i)) (fun i => - mv k S (fun i => sum_n p2 (fun t => c2 t * v t i)) i)).
    - apply dotp_ext'; [exact HZ'|]. intros i Hi. rewrite (@mv_ext F SF k S _ _ i HZ').
      unfold mv. transitivity (- (1) * sum_n k (fun j => S i j * sum_n p2 (fun t => c2 t * v t j))); [|ring].
      rewrite <- (sum_scal Hex). apply sum_ext. intros j Hj. ring.
    - unfold dotp. apply sum_ext. intros i Hi. ring. }
  pose proof (Form Sb) as F1. rewrite (@form_diag k Sb p1 e (fun _ => 1) c Eb), (@form_diag k Sb p2 v (fun _ => 1) c2 Vb) in F1.
  pose proof (Form Sa) as F2. rewrite (@form_diag k Sa p1 e l c Ea), (@form_diag k Sa p2 v la c2 Va) in F2.
  set (N1 := sum_n p1 (fun s => c s * c s)). set (N2 := sum_n p2 (fun s => c2 s * c2 s)).
  assert (E1 : sum_n p1 (fun s => c s * c s * 1) = N1) by (apply sum_ext; intros; ring).
  assert (E2 : sum_n p2 (fun s => c2 s * c2 s * 1) = N2) by (apply sum_ext; intros; ring).
  rewrite E1, E2 in F1.
  assert (Hpos : 0 << N1).
  { destruct (Nat.lt_ge_cases s p1) as [H|H].
    - apply (@sumF_pos p1 c s); auto.
    - rewrite F1. apply (@sumF_pos p2 c2 (s - p1)); [lia|]. unfold c2. now replace (p1 + (s - p1))%nat with s by lia. }
  assert (U : sum_n p1 (fun s => c s * c s * l s) <<= L * N1).
  { unfold N1. rewrite <- (sum_scal Hex). apply sumF_le. intros i Hi. replace (L * (c i * c i)) with ((c i * c i) * L) by ring.
    apply le_mul_l; [apply sq_nonneg|auto]. }
  assert (D : Lam * N2 <<= sum_n p2 (fun s => c2 s * c2 s * la s)).
  { unfold N2. rewrite <- (sum_scal Hex). apply sumF_le. intros i Hi. replace (Lam * (c2 i * c2 i)) with ((c2 i * c2 i) * Lam) by ring.
    apply le_mul_l; [apply sq_nonneg|auto]. }
  rewrite F2 in U. rewrite <- F1 in D. pose proof (le_trans' D U) as G.
  destruct (lt_or_le L Lam) as [Hc'|]; auto. exfalso. apply lt_sub in Hc'. pose proof (of_mul Ho _ _ Hc' Hpos) as P.
  apply le_sub in G. apply (@lt_not_le 0 ((Lam - L) * N1)); auto.
  apply le_sub. replace (0 - (Lam - L) * N1) with (L * N1 - Lam * N1) by ring. exact G.
Qed.

(** the unit vector *)
Definition unitv (a i : nat) : F := if (i =? a)%nat then 1 else 0.
Lemma form_unit k (S : nat -> nat -> F) a b : (a < k)%nat -> (b < k)%nat -> dotp k (unitv a) (mv k S (unitv b)) = S a b.
Proof.
  intros Ha Hb. unfold dotp. rewrite (@sum_ext F SF k _ (fun i => if (i =? a)%nat then mv k S (unitv b) a else 0)).
  - rewrite sum_delta', (proj2 (Nat.ltb_lt _ _) Ha). unfold mv.
    rewrite (@sum_ext F SF k _ (fun j => if (j =? b)%nat then S a b else 0)).
    + now rewrite sum_delta', (proj2 (Nat.ltb_lt _ _) Hb).
    + intros j Hj. unfold unitv. destruct (Nat.eqb_spec j b) as [ -> |]; ring.
  - intros i Hi. unfold unitv at 1. destruct (Nat.eqb_spec i a) as [ -> |]; ring.
Qed.

Lemma asc_le (l : list F) i j : ascending l -> (i <= j < length l)%nat -> fn l i <<= fn l j.
Proof.
  intros H Hij. destruct (Nat.eq_dec i j) as [ -> |]; [apply le_refl|]. apply H. lia.
Qed.

Section Mono.
Variables (m n : nat) (M : nat -> nat -> F).
Hypothesis Hsym : symmetric n M.

Lemma quad_form k S (u v : nat -> F) : quad k S u v = dotp k u (mv k (rowf S) v).
Proof. reflexivity. Qed.

(** every eigenvalue estimate is at most the one of the step before *)
Lemma mono_step st0 small0 lam0 V0 st small l X lam V : linv m n M st ->
  ritz_pairs m n M st0 small0 (g_l st) (g_x st) lam0 V0 -> ritz_pairs m n M st small l X lam V ->
  forall i, (i < m)%nat -> fn l i <<= fn (g_l st) i.
Proof.
  intros Hst R0 R1 i Hi. destruct (rp_dec R1) as (Sa & Sb & Ha & Hb & Dec & Vb & Va).
  destruct Dec as (D1 & D2 & D3 & D4 & D5). set (k := dim m small) in *.
  assert (Hk : (2 * m <= k)%nat) by (unfold k, dim; destruct small; lia).
  destruct (rp_dec R0) as (Sa0 & Sb0 & _ & _ & (D10 & _ & D30 & _) & _).
  assert (Bx : forall s, (s < m)%nat -> rowf (basis small st) (m + s) = rowf (g_x st) s).
  { intros s Hs. destruct Hst as (((wl & _) & _) & ((xl & _) & _) & _). unfold basis.
    destruct small; rewrite (@rowf_app2' F SF _ _ m) by auto; auto. rewrite rowf_app1 by lia. reflexivity. }
  pose proof (dim_ge m small0) as Hdim0.
  apply (@interlace k (rowf Sa) (rowf Sb) (S i) (fun s => unitv (m + s)) (fun s => fn (g_l st) s) (k - i)
    (fun t => rowf V (i + t)) (fun t => fn lam (i + t))); try lia.
  - intros s t Hs Ht. rewrite form_unit by lia. rewrite Vb by lia. rewrite !Bx by lia. apply (rp_orth R0); lia.
  - intros s t Hs Ht. rewrite form_unit by lia. rewrite Va by lia. rewrite !Bx by lia. rewrite (sym_swap Hex Hsym). apply (rp_ritz R0); lia.
  - intros s t Hs Ht. rewrite <- quad_form. rewrite D4 by lia. destruct (Nat.eqb_spec (i + s) (i + t)), (Nat.eqb_spec s t); auto; lia.
  - intros s t Hs Ht.
    transitivity (fn lam (i + t) * quad k Sb (rowf V (i + s)) (rowf V (i + t))).
    + rewrite quad_form. unfold dotp. rewrite <- (sum_scal Hex). apply sum_ext. intros r Hr.
      rewrite (D5 (i + t)%nat r) by lia. ring.
    + rewrite D4 by lia. destruct (Nat.eqb_spec (i + s) (i + t)), (Nat.eqb_spec s t); try lia; subst; ring.
  - intros s Hs. rewrite !(rp_l R0) by lia. apply asc_le; auto. lia.
  - intros s Hs. rewrite (rp_l R1) by lia. apply asc_le; auto. lia.
Qed.

(** ** the true eigenvalues *)
Lemma mv_id k (v : nat -> F) i : (i < k)%nat -> mv k (fun i j => if (i =? j)%nat then 1 else 0) v i = v i.
Proof.
  intros Hi. unfold mv. rewrite (@sum_ext F SF k _ (fun j => if (j =? i)%nat then v i else 0)).
  - now rewrite sum_delta', (proj2 (Nat.ltb_lt _ _) Hi).
  - intros j Hj. rewrite (Nat.eqb_sym i j). destruct (Nat.eqb_spec j i) as [ -> |]; ring.
Qed.
Lemma dotp_id k (u v : nat -> F) : dotp k u (mv k (fun i j => if (i =? j)%nat then 1 else 0) v) = dotp k u v.
Proof. apply dotp_ext'; auto. intros i Hi. now apply mv_id. Qed.

Lemma above_gen N (e : nat -> nat -> F) (l : list F) u mu : length l = m -> ascending l -> geigenbasis n M N u mu ->
  (forall i j, (i < m)%nat -> (j < m)%nat -> dotp n (e i) (mv n N (e j)) = if (i =? j)%nat then 1 else 0) ->
  (forall i j, (i < m)%nat -> (j < m)%nat -> dotp n (e i) (mv n M (e j)) = if (i =? j)%nat then fn l i else 0) ->
  forall i, (i < m)%nat -> (i < n)%nat -> mu i <<= fn l i.
Proof.
  intros Ll Hl (U1 & U2 & U3) Eb Ea i Hi Hn.
  apply (@interlace n M N (S i) e (fn l) (n - i) (fun t => u (i + t)%nat) (fun t => mu (i + t)%nat)); try lia.
  - intros s t Hs Ht. apply Eb; lia.
  - intros s t Hs Ht. apply Ea; lia.
  - intros s t Hs Ht. rewrite U1 by lia. destruct (Nat.eqb_spec (i + s) (i + t)), (Nat.eqb_spec s t); auto; lia.
  - intros s t Hs Ht. transitivity (mu (i + t)%nat * dotp n (u (i + s)%nat) (mv n N (u (i + t)%nat))).
    + unfold dotp. rewrite <- (sum_scal Hex). apply sum_ext. intros r Hr. rewrite U2 by lia. ring.
    + rewrite U1 by lia. destruct (Nat.eqb_spec (i + s) (i + t)), (Nat.eqb_spec s t); try lia; subst; ring.
  - intros s Hs. apply asc_le; auto. lia.
  - intros s Hs. apply U3. lia.
Qed.

Lemma above_true st small l X lam V u mu : length l = m -> ritz_pairs m n M st small l X lam V -> eigenbasis n M u mu ->
  forall i, (i < m)%nat -> (i < n)%nat -> mu i <<= fn l i.
Proof.
  intros Ll R1 (U1 & U2 & U3).
  destruct (rp_dec R1) as (Sa & Sb & _ & _ & (D1 & _ & D3 & _) & _). pose proof (dim_ge m small) as Hdim.
  apply (@above_gen (fun i j => if (i =? j)%nat then 1 else 0) (rowf X) l u mu Ll).
  - intros s t Hst. rewrite !(rp_l R1) by lia. apply D3. lia.
  - split; [|split; auto].
    + intros s t Hs Ht. rewrite dotp_id. now apply U1.
    + intros s k Hs Hk. rewrite mv_id by auto. now apply U2.
  - intros s t Hs Ht. rewrite dotp_id. now apply (rp_orth R1).
  - intros s t Hs Ht. now apply (rp_ritz R1).
Qed.

(** n orthonormal vectors of F^n span it *)
Lemma expand u x : (forall s t, (s < n)%nat -> (t < n)%nat -> dotp n (u s) (u t) = if (s =? t)%nat then 1 else 0) ->
  exists c : nat -> F, forall i, (i < n)%nat -> x i = sum_n n (fun s => c s * u s i).
Proof.
  intros U1. destruct (@dependent_fn n (S n) (fun s => if (s <? n)%nat then u s else x)) as (c & (s & Hs & Hc) & HZ); [lia|].
  assert (HZ' : forall i, (i < n)%nat -> sum_n n (fun s => c s * u s i) + c n * x i = 0).
  { intros i Hi. rewrite <- (HZ i Hi). cbn [sum_n]. rewrite Nat.ltb_irrefl. f_equal. apply sum_ext. intros t Ht. now rewrite (proj2 (Nat.ltb_lt _ _) Ht). }
  destruct (F_eq_dec (c n) 0) as [E|E].
  - exfalso. assert (H0 : forall i, (i < n)%nat -> sum_n n (fun s => c s * u s i) = 0).
    { intros i Hi. rewrite <- (HZ' i Hi). rewrite E. ring. }
    assert (s <> n) by congruence. assert (Hs' : (s < n)%nat) by lia.
    pose proof (@sumF_pos n c s Hs' Hc) as P.
    pose proof (@form_diag n (fun i j => if (i =? j)%nat then 1 else 0) n u (fun _ => 1) c) as G. rewrite dotp_id in G.
    rewrite (@sum_ext F SF n (fun s => c s * c s) (fun s => c s * c s * 1)) in P by (intros; ring).
    rewrite <- G in P.
    + unfold dotp in P. rewrite (@sum_ext F SF n _ (fun _ => 0)) in P by (intros i Hi; rewrite H0 by auto; ring).
      rewrite (sum_zero Hex) in P. now rewrite (of_irr Ho) in P.
    + intros a b Ha Hb. rewrite dotp_id. now apply U1.
  - assert (Hd : forall a, (a / c n) * c n = a) by (intros a; apply (proj1 (of_field Ho)); auto).
    assert (Hinj : forall a b, c n * a = c n * b -> a = b).
    { intros a b Hab. transitivity ((1 / c n * c n) * a); [rewrite Hd; ring|]. transitivity ((1 / c n * c n) * b); [|rewrite Hd; ring].
      transitivity (1 / c n * (c n * a)); [ring|]. rewrite Hab. ring. }
    exists (fun s => - c s / c n). intros i Hi. pose proof (HZ' i Hi) as G. apply Hinj.
    rewrite <- (sum_scal Hex). rewrite (@sum_ext F SF n _ (fun s => - (1) * (c s * u s i))).
    + rewrite (sum_scal Hex). transitivity (- (1) * sum_n n (fun s => c s * u s i) + (sum_n n (fun s => c s * u s i) + c n * x i)); [ring|]. rewrite G. ring.
    + intros t Ht. transitivity ((- c t / c n * c n) * u t i); [ring|]. rewrite Hd. ring.
Qed.

(** a unit vector with residual below tol: some eigenvalue is within tol *)
Lemma near_true u mu x lam tol : eigenbasis n M u mu -> dotp n x x = 1 ->
  root_of (sum_n n (fun k => eig_resid n M lam x k * eig_resid n M lam x k)) -> norm2 n (eig_resid n M lam x) << tol ->
  exists j, (j < n)%nat /\ within tol (mu j) lam.
Proof.
  intros (U1 & U2 & _) Hx (Rt1 & Rt2) Hr.
  destruct (@expand u x U1) as (c & Ec).
  assert (Cs : sum_n n (fun s => c s * c s * 1) = 1).
  { transitivity (dotp n x x); [|exact Hx]. rewrite <- (@form_diag n (fun i j => if (i =? j)%nat then 1 else 0) n u (fun _ => 1) c).
    - rewrite dotp_id. apply dotp_ext'; intros i Hi; symmetry; now apply Ec.
    - intros a b Ha Hb. rewrite dotp_id. now apply U1. }
  assert (Er : forall i, (i < n)%nat -> eig_resid n M lam x i = sum_n n (fun s => ((mu s - lam) * c s) * u s i)).
  { intros i Hi. unfold eig_resid. rewrite (@mv_ext F SF n M _ _ i Ec). rewrite (mv_sum Hex). rewrite Ec by auto.
    rewrite <- (sum_scal Hex), <- (sum_sub Hex). apply sum_ext. intros s Hs.
    rewrite (mv_scal Hex), U2 by auto. ring. }
  assert (Nr : sum_n n (fun i => eig_resid n M lam x i * eig_resid n M lam x i) = sum_n n (fun s => ((mu s - lam) * c s) * ((mu s - lam) * c s) * 1)).
  { rewrite <- (@form_diag n (fun i j => if (i =? j)%nat then 1 else 0) n u (fun _ => 1) (fun s => (mu s - lam) * c s)).
    - rewrite dotp_id. unfold dotp. apply sum_ext. intros i Hi. now rewrite Er.
    - intros a b Ha Hb. rewrite dotp_id. now apply U1. }
  assert (Q : forall p, (p <= n)%nat -> (exists j, (j < p)%nat /\ within tol (mu j) lam) \/
     (forall j, (j < p)%nat -> tol <<= mu j - lam \/ tol <<= lam - mu j)).
  { induction p as [|p IH]; intros Hp; [right; intros; lia|]. destruct IH as [(j & Hj & H)|H]; [lia|left; exists j; split; [lia|auto]|].
    destruct (lt_or_le (mu p - lam) tol) as [G1|G1].
    2:{ right. intros j Hj. destruct (Nat.eq_dec j p) as [ -> |]; [auto|apply H; lia]. }
    destruct (lt_or_le (lam - mu p) tol) as [G2|G2].
    - left. exists p. split; [lia|split; auto].
    - right. intros j Hj. destruct (Nat.eq_dec j p) as [ -> |]; [auto|apply H; lia]. }
  destruct (Q n (le_n n)) as [|H]; auto. exfalso.
  unfold norm2 in Hr. set (N := sum_n n _) in *. set (r := fsqrt N) in *.
  assert (EN : N = sum_n n (fun s => ((mu s - lam) * c s) * ((mu s - lam) * c s) * 1)) by exact Nr.
  assert (Tpos : 0 << tol) by (eapply le_lt_trans'; eauto).
  assert (B : tol * tol * 1 <<= N).
  { rewrite EN. replace (tol * tol * 1) with (tol * tol * sum_n n (fun s => c s * c s * 1)) by now rewrite Cs. rewrite <- (sum_scal Hex). apply sumF_le. intros s Hs. pose proof (H s Hs) as G.
    assert (Sq : forall d, tol <<= d -> tol * tol <<= d * d).
    { intros d Hd. apply le_sub. replace (d * d - tol * tol) with ((d - tol) * (d + tol)) by ring. apply le_mul; [now apply le_sub in Hd|].
      replace (0 : F) with (0 + 0 : F) by ring. apply le_add; [apply le_trans' with tol; auto; now apply ltle|now apply ltle]. }
    assert (tol * tol <<= (mu s - lam) * (mu s - lam)).
    { destruct G as [G|G]; [now apply Sq|]. replace ((mu s - lam) * (mu s - lam)) with ((lam - mu s) * (lam - mu s)) by ring. now apply Sq. }
    replace ((mu s - lam) * c s * ((mu s - lam) * c s) * 1) with ((c s * c s) * ((mu s - lam) * (mu s - lam))) by ring.
    replace (tol * tol * (c s * c s * 1)) with ((c s * c s) * (tol * tol)) by ring. apply le_mul_l; auto. apply sq_nonneg. }
  (* r < tol, so N = r r < tol tol *)
  assert (P1 : 0 << (tol - r) * (tol + r)).
  { apply (of_mul Ho); [now apply lt_sub in Hr|]. apply lt_le_trans' with tol; auto. apply le_sub. replace (tol + r - tol) with r by ring. exact Rt2. }
  replace ((tol - r) * (tol + r)) with (tol * tol - r * r) in P1 by ring. rewrite Rt1 in P1.
  replace (tol * tol * 1) with (tol * tol) in B by ring. apply lt_sub in P1. exact (lt_not_le P1 B).
Qed.
End Mono.

Lemma ordered_strict : lt_strict_law (F:=F).
Proof.
  split; [exact (of_irr Ho)|split].
  - intros a b c H1 H2. exact (@le_trans' c b a H2 H1).
  - intros a b H. now apply ltle.
Qed.
Lemma ordered_le_lt : le_lt_trans_law (F:=F).
Proof. intros a b c H1 H2. exact (@le_lt_trans' a b c H1 H2). Qed.
End Ordered.

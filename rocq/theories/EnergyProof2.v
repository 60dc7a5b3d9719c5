(** * EnergyProof2: one iteration of preconditioned CG never increases the energy norm of the error, whatever the
    preconditioner (proof support for C115). *)
From Coq Require Import Reals Psatz.
From Verif Require Import Base Scalar Spec SumFacts SolverModel SolverSpec EigModel SolverProof SolverProof2 ConvSpec ConvProof EnergySpec EnergyProof.
Set Implicit Arguments.
Local Open Scope R_scope.
#[local] Hint Extern 0 (Scalar R) => exact Rscalar : typeclass_instances.

Section CG.
Variables (n : nat) (M : nat -> nat -> R) (b : list R) (xs : nat -> R).
Hypothesis Hsym : symmetric n M.
Hypothesis Hpsd : psd n M.
Hypothesis Hs : solution n M b xs.
Notation D u v := (@dotp R Rscalar n u v).
Notation E0 := (energy n M xs).

Lemma quad_ext u v : (forall i, (i < n)%nat -> u i = v i) -> quad n M u = quad n M v.
Proof. intros H. unfold quad. apply Sm_ext. intros i Hi. rewrite H by auto. f_equal. unfold mv. apply Sm_ext. intros j Hj. now rewrite H. Qed.
Lemma mv_scal a u i : mv n M (fun k => a * u k) i = a * mv n M u i.
Proof. unfold mv. cbn [fmul Rscalar]. rewrite <- Sm_scal. apply Sm_ext. intros. ring. Qed.
Lemma quad_scal a u : quad n M (fun i => a * u i) = a * a * quad n M u.
Proof. unfold quad. rewrite <- Sm_scal. apply Sm_ext. intros i Hi. rewrite mv_scal. ring. Qed.
Lemma quad_line u a p : quad n M (fun i => u i + a * p i) = quad n M u + 2 * a * D p (mv n M u) + a * a * quad n M p.
Proof.
  rewrite (quad_plus Hsym u (fun i => a * p i)), quad_scal. f_equal. f_equal. unfold dotp. cbn [fmul Rscalar].
  rewrite Rmult_assoc. f_equal. rewrite <- Sm_scal. apply Sm_ext. intros. ring.
Qed.
(** a direction without energy is orthogonal to every M v *)
Lemma null_dir p v : quad n M p = 0 -> D p (mv n M v) = 0.
Proof.
  intros H. set (d := D p (mv n M v)). destruct (Req_dec d 0) as [|N]; auto. exfalso.
  pose proof (Hpsd (fun i => v i + (- (quad n M v + 1) / (2 * d)) * p i)) as G. rewrite quad_line, H in G. fold d in G.
  replace (2 * (- (quad n M v + 1) / (2 * d)) * d) with (- (quad n M v + 1)) in G by (field; auto). lra.
Qed.

(** r is the residual of x, and p.r = z.r *)
Definition cg_inv (x r p z : list R) : Prop :=
  (forall i, (i < n)%nat -> fn r i = residual n M x b i) /\ D (fn p) (fn r) = D (fn z) (fn r).

Lemma err_res x r : (forall i, (i < n)%nat -> fn r i = residual n M x b i) -> forall p, D p (mv n M (fun i => fn x i - xs i)) = - D p (fn r).
Proof.
  intros H p. unfold dotp. cbn [fmul Rscalar].
  replace (- Sm n (fun i => p i * fn r i)) with (-1 * Sm n (fun i => p i * fn r i)) by ring. rewrite <- Sm_scal. apply Sm_ext. intros i Hi.
  rewrite H by auto. unfold residual. rewrite <- Hs by auto. unfold mv. cbn [fmul fsub Rscalar].
  rewrite <- Sm_minus. replace (-1 * (p i * Sm n (fun j => M i j * xs j - M i j * fn x j))) with (p i * (-1 * Sm n (fun j => M i j * xs j - M i j * fn x j))) by ring.
  f_equal. rewrite <- Sm_scal. apply Sm_ext. intros. ring.
Qed.

Lemma cg_step x r p z q x' r' z' p' al be : cg_inv x r p z ->
  (forall i, (i < n)%nat -> fn q i = mv n M (fn p) i) ->
  al = D (fn z) (fn r) / D (fn p) (fn q) ->
  (forall i, (i < n)%nat -> fn x' i = fn x i + al * fn p i) ->
  (forall i, (i < n)%nat -> fn r' i = fn r i + - al * fn q i) ->
  (forall i, (i < n)%nat -> fn p' i = fn z' i + be * fn p i) ->
  cg_inv x' r' p' z' /\ E0 x' <= E0 x /\
  (D (fn z) (fn r) <> 0 -> E0 x' < E0 x).
Proof.
  intros (I1 & I2) HQ Hal HX HR HP.
  assert (PQ : D (fn p) (fn q) = quad n M (fn p)) by (unfold dotp, quad; apply Sm_ext; intros i Hi; now rewrite HQ).
  assert (EN : E0 x' = E0 x - 2 * al * D (fn p) (fn r) + al * al * quad n M (fn p)).
  { unfold energy. rewrite (@quad_ext _ (fun i => (fn x i - xs i) + al * fn p i)) by (intros i Hi; rewrite HX by auto; ring).
    rewrite quad_line, (err_res r I1). ring. }
  assert (PR : D (fn p) (fn r') = D (fn p) (fn r) - al * quad n M (fn p)).
  { rewrite <- PQ. unfold dotp. cbn [fmul Rscalar]. rewrite <- Sm_scal, <- Sm_minus. apply Sm_ext. intros i Hi. rewrite HR by auto. ring. }
  pose proof (Hpsd (fn p)) as P0.
  assert (Z : quad n M (fn p) = 0 -> D (fn p) (fn r) = 0).
  { intros H. pose proof (null_dir (fn p) (fun i => fn x i - xs i) H) as G. rewrite (err_res r I1) in G. lra. }
  assert (PR0 : D (fn p) (fn r') = 0).
  { rewrite PR. destruct (Req_dec (quad n M (fn p)) 0) as [H|H]; [rewrite H, (Z H); ring|]. rewrite Hal, PQ, I2. field. auto. }
  split; [split|split].
  - intros i Hi. rewrite HR, HQ, I1 by auto. unfold residual.
    rewrite (@mv_axpy R Rscalar R_exact n M al (fn x) (fn p) (fn x') i) by (intros j Hj; rewrite HX by auto; reflexivity).
    cbn [fadd fmul fsub Rscalar]. ring.
  - replace (D (fn p') (fn r')) with (D (fn z') (fn r') + be * D (fn p) (fn r')); [rewrite PR0; ring|].
    unfold dotp. cbn [fmul Rscalar]. rewrite <- Sm_scal, <- Sm_plus. apply Sm_ext. intros i Hi. rewrite HP by auto. ring.
  - rewrite EN. destruct (Req_dec (quad n M (fn p)) 0) as [H|H]; [rewrite H, (Z H); lra|].
    rewrite Hal, PQ, I2. set (t := D (fn z) (fn r)). set (k := quad n M (fn p)) in *.
    replace (E0 x - 2 * (t / k) * t + t / k * (t / k) * k) with (E0 x - t * t / k) by (field; auto).
    assert (0 <= t * t / k); [|lra]. unfold Rdiv. apply Rmult_le_pos; [apply Rle_0_sqr|apply Rlt_le, Rinv_0_lt_compat; lra].
  - intros N. rewrite EN. destruct (Req_dec (quad n M (fn p)) 0) as [H|H]; [rewrite <- I2, (Z H) in N; lra|].
    rewrite Hal, PQ, I2. set (t := D (fn z) (fn r)) in *. set (k := quad n M (fn p)) in *.
    replace (E0 x - 2 * (t / k) * t + t / k * (t / k) * k) with (E0 x - t * t / k) by (field; auto).
    assert (0 < t * t / k); [|lra]. apply Rdiv_lt_0_compat; [|lra]. pose proof (Rsqr_pos_lt t N) as G. exact G.
Qed.

Variables (c : cfg (F:=R)) (A : matif (F:=R)) (pf : list R -> list R -> res (list R)).
Hypothesis HA : represents A n M.
Hypothesis HP : forall r z, length r = n -> length z = n -> exists z', pf r z = Ok z' /\ length z' = n.
Hypothesis Hm : s_method c = 0%nat.

(** two runs from the same state with limits k1 <= k2 *)
Lemma cg_loop_mono m1 m2 k1 : forall k2 iter x r p q z, (k1 <= k2)%nat ->
  length x = n -> length r = n -> length p = n -> length q = n -> length z = n -> cg_inv x r p z ->
  exists o1 o2, cg_loop (with_maxiter c m1) A pf k1 iter x r p q z = Ok o1 /\ cg_loop (with_maxiter c m2) A pf k2 iter x r p q z = Ok o2 /\
    length (o_x o1) = n /\ E0 (o_x o2) <= E0 (o_x o1) <= E0 x /\ ((0 < k1)%nat -> D (fn z) (fn r) <> 0 -> E0 (o_x o1) < E0 x).
Proof.
  pose proof HA as (R1 & R2 & R3).
  assert (Hm1 : forall m, s_method (with_maxiter c m) = 0%nat) by auto.
  assert (ONE : forall iter x r p q z, length x = n -> length r = n -> length p = n -> length q = n -> length z = n -> cg_inv x r p z ->
     exists x' r' p' q' z', length x' = n /\ length r' = n /\ length p' = n /\ length q' = n /\ length z' = n /\ cg_inv x' r' p' z' /\
       E0 x' <= E0 x /\ (D (fn z) (fn r) <> 0 -> E0 x' < E0 x) /\ forall m k,
       cg_loop (with_maxiter c m) A pf (S k) iter x r p q z =
         if fltb (norm2 n (fn r')) (s_tol c) && (s_miniter c <=? iter + 1)%nat then Ok (mkOut SUCCESS x' (iter + 1) (norm2 n (fn r')))
         else cg_loop (with_maxiter c m) A pf k (S iter) x' r' p' q' z').
  { intros iter x r p q z Hx Hr Hp Hq Hz HI.
    destruct (R3 p q Hp Hq) as (q' & E & Hq' & HQ).
    set (al := D (fn z) (fn r) / D (fn p) (fn q')).
    set (x' := zipw (fun a b => b + al * a) p x). set (r' := zipw (fun a b => b + - al * a) q' r).
    assert (Hx' : length x' = n) by (unfold x'; now rewrite zipw_length).
    assert (Hr' : length r' = n) by (unfold r'; now rewrite zipw_length).
    destruct (HP r' z Hr' Hz) as (z' & Ep & Hz').
    set (be := D (fn z') (fn r') / D (fn z) (fn r)).
    set (p' := zipw (fun a b => a + be * b) z' p).
    assert (Hp' : length p' = n) by (unfold p'; now rewrite zipw_length).
    assert (G : cg_inv x' r' p' z' /\ E0 x' <= E0 x /\ (D (fn z) (fn r) <> 0 -> E0 x' < E0 x)).
    { apply (@cg_step x r p z q' x' r' z' p' al be); auto; intros i Hi.
      - unfold x'. rewrite zipw_fn by lia. reflexivity.
      - unfold r'. rewrite zipw_fn by lia. reflexivity.
      - unfold p'. rewrite zipw_fn by lia. reflexivity. }
    destruct G as (G1 & G2 & G3).
    exists x', r', p', q', z'. split; [auto|]. split; [auto|]. split; [auto|]. split; [auto|]. split; [auto|]. split; [auto|]. split; [auto|]. split; [auto|].
    intros m k. cbn [cg_loop]. rewrite E. cbn [bind]. rewrite !(@v_dot_exact R Rscalar R_exact n) by auto. cbn [bind].
    rewrite (@v_axpy_ok R Rscalar n) by auto. cbn [bind]. rewrite (@v_axpy_ok R Rscalar n) by auto. cbn [bind].
    change (zipw _ q' r) with r'. change (zipw _ p x) with x'. rewrite Ep. cbn [bind].
    rewrite (@v_dot_exact R Rscalar R_exact n) by auto. cbn [bind]. rewrite (@v_xpay_ok R Rscalar n) by auto. cbn [bind].
    change (zipw _ z' p) with p'.
    unfold get_residual. rewrite (Hm1 m), (@v_nrm2_exact R Rscalar R_exact n) by auto. cbn [bind fnan Rscalar]. reflexivity. }
  induction k1 as [|k1 IH]; intros k2.
  - induction k2 as [|k2 IH2]; intros iter x r p q z _ Hx Hr Hp Hq Hz HI.
    + cbn [cg_loop]. unfold get_residual. rewrite !Hm1, (@v_nrm2_exact R Rscalar R_exact n) by auto. cbn [bind].
      do 2 eexists. split; [reflexivity|]. split; [reflexivity|]. cbn [o_x]. split; auto. split; [lra|]. lia.
    + destruct (ONE iter x r p q z) as (x' & r' & p' & q' & z' & Lx & Lr & Lp & Lq & Lz & I' & G1 & G2 & EQ); auto.
      rewrite EQ. destruct (IH2 (S iter) x' r' p' q' z') as (o1 & o2 & E1 & E2 & L & G & _); auto; [lia|].
      cbn [cg_loop]. unfold get_residual. rewrite (Hm1 m1), (@v_nrm2_exact R Rscalar R_exact n) by auto. cbn [bind].
      eexists. destruct (fltb _ _ && _).
      * eexists. split; [reflexivity|]. split; [reflexivity|]. cbn [o_x]. split; auto. split; [lra|]. lia.
      * exists o2. split; [reflexivity|]. split; [exact E2|]. cbn [o_x]. split; auto. split; [lra|]. lia.
  - destruct k2 as [|k2]; [lia|]. intros iter x r p q z Hk Hx Hr Hp Hq Hz HI.
    destruct (ONE iter x r p q z) as (x' & r' & p' & q' & z' & Lx & Lr & Lp & Lq & Lz & I' & G1 & G2 & EQ); auto.
    rewrite !EQ. destruct (fltb _ _ && _).
    + do 2 eexists. split; [reflexivity|]. split; [reflexivity|]. cbn [o_x]. split; auto. split; [lra|]. auto.
    + destruct (IH k2 (S iter) x' r' p' q' z') as (o1 & o2 & E1 & E2 & L & G & _); auto; [lia|].
      exists o1, o2. split; auto. split; auto. split; auto. split; [lra|]. intros _ N. specialize (G2 N). lra.
Qed.
End CG.

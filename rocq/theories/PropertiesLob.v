(** * PropertiesLob: C73-C81, the LOBPCG eigensolvers.

    Exact arithmetic in an ordered field, any starting vectors, any number of pairs, and any behaviour of LAPACK's ?sygvd
    unless a hypothesis says otherwise.  [lobpcg_solve fuel ... = Ok o] means that the call returns (within [fuel] passes
    through the iteration) with what [o] says. *)
From Coq Require Import ZArith QArith Qcanon Reals Lra.
From Verif Require Import Base Scalar Spec SumFacts DenseModel CrsModel SolverModel SolverSpec SolverProof SolverProof2
  EigModel EigProof LobModel LobSpec LobProof LobProof2 LobProof3 LobProof4 LobProof5 LobGen LobLoop LobSafe LobWitness Observe.
Set Implicit Arguments.
Local Close Scope Qc_scope.
Local Close Scope Q_scope.
Local Close Scope R_scope.

(** ** the fields the theorems apply to *)
Lemma R_ordered : @ordered_field R Rscalar.
Proof.
  constructor.
  - exact R_exact.
  - exact R_field.
  - intros a b. cbn. destruct (Rlt_dec a b), (Rlt_dec b a); auto. right; left. lra.
  - intros a. cbn. destruct (Rlt_dec a a); auto. lra.
  - intros a b c. cbn. destruct (Rlt_dec a b), (Rlt_dec b c), (Rlt_dec a c); auto; lra.
  - intros a b c. cbn. destruct (Rlt_dec a b), (Rlt_dec (a + c) (b + c)); auto; lra.
  - intros a b. cbn. destruct (Rlt_dec 0 a), (Rlt_dec 0 b), (Rlt_dec 0 (a * b)); auto. exfalso. apply n. now apply Rmult_lt_0_compat.
  - cbn. destruct (Rlt_dec 0 1); auto; lra.
Qed.
Lemma R_roots (a : R) : @leq R Rscalar 0%R a -> @root_of R Rscalar a.
Proof.
  unfold leq, root_of. cbn. destruct (Rlt_dec a 0) as [|H]; [discriminate|]. intros _.
  split; [apply sqrt_sqrt; lra|]. pose proof (sqrt_pos a). unfold leq. cbn. destruct (Rlt_dec (sqrt a) 0); auto. lra.
Qed.

Section Statements.
Context {F : Type} {SF : Scalar F}.
Local Open Scope F_scope.
Hypothesis Ho : ordered_field (F:=F).
Let Hex : exact SF := of_ring Ho.
Let Hrt0 : ring_theory 0 1 fadd fmul fsub fopp (@eq F) := Hex.
Add Ring LobRing : Hrt0.
Let Hlt : lt_strict_law (F:=F) := ordered_strict Ho.
Let Hll : le_lt_trans_law (F:=F) := ordered_le_lt Ho.

(** what the return code promises *)
Definition eig_code_honest (c : cfg (F:=F)) (o : lout (F:=F)) : Prop :=
  (lo_code o = SUCCESS /\ fltb (lo_resid o) (s_tol c) = true /\ (s_miniter c < lo_iter o <= s_maxiter c)%nat) \/
  (lo_code o = RESIDUAL_NAN /\ fnan (lo_resid o) = true /\ (1 <= lo_iter o <= s_maxiter c)%nat) \/
  (lo_code o = MAXITER /\ lo_iter o = s_maxiter c).

Variables (A : matif (F:=F)) (n : nat) (M : nat -> nat -> F).
Hypothesis HA : represents A n M.
Variable (sygvd : sygvd_t (F:=F)).

Lemma none_ok (A' : matif (F:=F)) n' : pre_ok A' n' pc_none.
Proof. exists (fun r z => v_copy r z). split; [reflexivity|]. intros r z Hr Hz. exists r. split; auto. now apply (@v_copy_ok F n'). Qed.

Lemma tested_none (l : list F) (X : list (list F)) i res : tested (fun r z => v_copy r z) n M l X i res -> res = norm2 n (eig_resid n M (fn l i) (rowf X i)).
Proof.
  intros (r & z & z' & Lr & Lz & Er & Ez & En). rewrite (@v_copy_ok F n r z Lr Lz) in Ez. injection Ez as <-.
  rewrite (v_nrm2_exact Hex _ Lr) in En. injection En as <-. apply norm2_ext. exact Er.
Qed.

(** *** C73 *)
Theorem C73_code fuel c s pre l xcol x li lr o : pre_ok A n pre -> s_lib c = 0%nat ->
  lobpcg_solve fuel c s A pre sygvd l xcol x li lr = Ok o ->
  eig_code_honest c o /\ shaped (length l) n (lo_x o) /\ length (lo_l o) = length l.
Proof.
  intros Hp Hlib H. destruct (lobpcg_final Hex Hlt HA sygvd _ _ _ _ _ _ _ _ Hp Hlib H) as (apply & _ & _ & (S1 & S2) & C).
  split; [|auto]. unfold eig_code_honest. destruct C as [C|[(C1 & C2 & C3 & _)|(C1 & C2 & _)]]; auto 10.
Qed.

(** the residual norms of the pairs returned *)
Definition residuals (l : list F) (X : list (list F)) : list F :=
  map (fun i => norm2 n (eig_resid n M (fn l i) (rowf X i))) (seq 0 (length l)).

Lemma step_residuals small call st l X rs info : length l = length rs ->
  step (fun r z => v_copy r z) sygvd (length l) n M small call st l X rs info -> rs = residuals l X.
Proof.
  intros Ll (Sa & Sb & lam & V & _ & _ & _ & _ & Lr & Hd). apply nth_ext with (d := 0) (d' := 0).
  - unfold residuals. rewrite map_length, seq_length. lia.
  - intros j Hj. unfold residuals. rewrite nth_map_seq by lia. cbn [Nat.add]. destruct (Hd j) as (T & _); [lia|].
    now apply tested_none.
Qed.

Theorem C73_residual fuel c s l xcol x li lr o : s_lib c = 0%nat ->
  lobpcg_solve fuel c s A pc_none sygvd l xcol x li lr = Ok o ->
  lo_code o = SUCCESS \/ (lo_code o = MAXITER /\ (1 <= s_maxiter c)%nat) ->
  largest (lo_resid o) (residuals (lo_l o) (lo_x o)) /\
  (lo_code o = SUCCESS -> forall i, (i < length l)%nat ->
     fltb (norm2 n (eig_resid n M (fn (lo_l o) i) (rowf (lo_x o) i))) (s_tol c) = true).
Proof.
  intros Hlib H Hc. destruct (lobpcg_final Hex Hlt HA sygvd _ _ _ _ _ _ _ _ (none_ok A n) Hlib H) as (apply & Ea & _ & (S1 & S2) & C).
  injection Ea as <-.
  assert (St : exists small call st rs, step (fun r z => v_copy r z) sygvd (length l) n M small call st (lo_l o) (lo_x o) rs (lo_info o) /\ largest (lo_resid o) rs).
  { destruct C as [(C1 & _)|[(_ & _ & _ & sm & ca & st & rs & _ & C4 & C5)|(C1 & _ & [C3|(sm & ca & st & rs & _ & C4 & C5)])]]; eauto 10.
    - exfalso. rewrite C1 in Hc. destruct Hc as [Hc|(Hc & _)]; discriminate.
    - exfalso. rewrite C1 in Hc. destruct Hc as [Hc|(_ & Hc)]; [discriminate|lia]. }
  destruct St as (sm & ca & st & rs & St & Lg).
  assert (Er : rs = residuals (lo_l o) (lo_x o)).
  { rewrite <- S2 in St. pose proof St as (? & ? & ? & ? & _ & _ & _ & _ & Lr & _). eapply step_residuals; [|exact St]. lia. }
  rewrite <- Er. split; auto. intros Hs i Hi.
  assert (Ht : fltb (lo_resid o) (s_tol c) = true).
  { destruct C as [(C1 & _)|[(_ & C2 & _)|(C1 & _)]]; auto; rewrite Hs in C1; discriminate. }
  eapply Hll; [|exact Ht]. apply Lg. rewrite Er. unfold residuals. rewrite S2.
  apply in_map_iff. exists i. split; auto. apply in_seq. lia.
Qed.

Lemma one_one : fsqrt 1 = (1 : F) -> fsqrt 1 = (1 : F) /\ 1 / 1 = (1 : F).
Proof.
  intros H. split; auto. pose proof (proj1 (of_field Ho) (1 : F) 1 (one_zero Ho)) as G.
  transitivity (1 / 1 * (1 : F)); auto. symmetry. rewrite (Rmul_comm Hex). apply (Rmul_1_l Hex).
Qed.

(** the last Rayleigh-Ritz step behind a result with info = 0 *)
Lemma final_ritz fuel c s pre l xcol x li lr o : fsqrt 1 = (1 : F) -> symmetric n M -> lapack_info0 sygvd ->
  pre_ok A n pre -> s_lib c = 0%nat -> (1 <= s_maxiter c)%nat ->
  lobpcg_solve fuel c s A pre sygvd l xcol x li lr = Ok o -> lo_code o <> RESIDUAL_NAN -> lo_info o = 0%Z ->
  length (lo_l o) = length l /\ exists st small lam V, ritz_pairs (length l) n M st small (lo_l o) (lo_x o) lam V.
Proof.
  intros H1 Hsym Hlap Hp Hlib Hmx H Hc Hi. destruct (lobpcg_final Hex Hlt HA sygvd _ _ _ _ _ _ _ _ Hp Hlib H) as (apply & _ & _ & (S1 & S2) & C).
  split; auto. rewrite Hi in C.
  destruct C as [(C1 & _)|[(_ & _ & _ & sm & ca & st & rs & C4 & C5 & _)|(_ & _ & [C3|(sm & ca & st & rs & C4 & C5 & _)])]];
    [contradiction| |lia|]; destruct (step_ritz Hex (one_one H1) Hsym Hlap C4 C5) as (lam & V & R); eauto.
Qed.

Theorem C73_near_eigenvalue fuel c s l xcol x li lr o u mu : fsqrt 1 = (1 : F) -> symmetric n M -> lapack_info0 sygvd -> s_lib c = 0%nat ->
  lobpcg_solve fuel c s A pc_none sygvd l xcol x li lr = Ok o -> lo_code o = SUCCESS -> lo_info o = 0%Z ->
  eigenbasis n M u mu -> forall i, (i < length l)%nat ->
  root_of (sum_n n (fun k => eig_resid n M (fn (lo_l o) i) (rowf (lo_x o) i) k * eig_resid n M (fn (lo_l o) i) (rowf (lo_x o) i) k)) ->
  exists j, (j < n)%nat /\ within (s_tol c) (mu j) (fn (lo_l o) i).
Proof.
  intros H1 Hsym Hlap Hlib H Hc Hi Hu i Hil Hrt.
  destruct (@C73_code fuel c s pc_none l xcol x li lr o (none_ok A n) Hlib H) as (Hh & _).
  assert (Hmx : (1 <= s_maxiter c)%nat).
  { destruct Hh as [(_ & _ & G)|[(G & _)|(G & _)]]; [lia|rewrite G in Hc; discriminate|rewrite G in Hc; discriminate]. }
  destruct (@final_ritz fuel c s pc_none l xcol x li lr o H1 Hsym Hlap (none_ok A n) Hlib Hmx H) as (Ll & st & sm & lam & V & R); auto.
  { rewrite Hc. discriminate. }
  destruct (@C73_residual fuel c s l xcol x li lr o Hlib H (or_introl Hc)) as (_ & Hr).
  apply (@near_true F SF Ho n M u mu (rowf (lo_x o) i) (fn (lo_l o) i) (s_tol c) Hu); auto.
  pose proof (rp_orth R Hil Hil) as G. now rewrite Nat.eqb_refl in G.
Qed.

(** *** C74 *)
Theorem C74_ritz fuel c s pre l xcol x li lr o : fsqrt 1 = (1 : F) -> symmetric n M -> lapack_info0 sygvd ->
  pre_ok A n pre -> s_lib c = 0%nat -> (1 <= s_maxiter c)%nat ->
  lobpcg_solve fuel c s A pre sygvd l xcol x li lr = Ok o -> lo_code o <> RESIDUAL_NAN -> lo_info o = 0%Z ->
  ascending (lo_l o) /\ orthonormal (length l) n (lo_x o) /\
  (forall i j, (i < length l)%nat -> (j < length l)%nat ->
     dotp n (rowf (lo_x o) i) (mv n M (rowf (lo_x o) j)) = if (i =? j)%nat then fn (lo_l o) i else 0).
Proof.
  intros H1 Hsym Hlap Hp Hlib Hmx H Hc Hi.
  destruct (@final_ritz fuel c s pre l xcol x li lr o H1 Hsym Hlap Hp Hlib Hmx H Hc Hi) as (Ll & st & sm & lam & V & R).
  split; [|split; [exact (rp_orth R)|exact (rp_ritz R)]].
  destruct (rp_dec R) as (Sa & Sb & _ & _ & (D1 & _ & D3 & _) & _). pose proof (dim_ge (length l) sm) as Hdim.
  intros i j Hij. rewrite !(rp_l R) by lia. apply D3. lia.
Qed.
(** never below the true eigenvalues: mu 0 <= mu 1 <= ... *)
Theorem C74_bound fuel c s pre l xcol x li lr o u mu : fsqrt 1 = (1 : F) -> symmetric n M -> lapack_info0 sygvd ->
  pre_ok A n pre -> s_lib c = 0%nat -> (1 <= s_maxiter c)%nat ->
  lobpcg_solve fuel c s A pre sygvd l xcol x li lr = Ok o -> lo_code o <> RESIDUAL_NAN -> lo_info o = 0%Z ->
  eigenbasis n M u mu -> forall i, (i < length l)%nat -> (i < n)%nat -> leq (mu i) (fn (lo_l o) i).
Proof.
  intros H1 Hsym Hlap Hp Hlib Hmx H Hc Hi Hu.
  destruct (@final_ritz fuel c s pre l xcol x li lr o H1 Hsym Hlap Hp Hlib Hmx H Hc Hi) as (Ll & st & sm & lam & V & R).
  exact (above_true Ho Ll R Hu).
Qed.

(** *** C75 *)
Theorem C75_monotone fuel1 fuel2 c s pre l xcol x li lr k o1 o2 : fsqrt 1 = (1 : F) -> symmetric n M -> lapack_info0 sygvd ->
  pre_ok A n pre -> s_lib c = 0%nat -> (1 <= k)%nat ->
  lobpcg_solve fuel1 (with_maxiter c k) s A pre sygvd l xcol x li lr = Ok o1 ->
  lobpcg_solve fuel2 (with_maxiter c (S k)) s A pre sygvd l xcol x li lr = Ok o2 ->
  lo_code o1 = MAXITER -> lo_code o2 <> RESIDUAL_NAN -> lo_info o1 = 0%Z -> lo_info o2 = 0%Z ->
  forall i, (i < length l)%nat -> leq (fn (lo_l o2) i) (fn (lo_l o1) i).
Proof.
  intros H1 Hsym Hlap Hp Hlib Hk E1 E2 C1 C2 I1 I2.
  destruct (two_limits Hex Hlt HA sygvd fuel1 fuel2 c s l xcol x li lr Hp Hlib Hk E1 E2 C1 C2)
    as (apply & st0 & sm0 & ca0 & rs0 & st & sm & ca & rs & L0 & L1 & G1 & G2 & S0 & S1).
  rewrite I1 in S0. rewrite I2 in S1.
  destruct (step_ritz Hex (one_one H1) Hsym Hlap L0 S0) as (lam0 & V0 & R0).
  destruct (step_ritz Hex (one_one H1) Hsym Hlap L1 S1) as (lam & V & R1).
  rewrite <- G1, <- G2 in R0. intros i Hi. rewrite <- G1. exact (mono_step Ho Hsym L1 R0 R1 Hi).
Qed.

(** *** C76: the call may run for ever *)
Theorem C76_standard_refuted fuel c x lam l0 li lr :
  (forall a : F, leq 0 a -> root_of a) ->
  lapack_minors sygvd -> s_lib c = 0%nat -> (0 < s_maxiter c)%nat -> length x = n ->
  (forall k, (k < n)%nat -> mv n M (fn x) k = lam * fn x k) -> lam <> 0 ->
  dotp n (fn x) (fn x) <> 0 -> dotp n (fn x) (fn x) <> 1 ->
  lobpcg_solve fuel c USER A pc_none sygvd [l0] n [x] li lr = NoFuel.
Proof. intros Hr Hm Hl Hx Lx Hv Hlam H0 H1. exact (never_standard Ho Hr fuel c x l0 li lr HA Hm Hl Hx Lx Hv Hlam H0 H1). Qed.

(** it returns if ?sygvd never calls the first two blocks of vectors dependent: then 2 maxiter + 1 passes are enough *)
Theorem C76_terminates_partial c s pre l xcol x li lr : pre_ok A n pre ->
  (forall call Sa Sb, shaped (2 * length l) (2 * length l) Sa -> shaped (2 * length l) (2 * length l) Sb ->
    let info := fst (fst (sygvd call Sa Sb)) in ~ (3 * Z.of_nat (length l) < info <= 4 * Z.of_nat (length l))%Z) ->
  lobpcg_solve (2 * s_maxiter c + 1) c s A pre sygvd l xcol x li lr <> NoFuel.
Proof.
  intros Hp Hn. apply (lobpcg_ends Hex Hlt HA); auto. intros call Sa Sb Ha Hb. specialize (Hn call Sa Sb Ha Hb). cbv zeta in Hn.
  unfold judge, lbound, ubound. destruct (_ && _) eqn:E.
  - exfalso. apply Hn. apply andb_prop in E. lia.
  - match goal with |- (if ?b then _ else _) <> _ => destruct b end; discriminate.
Qed.
Theorem C76_more_fuel fuel c s pre l xcol x li lr o d :
  lobpcg_solve fuel c s A pre sygvd l xcol x li lr = Ok o -> lobpcg_solve (fuel + d) c s A pre sygvd l xcol x li lr = Ok o.
Proof. apply lobpcg_fuel. Qed.

(** *** C77: failures of the inner dense eigenproblem *)
(** the failures of the last one that go unnoticed *)
Theorem C77_unnoticed_partial fuel c s pre l xcol x li lr o : pre_ok A n pre -> s_lib c = 0%nat -> (1 <= s_maxiter c)%nat ->
  lobpcg_solve fuel c s A pre sygvd l xcol x li lr = Ok o -> lo_code o <> RESIDUAL_NAN ->
  lo_info o = 0%Z \/ (Z.of_nat (length l) <= lo_info o)%Z.
Proof.
  intros Hp Hlib Hmx H Hc. destruct (lobpcg_final Hex Hlt HA sygvd _ _ _ _ _ _ _ _ Hp Hlib H) as (apply & _ & _ & _ & C).
  assert (J : exists small, judge (length l) small (lo_info o) = VUse).
  { destruct C as [(C1 & _)|[(_ & _ & _ & sm & ca & st & rs & _ & C5 & _)|(_ & _ & [C3|(sm & ca & st & rs & _ & C5 & _)])]];
      [contradiction| |lia|]; destruct C5 as (? & ? & ? & ? & _ & _ & _ & J & _); eauto. }
  destruct J as (small & J). unfold judge, lbound, ubound in J.
  destruct (Z.eq_dec (lo_info o) 0) as [E|E]; auto. right.
  destruct ((if small then 3 * Z.of_nat (length l) else 5 * Z.of_nat (length l)) <? lo_info o)%Z eqn:E1;
  destruct (lo_info o <=? (if small then 4 * Z.of_nat (length l) else 6 * Z.of_nat (length l)))%Z eqn:E2;
  destruct (negb (lo_info o =? 0)%Z && (lo_info o <? Z.of_nat (length l))%Z) eqn:E3; cbn in J; try discriminate;
  destruct small; lia.
Qed.

(** *** C81: memory safety and guards *)
(** [x] has as many columns as it says, and random_vector fills n elements *)
Theorem C81_safe fuel c s pre l xcol x li lr : pre_ok A n pre -> lapack_sizes sygvd -> (1 <= length l)%nat ->
  (match s with RANDOM rnd => forall i, length (rnd i) = n | USER => True end) -> shaped (length x) xcol x ->
  match lobpcg_solve fuel c s A pre sygvd l xcol x li lr with
  | UB | Abort => False
  | Throw => xcol <> n \/ length l <> length x \/
      exists call Sa Sb, let info := fst (fst (sygvd call Sa Sb)) in info <> 0%Z /\ (info < Z.of_nat (length l))%Z
  | Ok _ | NoFuel => True
  end.
Proof.
  intros Hp Hsz Hm Hs Hx. pose proof (@lobpcg_fine F SF Hex Hlt A n M HA sygvd Hsz fuel c s pre l xcol x li lr Hp Hm Hs Hx) as G.
  destruct (lobpcg_solve _ _ _ _ _ _ _ _ _ _ _); cbn [fine] in G; auto. destruct G as [G|[G|G]]; auto.
Qed.
Theorem C81_guard fuel c s pre l xcol x li lr :
  (s_lib c = 0%nat -> xcol <> n \/ length l <> length x -> lobpcg_solve fuel c s A pre sygvd l xcol x li lr = Throw) /\
  (s_lib c <> 0%nat -> exists o, lobpcg_solve fuel c s A pre sygvd l xcol x li lr = Ok o /\
     lo_code o = SUCCESS /\ lo_l o = l /\ lo_x o = x /\ lo_iter o = li /\ lo_resid o = lr).
Proof.
  unfold lobpcg_solve. split.
  - intros -> H. unfold lobpcg, require_. assert (En : mi_col A = n) by apply HA. rewrite En.
    destruct (n =? xcol)%nat eqn:E1; cbn [bind]; auto. apply Nat.eqb_eq in E1.
    destruct (length l =? length x)%nat eqn:E2; cbn [bind]; auto. apply Nat.eqb_eq in E2. destruct H; congruence.
  - intros H. destruct (s_lib c); [congruence|]. eexists. split; [reflexivity|]. cbn. auto.
Qed.

(** *** C78: with a preconditioner *)
(** what is compared with the tolerance is the norm of what apply_precond makes of A x_i - l_i x_i *)
Theorem C78_tested_partial fuel c s pre l xcol x li lr o : pre_ok A n pre -> s_lib c = 0%nat ->
  lobpcg_solve fuel c s A pre sygvd l xcol x li lr = Ok o -> lo_code o = SUCCESS ->
  exists apply rs, pre A = Ok apply /\ length rs = length l /\ largest (lo_resid o) rs /\
    forall i, (i < length l)%nat -> exists r z z', length r = n /\
      (forall k, (k < n)%nat -> fn r k = eig_resid n M (fn (lo_l o) i) (rowf (lo_x o) i) k) /\
      apply r z = Ok z' /\ v_nrm2 z' = Ok (fn rs i) /\ fltb (fn rs i) (s_tol c) = true.
Proof.
  intros Hp Hlib H Hs. destruct (lobpcg_final Hex Hlt HA sygvd _ _ _ _ _ _ _ _ Hp Hlib H) as (apply & Ea & _ & (S1 & S2) & C).
  destruct C as [(C1 & _)|[(_ & C2 & _ & sm & ca & st & rs & _ & C4 & C5)|(C1 & _)]]; [rewrite Hs in C1; discriminate| |rewrite Hs in C1; discriminate].
  exists apply, rs. destruct C4 as (Sa & Sb & lam & V & _ & _ & _ & _ & Lr & Hd). do 2 (split; auto). split; auto.
  intros i Hi. destruct (Hd i Hi) as ((r & z & z' & L1 & L2 & Er & Ez & En) & _). exists r, z, z'. do 4 (split; auto).
  eapply Hll; [|exact C2]. apply C5. unfold fn. apply nth_In. lia.
Qed.

(** *** C79, C80: the generalized problem *)
Section General.
Variables (B : matif (F:=F)) (N : nat -> nat -> F).
Hypothesis HB : represents B n N.

Theorem C79_code fuel c s pre l xcol x itype li lr o : pre_ok A n pre -> s_lib c = 0%nat ->
  globpcg_solve fuel c s A B pre sygvd l xcol x itype li lr = Ok o ->
  eig_code_honest c o /\ shaped (length l) n (lo_x o) /\ length (lo_l o) = length l.
Proof.
  intros Hp Hlib H. destruct (globpcg_final Hex Hlt HA HB sygvd _ _ _ _ _ _ _ _ _ Hp Hlib H) as (apply & _ & _ & (S1 & S2) & C).
  split; [|auto]. unfold eig_code_honest. destruct C as [C|[(C1 & C2 & C3 & _)|(C1 & C2 & _)]]; auto 10.
Qed.

(** the residual that is tested is that of the standard problem *)
Theorem C79_residual_partial fuel c s l xcol x itype li lr o : s_lib c = 0%nat ->
  globpcg_solve fuel c s A B pc_none sygvd l xcol x itype li lr = Ok o -> lo_code o = SUCCESS ->
  forall i, (i < length l)%nat ->
    fltb (norm2 n (eig_resid n M (fn (lo_l o) i) (rowf (lo_x o) i))) (s_tol c) = true.
Proof.
  intros Hlib H Hs i Hi. destruct (globpcg_final Hex Hlt HA HB sygvd _ _ _ _ _ _ _ _ _ (none_ok A n) Hlib H) as (apply & Ea & _ & (S1 & S2) & C). injection Ea as <-.
  destruct C as [(C1 & _)|[(_ & C2 & _ & sm & ca & st & rs & _ & C4 & C5)|(C1 & _)]]; [rewrite Hs in C1; discriminate| |rewrite Hs in C1; discriminate].
  destruct C4 as (Sa & Sb & lam & V & _ & _ & _ & _ & Lr & Hd). destruct (Hd i Hi) as (T & _). pose proof (tested_none T) as T'.
  rewrite <- T'. eapply Hll; [|exact C2]. apply C5. unfold fn. apply nth_In. lia.
Qed.
(** ... so the test is right where B does nothing *)
Theorem C79_residual_identity_partial fuel c s l xcol x itype li lr o :
  (forall i j, (i < n)%nat -> (j < n)%nat -> N i j = if (i =? j)%nat then 1 else 0) -> s_lib c = 0%nat ->
  globpcg_solve fuel c s A B pc_none sygvd l xcol x itype li lr = Ok o -> lo_code o = SUCCESS ->
  forall i, (i < length l)%nat ->
    fltb (norm2 n (geig_resid n M N (fn (lo_l o) i) (rowf (lo_x o) i))) (s_tol c) = true.
Proof.
  intros HN Hlib H Hs i Hi. rewrite (@norm2_ext F SF n _ (eig_resid n M (fn (lo_l o) i) (rowf (lo_x o) i))).
  - eapply C79_residual_partial; eauto.
  - intros k Hk. unfold geig_resid, eig_resid. f_equal. f_equal.
    rewrite <- (@mv_id F SF Ho n (rowf (lo_x o) i) k Hk). unfold mv. apply sum_ext. intros j Hj. now rewrite HN.
Qed.

(** the same loop: started anywhere with B = beta I and one pair, it never returns *)
Theorem C76_generalized_refuted fuel c x beta l0 li lr :
  (forall a : F, leq 0 a -> root_of a) ->
  lapack_minors sygvd -> s_lib c = 0%nat -> (0 < s_maxiter c)%nat -> length x = n ->
  (forall k, (k < n)%nat -> mv n N (fn x) k = beta * fn x k) -> fltb 0 beta = true ->
  dotp n (fn x) (fn x) <> 0 -> dotp n (fn x) (mv n M (fn x)) <> beta * (beta * dotp n (fn x) (fn x)) ->
  globpcg_solve fuel c USER A B pc_none sygvd [l0] n [x] 1 li lr = NoFuel.
Proof. intros Hr Hm Hl Hx Lx Hv Hlam H0 H1. exact (never_general Ho Hr fuel c x beta l0 li lr HA HB Hm Hl Hx Lx Hv Hlam H0 H1). Qed.

Theorem C81_general_safe fuel c s pre l xcol x itype li lr : pre_ok A n pre -> lapack_sizes sygvd -> (1 <= length l)%nat ->
  (match s with RANDOM rnd => forall i, length (rnd i) = n | USER => True end) -> shaped (length x) xcol x -> itype = 1%Z ->
  match globpcg_solve fuel c s A B pre sygvd l xcol x itype li lr with
  | UB | Abort => False
  | Throw => xcol <> n \/ length l <> length x \/
      exists call Sa Sb, let info := fst (fst (sygvd call Sa Sb)) in info <> 0%Z /\ (info < Z.of_nat (length l))%Z
  | Ok _ | NoFuel => True
  end.
Proof.
  intros Hp Hsz Hm Hs Hx Hit. pose proof (@globpcg_fine F SF Hex Hlt A n M HA sygvd Hsz B N HB fuel c s pre l xcol x itype li lr Hp Hm Hs Hx Hit) as G.
  destruct (globpcg_solve _ _ _ _ _ _ _ _ _ _ _ _ _); cbn [fine] in G; auto. destruct G as [G|[G|G]]; auto.
Qed.
(** the only problem type is A x = lambda B x *)
Theorem C81_general_itype fuel c s pre l xcol x itype li lr : s_lib c = 0%nat -> itype <> 1%Z ->
  globpcg_solve fuel c s A B pre sygvd l xcol x itype li lr = Abort.
Proof. intros Hl Hi. unfold globpcg_solve. rewrite Hl. unfold globpcg, assert_. now rewrite (proj2 (Z.eqb_neq itype 1) Hi). Qed.

(** C80: A x_i . x_j = 0 = B x_i . x_j for i <> j, l_i = (A x_i . x_i) / (B x_i . x_i) without the division *)
Theorem C80_ritz fuel c s pre l xcol x itype li lr o : symmetric n M -> symmetric n N -> lapack_info0 sygvd ->
  pre_ok A n pre -> s_lib c = 0%nat -> (1 <= s_maxiter c)%nat ->
  globpcg_solve fuel c s A B pre sygvd l xcol x itype li lr = Ok o -> lo_code o <> RESIDUAL_NAN -> lo_info o = 0%Z ->
  ascending (lo_l o) /\
  (forall i j, (i < length l)%nat -> (j < length l)%nat -> i <> j ->
     dotp n (rowf (lo_x o) i) (mv n N (rowf (lo_x o) j)) = 0 /\ dotp n (rowf (lo_x o) i) (mv n M (rowf (lo_x o) j)) = 0) /\
  (forall i, (i < length l)%nat ->
     dotp n (rowf (lo_x o) i) (mv n M (rowf (lo_x o) i)) = fn (lo_l o) i * dotp n (rowf (lo_x o) i) (mv n N (rowf (lo_x o) i))) /\
  (forall u mu, geigenbasis n M N u mu -> forall i, (i < length l)%nat -> (i < n)%nat -> leq (mu i) (fn (lo_l o) i)).
Proof.
  intros HsA HsB Hlap Hp Hlib Hmx H Hc Hi. destruct (globpcg_final Hex Hlt HA HB sygvd _ _ _ _ _ _ _ _ _ Hp Hlib H) as (apply & _ & _ & (S1 & S2) & C).
  rewrite Hi in C.
  assert (R : exists e, gritz (length l) n M N (lo_l o) (lo_x o) e).
  { destruct C as [(C1 & _)|[(_ & _ & _ & sm & ca & st & rs & C4 & C5 & _)|(_ & _ & [C3|(sm & ca & st & rs & C4 & C5 & _)])]];
    [contradiction| |lia|]; exact (gstep_ritz Hex HsA HsB Hlap C4 C5 S2). }
  destruct R as (e & R1 & R2 & R3 & R4).
  assert (D : forall K i j, (i < length l)%nat -> (j < length l)%nat ->
    dotp n (rowf (lo_x o) i) (mv n K (rowf (lo_x o) j)) = (1 / norm2 n (e i)) * ((1 / norm2 n (e j)) * dotp n (e i) (mv n K (e j)))).
  { intros K i j H1 H2.
    rewrite (@dotp_ext' F SF n _ _ (fun k => 1 / norm2 n (e i) * e i k) (fun k => 1 / norm2 n (e j) * mv n K (e j) k)).
    - unfold dotp. rewrite <- !(sum_scal Hex). apply sum_ext. intros k Hk. 
      rewrite !(Rmul_assoc Hex). f_equal. rewrite <- !(Rmul_assoc Hex). f_equal. apply (Rmul_comm Hex).
    - intros k Hk. now apply R2.
    - intros k Hk. rewrite <- (mv_scal Hex). apply mv_ext. intros t Ht. now apply R2. }
  split; auto. split; [|split].
  - intros i j H1 H2 Hne. rewrite !D by auto. rewrite R3, R4 by auto. rewrite (proj2 (Nat.eqb_neq i j)) by auto. split; ring.
  - intros i H1. rewrite !D by auto. rewrite R3, R4 by auto. rewrite Nat.eqb_refl.
    ring.
  - intros u mu Hu i H1 H2. exact (above_gen Ho e S2 R1 Hu R3 R4 H1 H2).
Qed.
End General.
End Statements.

(** ** Concrete runs, in rational arithmetic *)
#[local] Existing Instance Qcs.
Definition zq (l : list Z) : list Qc := map (fun z => q z 1) l.
Definition mat3 (l : list Qc) : dense Qc := mkDense 3 3 l 0 9 9 true.
Lemma mat3_ok l : length l = 9%nat -> represents (@dense_if Qc Qcs (mat3 l)) 3 (@dense_fn Qc Qcs (mat3 l)).
Proof. intros H. apply dense_represents; [exact (of_ring Qcs_ordered)| |reflexivity|reflexivity]. unfold dense_ok, mat3. cbn. rewrite H. lia. Qed.

Lemma sim_sizes (table : list (entry (F:=Qc))) : forallb (@decomposesb Qc Qcs) table = true -> lapack_sizes (@sim Qc Qcs table).
Proof.
  intros HT call k Sa Sb Ha Hb. unfold sim. destruct Hb as (Lb & Hb). rewrite Lb.
  destruct (first_bad k Sb); [split; [apply repeat_length|auto]|].
  destruct (find _ table) as [[[[a b] lam'] V']|] eqn:Ef; [|split; [apply repeat_length|auto]].
  apply find_some in Ef. destruct Ef as (Hin & He). apply andb_prop in He. destruct He as (H1 & _).
  apply (@rows_eqb_eq Qc Qcs (fun x y => proj1 (Qcs_eq x y))) in H1. subst a. rewrite forallb_forall in HT. specialize (HT _ Hin).
  apply (@decomposesb_ok Qc Qcs (fun x y => proj1 (Qcs_eq x y))) in HT. destruct Ha as (La & _). rewrite La in HT. destruct HT as (D1 & D2 & _). auto.
Qed.

(** *** C73-C75: [[1152,96,0],[96,1208,-1500],[0,-1500,1875]] has the eigenvalues 0, 1155, 3080 *)
Definition A3 : dense Qc := mat3 (zq [1152;96;0; 96;1208;-1500; 0;-1500;1875]%Z).
Definition e1 : list Qc := zq [1;0;0]%Z.
Definition I2 : list (list Qc) := [zq [1;0]%Z; zq [0;1]%Z].
Definition T3 : list (entry (F:=Qc)) :=
 [ ([zq [1208;96]%Z; zq [96;1152]%Z], I2, zq [1080;1280]%Z, [[q 3 5; q (-4) 5]; [q 4 5; q 3 5]]);
   ([zq [1875;900;1500]%Z; zq [900;1080;648]%Z; zq [1500;648;1208]%Z], [[q 1 1; q 0 1; q 0 1]; [q 0 1; q 1 1; q 3 5]; [q 0 1; q 3 5; q 1 1]],
    zq [0;1155;3080]%Z, [[q (-48) 77; q 25 308; q 225 308]; [q 5 77; q 96 77; q (-60) 77]; [q 60 77; q (-3) 77; q 50 77]])].
Definition c3 (k : nat) : cfg (F:=Qc) := mkCfg 0 (q 1 100) 0 k 0 (q 1 1).
Definition run3 (k : nat) : res (lout (F:=Qc)) :=
  @lobpcg_solve Qc Qcs 3 (c3 k) USER (@dense_if Qc Qcs A3) pc_none (@sim Qc Qcs T3) [q 0 1] 3 [e1] 0 (q 0 1).
Definition u3 (s k : nat) : Qc :=
  nth k (nth s [[q (-5) 77; q 60 77; q 48 77]; [q (-384) 385; q (-12) 385; q (-5) 77]; [q (-12) 385; q (-241) 385; q 60 77]] []) (q 0 1).
Definition mu3 (s : nat) : Qc := nth s (zq [0;1155;3080]%Z) (q 0 1).
(** a run that returns, and what can be checked by computation about what it returns *)
Lemma ran (r : res (lout (F:=Qc))) (b : lout (F:=Qc) -> bool) : match r with Ok o => b o | _ => false end = true -> exists o, r = Ok o /\ b o = true.
Proof. destruct r; try discriminate. eauto. Qed.
Definition looks (code info : Z) (l x : list Qc) (res : Qc) (o : lout (F:=Qc)) : bool :=
  (lo_code o =? code)%Z && (lo_info o =? info)%Z && vec_eqb (lo_l o) l && rows_eqb (lo_x o) [x] && feqb (lo_resid o) res.
Lemma looks_ok code info l x res o : looks code info l x res o = true ->
  lo_code o = code /\ lo_info o = info /\ lo_l o = l /\ lo_x o = [x] /\ lo_resid o = res.
Proof.
  unfold looks. intros H. repeat (apply andb_prop in H; destruct H as (H & ?)). apply Z.eqb_eq in H, H3.
  apply (@vec_eqb_eq Qc Qcs (fun x y => proj1 (Qcs_eq x y))) in H2. apply (@rows_eqb_eq Qc Qcs (fun x y => proj1 (Qcs_eq x y))) in H1.
  apply Qcs_eq in H0. auto.
Qed.

Ltac qc := apply Qcs_eq; vm_compute; reflexivity.
Lemma sqrt1 : @fsqrt Qc Qcs (@f1 Qc Qcs) = @f1 Qc Qcs. Proof. qc. Qed.
Lemma A3_sym : symmetric 3 (@dense_fn Qc Qcs A3).
Proof. intros i j Hi Hj. destruct i as [|[|[|i]]]; [| | |lia]; (destruct j as [|[|[|j]]]; [| | |lia]); qc. Qed.
Lemma A3_basis : eigenbasis 3 (dense_fn A3) u3 mu3.
Proof.
  split; [|split].
  - intros i j Hi Hj. destruct i as [|[|[|i]]]; [| | |lia]; (destruct j as [|[|[|j]]]; [| | |lia]); qc.
  - intros i j Hi Hj. destruct i as [|[|[|i]]]; [| | |lia]; (destruct j as [|[|[|j]]]; [| | |lia]); qc.
  - intros i j Hij. destruct i as [|[|[|i]]]; [| | |lia]; (destruct j as [|[|[|j]]]; [| | |lia]); try lia; vm_compute; reflexivity.
Qed.
Lemma sim3_info0 : lapack_info0 (@sim Qc Qcs T3).
Proof. apply (@sim_info0 Qc Qcs (fun x y => proj1 (Qcs_eq x y))). vm_compute. reflexivity. Qed.

Definition x31 : list Qc := [q (-4) 5; q 3 5; q 0 1].
Definition x32 : list Qc := [q (-5) 77; q 60 77; q 48 77].
Lemma run3_1 : exists o, run3 1 = Ok o /\ looks MAXITER 0 [q 1080 1] x31 (q 900 1) o = true.
Proof. apply ran. vm_compute. reflexivity. Qed.
Lemma run3_2 : exists o, run3 2 = Ok o /\ looks SUCCESS 0 [q 0 1] x32 (q 0 1) o = true.
Proof. apply ran. vm_compute. reflexivity. Qed.
Lemma A3_represents : represents (dense_if A3) 3 (dense_fn A3).
Proof. now apply mat3_ok. Qed.

(** one step: not yet below the tolerance; two steps: the smallest eigenvalue and its eigenvector *)
Theorem C73_example : exists o1 o2, run3 1 = Ok o1 /\ run3 2 = Ok o2 /\
  lo_code o1 = MAXITER /\ lo_l o1 = [q 1080 1] /\ lo_resid o1 = q 900 1 /\
  lo_code o2 = SUCCESS /\ lo_l o2 = [q 0 1] /\ lo_x o2 = [x32] /\
  fltb (norm2 3 (eig_resid 3 (dense_fn A3) (fn (lo_l o2) 0) (rowf (lo_x o2) 0))) (q 1 100) = true /\
  exists j, (j < 3)%nat /\ within (q 1 100) (mu3 j) (fn (lo_l o2) 0).
Proof.
  destruct run3_1 as (o1 & E1 & L1). destruct run3_2 as (o2 & E2 & L2).
  destruct (looks_ok _ _ _ _ _ _ L1) as (C1 & I1 & l1 & X1 & r1). destruct (looks_ok _ _ _ _ _ _ L2) as (C2 & J2 & l2 & X2 & r2).
  exists o1, o2. split; [exact E1|]. split; [exact E2|]. do 6 (split; auto).
  split.
  - exact (proj2 (@C73_residual Qc Qcs Qcs_ordered _ 3 _ A3_represents _ 3 (c3 2) USER [q 0 1] 3 [e1] 0 (q 0 1) o2 eq_refl E2 (or_introl C2)) C2 0%nat ltac:(cbn; lia)).
  - refine (@C73_near_eigenvalue Qc Qcs Qcs_ordered _ 3 _ A3_represents _ 3 (c3 2) USER [q 0 1] 3 [e1] 0 (q 0 1) o2 u3 mu3 sqrt1 A3_sym sim3_info0 eq_refl E2 C2 J2 A3_basis 0%nat _ _); [cbn; lia|].
    rewrite l2, X2. split; [qc|vm_compute; reflexivity].
Qed.
Theorem C74_example : exists o, run3 1 = Ok o /\ orthonormal 1 3 (lo_x o) /\ leq (mu3 0) (fn (lo_l o) 0).
Proof.
  destruct run3_1 as (o & E & L). destruct (looks_ok _ _ _ _ _ _ L) as (C & I & _). exists o. split; [exact E|].
  assert (Hc : lo_code o <> RESIDUAL_NAN) by (rewrite C; discriminate). split.
  - exact (proj1 (proj2 (@C74_ritz Qc Qcs Qcs_ordered _ 3 _ A3_represents _ 3 (c3 1) USER pc_none [q 0 1] 3 [e1] 0 (q 0 1) o sqrt1 A3_sym sim3_info0 (none_ok _ _) eq_refl (le_n 1) E Hc I))).
  - refine (@C74_bound Qc Qcs Qcs_ordered _ 3 _ A3_represents _ 3 (c3 1) USER pc_none [q 0 1] 3 [e1] 0 (q 0 1) o u3 mu3 sqrt1 A3_sym sim3_info0 (none_ok _ _) eq_refl (le_n 1) E Hc I A3_basis 0%nat _ _); cbn; lia.
Qed.
Theorem C75_example : exists o1 o2, run3 1 = Ok o1 /\ run3 2 = Ok o2 /\ lo_l o1 = [q 1080 1] /\ lo_l o2 = [q 0 1] /\ leq (fn (lo_l o2) 0) (fn (lo_l o1) 0).
Proof.
  destruct run3_1 as (o1 & E1 & L1). destruct run3_2 as (o2 & E2 & L2).
  destruct (looks_ok _ _ _ _ _ _ L1) as (C1 & I1 & l1 & _). destruct (looks_ok _ _ _ _ _ _ L2) as (C2 & J2 & l2 & _).
  exists o1, o2. split; [exact E1|]. split; [exact E2|]. split; [exact l1|]. split; [exact l2|].
  refine (@C75_monotone Qc Qcs Qcs_ordered _ 3 _ A3_represents _ 3 3 (c3 9) USER pc_none [q 0 1] 3 [e1] 0 (q 0 1) 1 o1 o2 sqrt1 A3_sym sim3_info0 (none_ok _ _) eq_refl (le_n 1) E1 E2 C1 _ I1 J2 0%nat _); [|cbn; lia].
  rewrite C2. discriminate.
Qed.

(** *** C76: a call that never returns.  The identity matrix, one pair, starting vector (2, 0) *)
Definition id2 : dense R := mkDense 2 2 [1; 0; 0; 1]%R 0 4 4 true.
Theorem C76_example fuel maxiter : (0 < maxiter)%nat ->
  @lobpcg_solve R Rscalar fuel (mkCfg 0 (1 / 1000)%R 0 maxiter 0 1%R) USER (@dense_if R Rscalar id2) pc_none (@sim R Rscalar []) [0%R] 2 [[2; 0]%R] 0 0%R = NoFuel.
Proof.
  intros Hm.
  assert (HR : @represents R Rscalar (@dense_if R Rscalar id2) 2 (@dense_fn R Rscalar id2)).
  { apply (@dense_represents R Rscalar R_exact); auto. unfold dense_ok. cbn. lia. }
  apply (@C76_standard_refuted R Rscalar R_ordered _ 2 _ HR _ fuel _ [2; 0]%R 1%R 0%R 0 0%R R_roots (@sim_minors R Rscalar [])); auto.
  - intros k Hk. unfold mv, dense_fn, sum_n, fn. destruct k as [|[|k]]; [| |lia]; cbn; lra.
  - unfold dotp, sum_n, fn. cbn. lra.
  - unfold dotp, sum_n, fn. cbn. lra.
Qed.
(** the generalized solver: A = I, B = 2 I *)
Definition two2 : dense R := mkDense 2 2 [2; 0; 0; 2]%R 0 4 4 true.
Theorem C76_generalized_example fuel maxiter : (0 < maxiter)%nat ->
  @globpcg_solve R Rscalar fuel (mkCfg 0 (1 / 1000)%R 0 maxiter 0 1%R) USER (@dense_if R Rscalar id2) (@dense_if R Rscalar two2) pc_none (@sim R Rscalar []) [0%R] 2 [[1; 0]%R] 1 0 0%R = NoFuel.
Proof.
  intros Hm.
  assert (HR : @represents R Rscalar (@dense_if R Rscalar id2) 2 (@dense_fn R Rscalar id2)).
  { apply (@dense_represents R Rscalar R_exact); auto. unfold dense_ok. cbn. lia. }
  assert (HR2 : @represents R Rscalar (@dense_if R Rscalar two2) 2 (@dense_fn R Rscalar two2)).
  { apply (@dense_represents R Rscalar R_exact); auto. unfold dense_ok. cbn. lia. }
  apply (@C76_generalized_refuted R Rscalar R_ordered _ 2 _ HR _ _ _ HR2 fuel _ [1; 0]%R 2%R 0%R 0 0%R R_roots (@sim_minors R Rscalar [])); auto.
  - intros k Hk. unfold mv, dense_fn, sum_n, fn. destruct k as [|[|k]]; [| |lia]; cbn; lra.
  - cbn. destruct (Rlt_dec 0 2); auto; lra.
  - unfold dotp, sum_n, fn. cbn. lra.
  - unfold dotp, mv, dense_fn, sum_n, fn. cbn. lra.
Qed.

(** *** C77: two equal starting vectors.  The inner problem is singular (info = 6: the second leading minor is 0), no eigenvalue
    was computed, and the call reports success with two equal "eigenvectors" *)
Definition A77 : dense Qc := mkDense 2 2 [q 0 1; q 1 1000; q 1 1000; q 0 1] 0 4 4 true.
Theorem C77_refuted : exists o,
  lobpcg_solve 3 (mkCfg 0 (q 1 100) 0 9 0 (q 1 1)) USER (dense_if A77) pc_none (sim []) [q 0 1; q 0 1] 2 [[q 1 1; q 0 1]; [q 1 1; q 0 1]] 0 (q 0 1) = Ok o /\
  lapack_minors (sim (F:=Qc) []) /\
  lo_code o = SUCCESS /\ lo_info o = 6%Z /\ nth 0 (lo_x o) [] = [q 1 1; q 0 1] /\ nth 1 (lo_x o) [] = [q 1 1; q 0 1] /\ lo_l o = [q 0 1; q 0 1].
Proof.
  match goal with |- exists o, ?r = _ /\ _ =>
    destruct (@ran r (fun o => (lo_code o =? SUCCESS)%Z && (lo_info o =? 6)%Z && @rows_eqb Qc Qcs (lo_x o) [[q 1 1; q 0 1]; [q 1 1; q 0 1]] && @vec_eqb Qc Qcs (lo_l o) [q 0 1; q 0 1])
      ltac:(vm_compute; reflexivity)) as (o & E & H) end.
  exists o. split; [exact E|]. split; [apply sim_minors|]. repeat (apply andb_prop in H; destruct H as (H & ?)).
  apply Z.eqb_eq in H, H2. apply (@rows_eqb_eq Qc Qcs (fun x y => proj1 (Qcs_eq x y))) in H1. apply (@vec_eqb_eq Qc Qcs (fun x y => proj1 (Qcs_eq x y))) in H0.
  rewrite H1. auto.
Qed.

(** *** C78: Jacobi preconditioner.  Tolerance 1/100; the residual norm of what is returned is 4/5 *)
Definition A78 : dense Qc := mat3 (zq [17;-12;0; -12;10;1; 0;1;10000]%Z).
Definition T78 : list (entry (F:=Qc)) := [ ([zq [10;12]%Z; zq [12;17]%Z], I2, zq [1;26]%Z, [[q (-4) 5; q 3 5]; [q 3 5; q 4 5]])].
Theorem C78_refuted : exists o,
  lobpcg_solve 3 (c3 9) USER (dense_if A78) pc_jacobi (sim T78) [q 0 1] 3 [e1] 0 (q 0 1) = Ok o /\
  lapack_info0 (sim T78) /\ lapack_minors (sim T78) /\
  lo_code o = SUCCESS /\ lo_info o = 0%Z /\
  norm2 3 (eig_resid 3 (dense_fn A78) (fn (lo_l o) 0) (rowf (lo_x o) 0)) = q 4 5.
Proof.
  match goal with |- exists o, ?r = _ /\ _ =>
    destruct (@ran r (looks SUCCESS 0 [q 1 1] [q 3 5; q 4 5; q 0 1] (q 1 12500)) ltac:(vm_compute; reflexivity)) as (o & E & H) end.
  exists o. split; [exact E|]. apply looks_ok in H. destruct H as (H1 & H2 & H3 & H4 & H5).
  split; [apply (@sim_info0 Qc Qcs (fun x y => proj1 (Qcs_eq x y))); vm_compute; reflexivity|]. split; [apply sim_minors|].
  split; [exact H1|]. split; [exact H2|]. rewrite H3, H4. qc.
Qed.

(** *** C79: the generalized solver.  Tolerance 1/50; A x - l B x has norm 672 *)
Definition A79 : dense Qc := mat3 [q 1 1; q (-291) 2500; q 0 1; q (-291) 2500; q 2631 2800; q 0 1; q 0 1; q 0 1; q 1 1].
Definition B79 : dense Qc := mat3 [q 1 1; q 3 700; q 0 1; q 3 700; q 793 784; q 1000 1; q 0 1; q 1000 1; q 10000000 1].
Definition T79 : list (entry (F:=Qc)) :=
  [ ([[q 2631 2800; q (-291) 2500]; [q (-291) 2500; q 1 1]], [[q 793 784; q 3 700]; [q 3 700; q 1 1]], [q 21 25; q 109 100],
     [[q 35 44; q 105 176]; [q (-105) 176; q 565 704]])].
Definition run79 : res (lout (F:=Qc)) :=
  globpcg_solve 3 (mkCfg 0 (q 1 50) 0 9 0 (q 1 1)) USER (dense_if A79) (dense_if B79) pc_none (sim T79) [q 0 1] 3 [e1] 1 0 (q 0 1).
Lemma run79_ok : exists o, run79 = Ok o /\ looks SUCCESS 0 [q 21 25] [q 3 5; q 4 5; q 0 1] (q 9 875) o = true.
Proof. apply ran. vm_compute. reflexivity. Qed.
Lemma sim79_info0 : lapack_info0 (sim T79).
Proof. apply (@sim_info0 Qc Qcs (fun x y => proj1 (Qcs_eq x y))). vm_compute. reflexivity. Qed.
Theorem C79_refuted : exists o, run79 = Ok o /\ lapack_info0 (sim T79) /\ lapack_minors (sim T79) /\
  lo_code o = SUCCESS /\ lo_info o = 0%Z /\
  fltb (norm2 3 (eig_resid 3 (dense_fn A79) (fn (lo_l o) 0) (rowf (lo_x o) 0))) (q 1 50) = true /\
  fltb (q 600 1) (norm2 3 (geig_resid 3 (dense_fn A79) (dense_fn B79) (fn (lo_l o) 0) (rowf (lo_x o) 0))) = true.
Proof.
  destruct run79_ok as (o & E & H). exists o. split; [exact E|]. apply looks_ok in H. destruct H as (H1 & H2 & H3 & H4 & H5).
  split; [exact sim79_info0|]. split; [apply sim_minors|].
  split; [exact H1|]. split; [exact H2|]. rewrite H3, H4. split; vm_compute; reflexivity.
Qed.
Theorem C80_example : exists o, run79 = Ok o /\ lo_code o <> RESIDUAL_NAN /\ lo_info o = 0%Z /\
  symmetric 3 (dense_fn A79) /\ symmetric 3 (dense_fn B79) /\ lapack_info0 (sim T79) /\
  dotp 3 (rowf (lo_x o) 0) (mv 3 (dense_fn A79) (rowf (lo_x o) 0)) = (q 21 25 * dotp 3 (rowf (lo_x o) 0) (mv 3 (dense_fn B79) (rowf (lo_x o) 0)))%Qc.
Proof.
  destruct run79_ok as (o & E & H). exists o. split; [exact E|]. apply looks_ok in H. destruct H as (H1 & H2 & H3 & H4 & H5).
  assert (Hc : lo_code o <> RESIDUAL_NAN) by (rewrite H1; discriminate). split; [exact Hc|]. split; [exact H2|].
  assert (SA : symmetric 3 (dense_fn A79)) by (intros i j Hi Hj; destruct i as [|[|[|i]]]; [| | |lia]; (destruct j as [|[|[|j]]]; [| | |lia]); qc).
  assert (SB : symmetric 3 (dense_fn B79)) by (intros i j Hi Hj; destruct i as [|[|[|i]]]; [| | |lia]; (destruct j as [|[|[|j]]]; [| | |lia]); qc).
  split; [exact SA|]. split; [exact SB|]. split; [exact sim79_info0|].
  assert (RA : represents (dense_if A79) 3 (dense_fn A79)) by now apply mat3_ok.
  assert (RB : represents (dense_if B79) 3 (dense_fn B79)) by now apply mat3_ok.
  pose proof (@C80_ritz Qc Qcs Qcs_ordered _ 3 _ RA (sim T79) _ _ RB 3 (mkCfg 0 (q 1 50) 0 9 0 (q 1 1)) USER pc_none [q 0 1] 3 [e1] 1 0 (q 0 1) o SA SB sim79_info0 (none_ok _ _) eq_refl ltac:(cbn; lia) E Hc H2) as (_ & _ & G & _).
  specialize (G 0%nat ltac:(cbn; lia)). rewrite H3 in G. exact G.
Qed.

(** *** C81 *)
Theorem C81_example : lapack_sizes (sim T3) /\ run3 2 <> Throw /\ starts_ok 3 USER [e1] /\ shaped 1 3 [e1].
Proof.
  split; [apply sim_sizes; vm_compute; reflexivity|]. split; [destruct run3_2 as (o & E & _); rewrite E; discriminate|].
  split; [exact I|]. split; auto. intros i Hi. assert (i = 0%nat) by lia. now subst.
Qed.
(** with no pair asked for, the residual norms' maximum is read from an empty vector *)
Theorem C81_no_pairs_refuted : lobpcg_solve 3 (c3 9) USER (dense_if A3) pc_none (fun _ _ _ => (0%Z, [], [])) [] 3 [] 0 (q 0 1) = UB.
Proof. vm_compute. reflexivity. Qed.

Print Assumptions C73_code.
Print Assumptions C73_residual.
Print Assumptions C73_near_eigenvalue.
Print Assumptions C74_ritz.
Print Assumptions C74_bound.
Print Assumptions C75_monotone.
Print Assumptions C76_standard_refuted.
Print Assumptions C76_terminates_partial.
Print Assumptions C76_more_fuel.
Print Assumptions C77_unnoticed_partial.
Print Assumptions C81_safe.
Print Assumptions C81_guard.
Print Assumptions C78_tested_partial.
Print Assumptions C79_code.
Print Assumptions C79_residual_partial.
Print Assumptions C79_residual_identity_partial.
Print Assumptions C76_generalized_refuted.
Print Assumptions C81_general_safe.
Print Assumptions C81_general_itype.
Print Assumptions C80_ritz.
Print Assumptions C73_example.
Print Assumptions C74_example.
Print Assumptions C75_example.
Print Assumptions C76_example.
Print Assumptions C76_generalized_example.
Print Assumptions C77_refuted.
Print Assumptions C78_refuted.
Print Assumptions C79_refuted.
Print Assumptions C80_example.
Print Assumptions C81_example.
Print Assumptions C81_no_pairs_refuted.

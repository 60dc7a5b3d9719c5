(** * PropertiesLog: C38, the logger's call stack.

    The executions quantified over (LogModel.v) are all the call trees in which every function follows its skeleton
    (LogTable.v: the logger calls and control flow of each of the 724 functions that use the logger, in four build
    configurations), with any calls of library functions in between, at any nesting depth. *)
From Coq Require Import String.
From Verif Require Import Base LogModel LogTable LogProof.
Set Implicit Arguments.
Local Open Scope string_scope.
Local Open Scope list_scope.

(** ** specification *)

(** the functions compiled in a configuration, except those at the given places *)
Definition library (c : config) (except : list string) (f : func) : Prop :=
  List.In f all_functions /\ List.In c (f_configs f) /\ ~ List.In (f_where f) except.

(** If, before a call, the logger's stack has exactly the active calls (the ghost's [act]) and the lines written are
    the accurate ones, then: the call has no undefined behaviour; every line written during it is accurate, whether
    it returns or throws; and if it returns the stack is what it was before. *)
Definition accurate (T : func -> Prop) (L : nat) : Prop :=
  forall f g lg o g' lg', call T f g lg o g' lg' -> level lg = L -> calls lg = act g -> lines lg = want g ->
    o <> Crash /\ lines lg' = want g' /\ (o = Ret -> calls lg' = calls lg).
(** the same for a sequence of calls *)
Definition accurate_history (T : func -> Prop) (L : nat) : Prop :=
  forall g lg o g' lg', some_calls T g lg o g' lg' -> level lg = L -> calls lg = act g -> lines lg = want g ->
    o <> Crash /\ lines lg' = want g' /\ (o = Go -> calls lg' = calls lg).

(** ** level 0 and 1: all functions, all configurations *)
Lemma lookup (T : func -> Prop) (P : func -> bool) c ex :
  (forall f, T f -> library c ex f) ->
  forallb (fun f => P f || existsb (String.eqb (f_where f)) ex) all_functions = true ->
  forall f, T f -> P f = true.
Proof.
  intros HT H f Hf. destruct (HT f Hf) as (H1 & _ & H3). rewrite forallb_forall in H. specialize (H f H1).
  apply Bool.orb_prop in H. destruct H as [|H]; auto. exfalso. apply H3. apply existsb_exists in H.
  destruct H as (x & Hx & E). apply String.eqb_eq in E. subst. auto.
Qed.
Lemma ok_accurate (T : func -> Prop) L : (forall f, T f -> ok L f = true) -> accurate T L /\ accurate_history T L.
Proof.
  intros H. destruct (@sound T L H) as (_ & _ & S1 & S2). split.
  - intros f g lg o g' lg' C HL H1 H2. destruct (S2 _ _ _ _ _ _ C HL (conj H1 H2)) as (Ho & _ & E & R).
    split; [destruct Ho; subst; discriminate|]. split; auto. intros E1. destruct (R E1). congruence.
  - intros g lg o g' lg' C HL H1 H2. destruct (S1 _ _ _ _ _ C HL (conj H1 H2)) as (Ho & _ & E & R).
    split; [destruct Ho; subst; discriminate|]. split; auto. intros E1. destruct (R E1). congruence.
Qed.

Theorem C38_level_0_1_partial (c : config) (L : nat) : (L <= 1)%nat ->
  accurate (library c []) L /\ accurate_history (library c []) L.
Proof.
  intros HL. apply ok_accurate.
  assert (L = 0 \/ L = 1)%nat as [-> | ->] by lia; apply (@lookup _ _ c []); [auto|vm_compute; reflexivity|auto|vm_compute; reflexivity].
Qed.
Print Assumptions C38_level_0_1_partial.

(** ** level 2 (solvers and BLAS): all functions but these *)
Definition unbalanced_func : list string := [
  "src/internal/lapack/getrf/dense_double_getrf.cpp:12"; "src/internal/lapack/getrf/dense_float_getrf.cpp:12";
  "src/internal/lapack/getrs/dense_double_getrs.cpp:12"; "src/internal/lapack/getrs/dense_float_getrs.cpp:12";
  "src/internal/lapack/sytrf/dense_double_sytrf.cpp:12"; "src/internal/lapack/sytrf/dense_float_sytrf.cpp:12";
  "src/equation/cholesky/cholesky.cpp:8"; "src/equation/qr/qr.cpp:5" (* GPU builds *) ].

Theorem C38_level_2_partial (c : config) : accurate (library c unbalanced_func) 2 /\ accurate_history (library c unbalanced_func) 2.
Proof. apply ok_accurate. apply (@lookup _ _ c unbalanced_func); [auto|vm_compute; reflexivity]. Qed.
Print Assumptions C38_level_2_partial.

(** ** level 3 (everything): all functions but those and these *)
Definition unbalanced_util : list string := [
  "src/mpi/monolish_mpi.cpp:95" (* comm::Barrier *);
  "src/utils/compare/compare_coo.cpp:101"; "src/utils/compare/compare_coo.cpp:133";
  "src/utils/compare/compare_crs.cpp:96"; "src/utils/compare/compare_crs.cpp:122";
  "src/utils/compare/compare_dense.cpp:9" (* Dense::equal *); "src/utils/compare/compare_dense.cpp:77";
  "src/utils/compare/compare_dense.cpp:98"; "src/utils/compare/compare_dense.cpp:131";
  "src/utils/compare/compare_dense.cpp:164"; "src/utils/compare/compare_dense.cpp:233";
  "src/utils/compare/compare_dense.cpp:254"; "src/utils/compare/compare_dense.cpp:285";
  "src/utils/compare/compare_dense.cpp:316"; "src/utils/compare/compare_linearoperator.cpp:9";
  "src/utils/compare/compare_linearoperator.cpp:31"; "src/utils/compare/compare_tensor_coo.cpp:98";
  "src/utils/compare/compare_tensor_coo.cpp:127"; "src/utils/compare/compare_tensor_dense.cpp:9" (* tensor_Dense::equal *);
  "src/utils/compare/compare_tensor_dense.cpp:82"; "src/utils/compare/compare_tensor_dense.cpp:104";
  "src/utils/compare/compare_tensor_dense.cpp:140"; "src/utils/compare/compare_tensor_dense.cpp:176";
  "src/utils/compare/compare_tensor_dense.cpp:248"; "src/utils/compare/compare_tensor_dense.cpp:270";
  "src/utils/compare/compare_tensor_dense.cpp:304"; "src/utils/compare/compare_tensor_dense.cpp:338";
  "src/utils/compare/compare_vector.cpp:10" (* vector::equal *);
  "src/utils/linearoperator_constructor.cpp:117" (* LinearOperator copy constructor *) ].
Definition unbalanced : list string := unbalanced_func ++ unbalanced_util.

Theorem C38_level_3_partial (c : config) (L : nat) : accurate (library c unbalanced) L /\ accurate_history (library c unbalanced) L.
Proof.
  apply ok_accurate. apply (@lookup _ _ c unbalanced); [auto|].
  destruct L as [|[|[|L]]]; [vm_compute; reflexivity|vm_compute; reflexivity|vm_compute; reflexivity|].
  assert (E : forall k, enabled (S (S (S L))) k = enabled 3 k) by (intros []; reflexivity).
  assert (X : forall n, (forall d, sz d <= n -> forall o, ex (S (S (S L))) d o = ex 3 d o)%nat /\
      (forall ds, szs ds <= n -> forall o, exs (S (S (S L))) ds o = exs 3 ds o)%nat).
  { induction n as [|n [IH1 IH2]].
    - split; [intros d H; assert (P := sz_pos d); lia|]. intros [|d ds] H o; [reflexivity|]. cbn in H. assert (P := sz_pos d). lia.
    - assert (D : (forall d, sz d <= S n -> forall o, ex (S (S (S L))) d o = ex 3 d o)%nat).
      { intros d H o. destruct d as [k|k| |a b|a| | |]; try reflexivity.
        - cbn [ex]. now rewrite E.
        - cbn [ex]. now rewrite E.
        - rewrite !ex_if. change (sz (If a b)) with (S (szs a + szs b)) in H. rewrite !IH2 by lia. reflexivity.
        - rewrite !ex_loop. change (sz (Loop a)) with (S (szs a)) in H. rewrite !IH2 by lia. reflexivity. }
      split; auto. induction ds as [|d ds IHds]; intros H o; [reflexivity|]. cbn [szs] in H. assert (P := sz_pos d). cbn [exs].
      rewrite D by lia. destruct (ex 3 d o) as [l|]; auto. clear -IHds H.
      induction l as [|[oc o1] l IHl]; auto. destruct oc; rewrite ?IHl, ?IHds by lia; reflexivity. }
  assert (K : forall f, ok (S (S (S L))) f = ok 3 f).
  { intros f. unfold ok. destruct (X (szs (f_body f))) as [_ X2]. rewrite X2 by auto. reflexivity. }
  rewrite forallb_forall. intros f Hf. rewrite K. revert f Hf. rewrite <- forallb_forall. vm_compute. reflexivity.
Qed.
Print Assumptions C38_level_3_partial.

(** ** refuted: each of the places left out has a function with a call, at log level 3, that returns with a changed
    stack, or pops an empty stack (undefined behaviour); for the first list already at log level 2.  So the lists above
    cannot be shortened. *)
Theorem C38_unbalanced_refuted (w : string) (L : nat) :
  (L = 3%nat /\ List.In w unbalanced) \/ (L = 2%nat /\ List.In w unbalanced_func) ->
  exists f, List.In f all_functions /\ f_where f = w /\
  forall (T : func -> Prop) g, T f -> exists o g' lg',
    call T f g (start L []) o g' lg' /\ (o = Crash \/ o = Ret /\ calls lg' <> []).
Proof.
  assert (H3 : forallb (fun w => existsb (fun f => String.eqb (f_where f) w && breaks 3 [] f) all_functions) unbalanced = true)
    by (vm_compute; reflexivity).
  assert (H2 : forallb (fun w => existsb (fun f => String.eqb (f_where f) w && breaks 2 [] f) all_functions) unbalanced_func = true)
    by (vm_compute; reflexivity).
  rewrite forallb_forall in H2, H3. intros Hw.
  assert (H : existsb (fun f => String.eqb (f_where f) w && breaks L [] f) all_functions = true)
    by (destruct Hw as [[-> Hw]|[-> Hw]]; auto).
  apply existsb_exists in H. destruct H as (f & Hf & H). apply andb_prop in H. destruct H as [H1 H4]. apply String.eqb_eq in H1.
  exists f. split; auto. split; auto. intros T g HT. apply breaks_ok; auto.
Qed.
Print Assumptions C38_unbalanced_refuted.

(** A concrete one: comparing two vectors of different content (vector::equal, used by operator== and
    operator!=) leaves "equal_core" on the stack for good, so every later line of the log has a wrong path. *)
Definition has_config (c : config) (f : func) : bool :=
  existsb (fun d => match c, d with Cpu, Cpu | Mkl, Mkl | Mpi, Mpi | Gpu, Gpu => true | _, _ => false end) (f_configs f).
Lemma find_function c ex w (P : func -> bool) :
  existsb (fun f => String.eqb (f_where f) w && has_config c f && P f) all_functions = true ->
  existsb (String.eqb w) ex = false ->
  exists f, library c ex f /\ f_where f = w /\ P f = true.
Proof.
  intros H HE. apply existsb_exists in H. destruct H as (f & Hf & H). apply andb_prop in H. destruct H as [H H3].
  apply andb_prop in H. destruct H as [H1 H2]. apply String.eqb_eq in H1. exists f. split; [|auto]. split; auto. split.
  - unfold has_config in H2. apply existsb_exists in H2. destruct H2 as (d & Hd & E). destruct c, d; try discriminate; auto.
  - intros Hi. rewrite H1 in Hi. rewrite <- Bool.not_true_iff_false in HE. apply HE. apply existsb_exists. exists w.
    split; auto. apply String.eqb_refl.
Qed.

Theorem C38_vector_equal_refuted : exists f g' lg',
  library Cpu [] f /\ f_where f = "src/utils/compare/compare_vector.cpp:10" /\
  call (library Cpu []) f {| act := []; want := [] |} (start 3 []) Ret g' lg' /\ act g' = [] /\ calls lg' = ["equal_core"].
Proof.
  destruct (@find_function Cpu [] "src/utils/compare/compare_vector.cpp:10" (fun f =>
    existsb (fun p => match fst p with Ret => path_eqb (calls (snd p)) ["equal_core"] | _ => false end)
      (reals (f_name f) (f_body f) (start 3 [])))) as (f & HT & Hw & H); [vm_compute; reflexivity|reflexivity|].
  apply existsb_exists in H. destruct H as ([oc lg'] & Hin & H). cbn [fst snd] in H. destruct oc; try discriminate.
  destruct (@real_run (f_name f) (library Cpu []) (szs (f_body f))) as [_ R].
  destruct (R _ (Nat.le_refl _) _ _ _ Hin {| act := []; want := [] |}) as (g' & Hr).
  exists f, {| act := []; want := want g' |}, lg'. split; [auto|]. split; [auto|]. split.
  - eapply call_ret; [exact HT|exact Hr|auto|apply calls_nil].
  - split; [reflexivity|]. destruct (calls lg') as [|x [|y l]]; try discriminate; cbn in H.
    + apply andb_prop in H. destruct H as [H _]. apply String.eqb_eq in H. now subst.
    + apply andb_prop in H. destruct H. discriminate.
Qed.
Print Assumptions C38_vector_equal_refuted.

(** Refuted: exceptions.  At level 1 already, CG on a non-square matrix throws and leaves its name on the stack. *)
Theorem C38_exception_refuted : exists f g' lg',
  library Cpu [] f /\ f_where f = "src/equation/cg.cpp:12" /\
  call (library Cpu []) f {| act := []; want := [] |} (start 1 []) Thr g' lg' /\ calls lg' <> [].
Proof.
  destruct (@find_function Cpu [] "src/equation/cg.cpp:12" (throws 1 [])) as (f & HT & Hw & H);
    [vm_compute; reflexivity|reflexivity|].
  destruct (@throws_ok (library Cpu []) 1 [] f {| act := []; want := [] |} HT H) as (g' & lg' & C & E).
  exists f, g', lg'. auto.
Qed.
Print Assumptions C38_exception_refuted.

(** ** a concrete, non-trivial case: one copy function calling another, and the log they write *)
Definition body_eqb (b : list cmd) : bool := match b with [In Util; Any; Out Util] => true | _ => false end.
Example C38_case : exists f g' lg', library Cpu unbalanced f /\
  call (library Cpu unbalanced) f {| act := []; want := [] |} (start 3 []) Ret g' lg' /\
  lines lg' = [(Util, ["copy_core"; "copy_core"]); (Util, ["copy_core"])] /\ calls lg' = [].
Proof.
  destruct (@find_function Cpu unbalanced "src/blas/matrix/copy/crs_copy.hpp:7" (fun f => String.eqb (f_name f) "copy_core" && body_eqb (f_body f)))
    as (f & Hf & _ & Pf); [vm_compute; reflexivity|vm_compute; reflexivity|].
  destruct (@find_function Cpu unbalanced "src/blas/matrix/copy/dense_copy.hpp:7" (fun f => String.eqb (f_name f) "copy_core" && body_eqb (f_body f)))
    as (h & Hh & _ & Ph); [vm_compute; reflexivity|vm_compute; reflexivity|].
  assert (B : forall b, body_eqb b = true -> b = [In Util; Any; Out Util]).
  { intros b. unfold body_eqb. repeat (match goal with |- context [match ?x with _ => _ end] => destruct x; try discriminate end). auto. }
  apply andb_prop in Pf. destruct Pf as [Nf Bf]. apply andb_prop in Ph. destruct Ph as [Nh Bh].
  apply String.eqb_eq in Nf. apply String.eqb_eq in Nh. apply B in Bf. apply B in Bh.
  exists f. eexists. eexists. split; [auto|]. split.
  - eapply call_ret; [exact Hf| |left; reflexivity|apply calls_nil]. rewrite Bf, Nf.
    eapply run_cons; [apply r_in|]. eapply run_cons.
    { apply r_any. eapply calls_cons; [|apply calls_nil].
      eapply call_ret; [exact Hh| |left; reflexivity|apply calls_nil]. rewrite Bh, Nh.
      eapply run_cons; [apply r_in|]. eapply run_cons; [apply r_any; apply calls_nil|].
      eapply run_cons; [apply r_out; cbn; reflexivity|]. apply run_nil. }
    eapply run_cons; [apply r_out; cbn; reflexivity|]. apply run_nil.
  - split; reflexivity.
Qed.

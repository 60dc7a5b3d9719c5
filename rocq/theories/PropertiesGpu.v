(** * PropertiesGpu: C62 (host/device data protocol), C63 (transparency of the GPU build),
    C64 (device memory is released), C65 (host access is refused while on the device). *)
From Coq Require Import ZArith.
From Verif Require Import Base GpuModel GpuSpec GpuProof GpuProof2 GpuProof3 GpuProof4 GpuProof5 GpuProof6.
Set Implicit Arguments.

(** ** C62 *)
Section C62.
Variable V : Type.
Variable dv : V.

(** Every program (any number of objects, any sequence of constructions, copies, moves, assignments, sends,
    recvs, element accesses, resizes, kernels on objects and views, destructions) whose calls are within the
    contract of [GpuSpec.sstep] runs without undefined behaviour (no transfer or kernel touches unmapped or
    partly mapped memory, no array is mapped twice), gives the outputs of the two-copy description, and leaves
    every object with the host and device contents of that description. *)
Theorem C62_refines_partial gpu (p : list (op V)) s outs :
  srun gpu (s0 V) p = Some (Ok (s, outs)) ->
  exists w, run dv gpu (w0 V) p = Ok (w, outs) /\ observes w s.
Proof.
  intros H. pose proof (@run_sim V dv gpu p _ _ _ _ (@rel0 V) (@cpu0 V gpu) H) as (w & g & A & B & _).
  exists w. split; [exact A|]. exact (rel_observes B).
Qed.

(** Operands on different sides (or assignment between different sizes): the program stops at the assertion. *)
Theorem C62_mixed_sides gpu (p : list (op V)) :
  srun gpu (s0 V) p = Some Abort -> run dv gpu (w0 V) p = Abort.
Proof. intros H. exact (@run_sim V dv gpu p _ _ _ _ (@rel0 V) (@cpu0 V gpu) H). Qed.

Lemma run_app gpu p q : forall (w : world V),
  run dv gpu w (p ++ q) =
  (wo <- run dv gpu w p ;; wq <- run dv gpu (fst wo) q ;; Ok (fst wq, snd wo ++ snd wq)).
Proof.
  induction p as [|c p IH]; intros w; cbn [run app].
  - cbn [bind fst snd]. destruct (run dv gpu w q) as [[a b]| | | |]; reflexivity.
  - destruct (step dv gpu w c) as [[w1 o]| | | |]; cbn [bind]; try reflexivity.
    cbn [fst snd]. rewrite IH. destruct (run dv gpu w1 p) as [[w2 os]| | | |]; cbn [bind]; try reflexivity.
    cbn [fst snd]. destruct (run dv gpu w2 q) as [[w3 os']| | | |]; reflexivity.
Qed.

Lemma srun_app gpu p q : forall (s : sworld V) s1 o1 s2 o2,
  srun gpu s p = Some (Ok (s1, o1)) -> srun gpu s1 q = Some (Ok (s2, o2)) ->
  srun gpu s (p ++ q) = Some (Ok (s2, o1 ++ o2)).
Proof.
  induction p as [|c p IH]; intros s s1 o1 s2 o2 A B; cbn [srun app] in *.
  - injection A as <- <-. exact B.
  - destruct (sstep gpu s c) as [[[s' o]| | | |]|]; try discriminate.
    destruct (srun gpu s' p) as [[[s'' os]| | | |]|] eqn:E; try discriminate.
    injection A as <- <-. rewrite (IH s' s'' os s2 o2 E B). reflexivity.
Qed.

(** Round trip: after any program within the contract, sending an object that is on the host and receiving it
    back leaves every object's contents and side unchanged. *)
Theorem C62_roundtrip gpu (p : list (op V)) s outs i h c :
  srun gpu (s0 V) p = Some (Ok (s, outs)) -> sget s i = Some (h, OnHost c) ->
  exists w, run dv gpu (w0 V) (p ++ [OSend V i; ORecv V i]) = Ok (w, outs ++ [OutU V; OutU V]) /\ observes w s.
Proof.
  intros H Hs. destruct (sget_inv _ _ Hs) as [Y1 Y2].
  assert (Q : srun gpu s [OSend V i; ORecv V i] = Some (Ok (s, [OutU V; OutU V]))).
  { cbn [srun sstep]. rewrite Hs. destruct gpu.
    - unfold sget. cbn [sput s_obj s_sto]. rewrite Y1.
      rewrite nth_error_upd_eq by (apply nth_error_Some; congruence).
      do 3 f_equal. unfold sput. cbn [s_sto s_obj]. rewrite upd_upd, upd_same by exact Y2.
      destruct s; reflexivity.
    - rewrite Hs. do 3 f_equal. unfold sput. rewrite upd_same by exact Y2. destruct s; reflexivity. }
  exact (@C62_refines_partial _ _ _ _ (@srun_app gpu p _ _ _ _ _ _ H Q)).
Qed.
End C62.

(** the values of an object on one side, as a client would read them after the run *)
Definition demo : list (op Z) :=
  [ ONew KVec 0 [1;2;3]%Z []; ONew KVec 0 [10;20;30]%Z [];                  (* objects 0, 1 *)
    ONew KCrs 2 [5;6;7]%Z [[0;1;1]%Z; [0;1;3]%Z];                          (* object 2 *)
    OSend Z 0; OSend Z 1; OSend Z 2;
    OMap (Opd 0 None) [Opd 1 None] (fun ins i => nth i (hd [] (nth 0 ins [])) 0 + nth i (hd [] (nth 1 ins [])) 0)%Z;
    OMap (Opd 0 (Some (1, 2))) [] (fun ins i => 2 * nth i (hd [] (nth 0 ins [])) 0)%Z;   (* a view *)
    OReduce (Opd 0 None) [] (fun ins => nth 2 (hd [] (nth 0 ins [])) 0)%Z;
    OCopy Z 0;                                                             (* object 3, on the device *)
    OGet Z 0 0;                                                            (* refused *)
    ORecv Z 0; OGet Z 0 0; OGet Z 0 1;
    ORecv Z 3; OPush 3 99%Z; OResize 3 6 7%Z; OGet Z 3 5;
    ORecv Z 2; ODestroy Z 1; ODestroy Z 2; ODestroy Z 3; ODestroy Z 0 ].

(** the contract of C62 holds of a non-trivial program, and the outputs are the expected ones *)
Theorem C62_demo : exists s, srun true (s0 Z) demo = Some (Ok (s,
  [OutU Z; OutU Z; OutU Z; OutU Z; OutU Z; OutU Z; OutU Z; OutU Z; OutV 66%Z; OutU Z; OutThrew Z; OutU Z;
   OutV 11%Z; OutV 44%Z; OutU Z; OutU Z; OutU Z; OutV 7%Z; OutU Z; OutU Z; OutU Z; OutU Z; OutU Z])).
Proof. eexists. vm_compute. reflexivity. Qed.

(** FALSE outside that contract.  Dense::resize with spare capacity does not look at the device status: the
    next kernel uses device memory that was never mapped. *)
Definition dense_resize_prog : list (op Z) :=
  [ ONew KDense 0 [1;2;3;4;5;6]%Z []; OResize 0 4 0%Z; OSend Z 0; OResize 0 5 0%Z;
    OMap (Opd 0 None) [] (fun ins i => nth i (hd [] (nth 0 ins [])) 0)%Z ].
Theorem C62_dense_resize_refuted :
  (exists w, run 0%Z true (w0 Z) (firstn 4 dense_resize_prog) = Ok (w, [OutU Z; OutU Z; OutU Z; OutU Z])) /\
  run 0%Z true (w0 Z) dense_resize_prog = UB.
Proof. split; [eexists|]; vm_compute; reflexivity. Qed.

(** An alias made by move shares the device status but not the new buffer after the owner was resized. *)
Definition alias_resize_prog : list (op Z) :=
  [ ONew KVec 0 [1;2;3]%Z []; ONew KVec 0 []%Z []; OMove Z 1 0; OResize 0 5 0%Z; OSend Z 0;
    OReduce (Opd 1 None) [] (fun ins => nth 0 (hd [] (nth 0 ins [])) 0)%Z ].
Theorem C62_alias_resize_refuted :
  run 0%Z true (w0 Z) alias_resize_prog = UB /\
  exists w o, run 0%Z false (w0 Z) alias_resize_prog = Ok (w, o).
Proof. split; [|do 2 eexists]; vm_compute; reflexivity. Qed.

(** ** C63 *)
Section C63.
Variable V : Type.
Variable dv : V.

(** A program within the contract that (GPU build) throws nothing and never sends or frees an object whose
    device results were not fetched, gives exactly the same outputs in the CPU build. *)
Theorem C63_transparent_partial (p : list (op V)) s outs :
  srun true (s0 V) p = Some (Ok (s, outs)) -> disciplined (s0 V) p -> existsb (@threw V) outs = false ->
  exists w w', run dv true (w0 V) p = Ok (w, outs) /\ run dv false (w0 V) p = Ok (w', outs).
Proof.
  intros H D N.
  destruct (@C62_refines_partial V dv _ _ _ _ H) as (w & A & _).
  destruct (@run_transparent V p _ _ _ _ (@tr0 V) D H N) as (t & B & _).
  destruct (@C62_refines_partial V dv _ _ _ _ B) as (w' & C & _). eauto.
Qed.

(** ... and at the end every object has, in the CPU build, the contents the GPU build computed. *)
Theorem C63_final_contents_partial (p : list (op V)) s outs i h q :
  srun true (s0 V) p = Some (Ok (s, outs)) -> disciplined (s0 V) p -> existsb (@threw V) outs = false ->
  sget s i = Some (h, q) ->
  exists w w' o o', run dv true (w0 V) p = Ok (w, outs) /\ run dv false (w0 V) p = Ok (w', outs) /\
    get_obj w i = Ok o /\ get_obj w' i = Ok o' /\
    mapM (side_read (status w o) w) (regions o) = Ok (current q) /\
    mapM (side_read false w') (regions o') = Ok (current q).
Proof.
  intros H D N Hs.
  destruct (@C62_refines_partial V dv _ _ _ _ H) as (w & A & _ & OA).
  destruct (@run_transparent V p _ _ _ _ (@tr0 V) D H N) as (t & B & T).
  destruct (@C62_refines_partial V dv _ _ _ _ B) as (w' & C & _ & OC).
  destruct (OA i h q Hs) as (o & E1 & _ & _ & S1).
  destruct (tr_get _ T Hs) as (X & _).
  destruct (OC i h (host_only q) X) as (o' & E2 & _ & _ & S2).
  exists w, w', o, o'. do 4 (split; [assumption|]). unfold sees in S1, S2. destruct S1 as [S1 S1'], S2 as [S2 S2'].
  split; [|exact S2']. rewrite S1. destruct q as [c|hc d]; cbn [on_dev current side_read]; [exact S1'|apply S1'].
Qed.
End C63.

Definition transp_prog : list (op Z) :=
  [ ONew KVec 0 [1;2;3]%Z []; ONew KDense 0 [4;5;6]%Z []; OSend Z 0; OSend Z 1;
    OMap (Opd 0 None) [Opd 1 None] (fun ins i => nth i (hd [] (nth 0 ins [])) 0 * nth i (hd [] (nth 1 ins [])) 0)%Z;
    OAssign Z 1 0; ONonfreeRecv Z 0; OSend Z 0; OFree Z 0; OGet Z 0 2; OCopy Z 1; ODestroy Z 1; ORecv Z 2; OGet Z 2 1 ].
Theorem C63_demo : exists s outs, srun true (s0 Z) transp_prog = Some (Ok (s, outs)) /\
  disciplined (s0 Z) transp_prog /\ existsb (@threw Z) outs = false /\
  outs = [OutU Z; OutU Z; OutU Z; OutU Z; OutU Z; OutU Z; OutU Z; OutU Z; OutU Z; OutV 18%Z; OutU Z; OutU Z; OutU Z; OutV 10%Z].
Proof.
  eexists _, _. split; [vm_compute; reflexivity|]. split; [|split; reflexivity].
  vm_compute. repeat split; try (intros h p H; injection H as <- <-; exact I || reflexivity).
  intros h p H _. injection H as <- <-. now left.
Qed.

(** FALSE in general: a second send overwrites the device results, ... *)
Definition resend_prog : list (op Z) :=
  [ ONew KVec 0 [1;2;3]%Z []; OSend Z 0;
    OMap (Opd 0 None) [] (fun ins i => nth i (hd [] (nth 0 ins [])) 0 + 1)%Z; OSend Z 0; ORecv Z 0; OGet Z 0 0 ].
Theorem C63_resend_refuted :
  (exists w, run 0%Z true (w0 Z) resend_prog = Ok (w, [OutU Z; OutU Z; OutU Z; OutU Z; OutU Z; OutV 1%Z])) /\
  (exists w, run 0%Z false (w0 Z) resend_prog = Ok (w, [OutU Z; OutU Z; OutU Z; OutU Z; OutU Z; OutV 2%Z])).
Proof. split; eexists; vm_compute; reflexivity. Qed.

(** ... device_free drops them, ... *)
Definition free_prog : list (op Z) :=
  [ ONew KVec 0 [1;2;3]%Z []; OSend Z 0;
    OMap (Opd 0 None) [] (fun ins i => nth i (hd [] (nth 0 ins [])) 0 + 1)%Z; OFree Z 0; OGet Z 0 0 ].
Theorem C63_device_free_refuted :
  (exists w, run 0%Z true (w0 Z) free_prog = Ok (w, [OutU Z; OutU Z; OutU Z; OutU Z; OutV 1%Z])) /\
  (exists w, run 0%Z false (w0 Z) free_prog = Ok (w, [OutU Z; OutU Z; OutU Z; OutU Z; OutV 2%Z])).
Proof. split; eexists; vm_compute; reflexivity. Qed.

(** ... and a host-only operation (Dense::transpose() in place) on an object on the device is lost. *)
Definition transpose_prog : list (op Z) :=
  [ ONew KDense 0 [1;2;3;4]%Z []; OSend Z 0;
    OHostOnly 0 (fun l i => nth (nth i [0;2;1;3] 0) l 0%Z); ORecv Z 0; OGet Z 0 1 ].
Theorem C63_transpose_refuted :
  (exists w, run 0%Z true (w0 Z) transpose_prog = Ok (w, [OutU Z; OutU Z; OutU Z; OutU Z; OutV 2%Z])) /\
  (exists w, run 0%Z false (w0 Z) transpose_prog = Ok (w, [OutU Z; OutU Z; OutU Z; OutU Z; OutV 3%Z])).
Proof. split; eexists; vm_compute; reflexivity. Qed.

(** ** C64 *)
Section C64.
Variable V : Type.
Variable dv : V.

(** Device memory is held only for objects that are on the device. *)
Theorem C64_only_sent gpu (p : list (op V)) s outs :
  srun gpu (s0 V) p = Some (Ok (s, outs)) ->
  (forall k q, nth_error (s_sto s) k = Some q -> on_dev q = false) ->
  exists w, run dv gpu (w0 V) p = Ok (w, outs) /\ w_dev w = [].
Proof.
  intros H N. pose proof (@run_sim V dv gpu p _ _ _ _ (@rel0 V) (@cpu0 V gpu) H) as (w & g & A & B & _).
  exists w. split; [exact A|]. exact (rel_no_dev B N).
Qed.

(** When all objects have been destroyed no device memory is left, if objects were sent only while an owner of
    their storage was alive and no owner whose storage is on the device was made an alias by move. *)
Theorem C64_all_released_partial gpu (p : list (op V)) s outs :
  srun gpu (s0 V) p = Some (Ok (s, outs)) -> owned_run gpu (s0 V) p ->
  (forall i h, nth_error (s_obj s) i <> Some (Some h)) ->
  exists w, run dv gpu (w0 V) p = Ok (w, outs) /\ w_dev w = [].
Proof.
  intros H O N. eapply C64_only_sent; [exact H|]. intros k q Hk.
  destruct (on_dev q) eqn:E; [|reflexivity]. exfalso.
  pose proof (@run_owned V gpu p _ _ _ (@dev_owned0 V) O H) as D.
  destruct (D k q Hk E) as (i & h & A & _). exact (N i h A).
Qed.

(** programs without move satisfy the condition *)
Definition no_move (c : op V) : bool := match c with OMove _ _ _ => false | _ => true end.

Definition all_own (s : sworld V) : Prop :=
  forall i h, nth_error (s_obj s) i = Some (Some h) -> h_own h = true.

Lemma all_own_step gpu s c s' o : all_own s -> no_move c = true ->
  sstep gpu s c = Some (Ok (s', o)) -> all_own s'.
Proof.
  intros A NM H.
  assert (Ad : forall k p, all_own (sadd s k p)).
  { intros k p i h Hi. cbn [sadd s_obj] in Hi. destruct (nth_error_snoc _ _ _ Hi) as [[_ X]|[_ X]]; [eauto|].
    injection X as ->. reflexivity. }
  assert (Dl : forall s1 i, s_obj s1 = s_obj s -> all_own (sset_obj s1 i None)).
  { intros s1 i E j h Hj. cbn [sset_obj s_obj] in Hj. rewrite E in Hj.
    destruct (Nat.eq_dec i j) as [<-|N].
    - destruct (Nat.lt_ge_cases i (length (s_obj s))) as [L|L].
      + rewrite nth_error_upd_eq in Hj by exact L. discriminate.
      + assert (X : nth_error (upd (s_obj s) i None) i = None)
          by (apply nth_error_None; rewrite upd_length; exact L). congruence.
    - rewrite nth_error_upd_ne in Hj by exact N. eauto. }
  destruct c as [k rows vs idxs | x | y x | y x | i | i | i | i | i | i k | i k v | i N v | i v | y xs f | x xs gg | i f];
    cbn [sstep no_move] in *; try discriminate.
  - destruct (new_ok k rows vs idxs); [|discriminate]. injection H as <- <-. apply Ad.
  - destruct (sget s x) as [[h p]|]; [|discriminate].
    destruct (h_kind h); try discriminate; injection H as <- <-; apply Ad.
  - destruct (sget s y) as [[hy py]|] eqn:Hy; [|discriminate].
    destruct (sget s x) as [[hx px]|]; [|discriminate].
    destruct (_ && _); [|discriminate]. injection H as <- <-.
    destruct (sget_inv _ _ Hy) as [Y1 _]. intros j h Hj. cbn [sput sset_obj s_obj] in Hj.
    destruct (Nat.eq_dec y j) as [<-|N].
    + rewrite nth_error_upd_eq in Hj by (apply nth_error_Some; congruence). injection Hj as <-. reflexivity.
    + rewrite nth_error_upd_ne in Hj by exact N. eauto.
  - destruct (sget s i) as [[h p]|]; [|discriminate]. injection H as <- <-. destruct gpu; exact A.
  - destruct (sget s i) as [[h p]|]; [|discriminate]. injection H as <- <-. exact A.
  - destruct (sget s i) as [[h p]|]; [|discriminate]. injection H as <- <-. exact A.
  - destruct (sget s i) as [[h p]|]; [|discriminate]. injection H as <- <-. exact A.
  - destruct (sget s i) as [[h p]|]; [|discriminate]. injection H as <- <-. apply Dl. reflexivity.
  - destruct (sget s i) as [[h [c|hc d]]|]; try discriminate.
    + destruct (nth_error (vals c) k); [|discriminate]. injection H as <- <-. exact A.
    + injection H as <- <-. exact A.
  - destruct (sget s i) as [[h [c|hc d]]|]; try discriminate.
    + destruct (k <? length (vals c)); [|discriminate]. injection H as <- <-. exact A.
    + injection H as <- <-. exact A.
  - destruct (sget s i) as [[h p]|]; [|discriminate].
    destruct (h_kind h), p as [c|hc d]; try discriminate; try (injection H as <- <-; exact A).
    + destruct (h_own h); [|injection H as <- <-; exact A].
      destruct (shared s i (h_sto h)); [discriminate|]. injection H as <- <-. exact A.
    + destruct (h_own h && negb (shared s i (h_sto h))); [|discriminate]. injection H as <- <-. exact A.
  - destruct (sget s i) as [[h p]|]; [|discriminate].
    destruct (h_kind h), p as [c|hc d]; try discriminate; try (injection H as <- <-; exact A).
    destruct (h_own h); [|injection H as <- <-; exact A].
    destruct (shared s i (h_sto h)); [discriminate|]. injection H as <- <-. exact A.
  - destruct (sopd s y) as [[[h p] win]|]; [|discriminate].
    destruct (opt_map (sopd s) xs) as [os|]; [|discriminate].
    destruct (forallb _ os); [|discriminate]. injection H as <- <-. exact A.
  - destruct (sopd s x) as [[[h p] win]|]; [|discriminate].
    destruct (opt_map (sopd s) xs) as [os|]; [|discriminate].
    destruct (forallb _ os); [|discriminate]. injection H as <- <-. exact A.
  - destruct (sget s i) as [[h [c|hc d]]|]; try discriminate. injection H as <- <-. exact A.
Qed.

Lemma no_move_owned gpu p : forall s, all_own s -> forallb no_move p = true -> owned_run gpu s p.
Proof.
  induction p as [|c p IH]; intros s A N; cbn [owned_run]; [exact I|].
  cbn [forallb] in N. apply andb_true_iff in N. destruct N as [N1 N2]. split.
  - destruct c as [ | | y x | | i | | | | | | | | | | | ]; cbn [step_owned no_move] in *; try exact I; [discriminate|].
    intros h q Hs. destruct (sget_inv _ _ Hs) as [Y1 _]. exists i, h. split; [exact Y1|]. split; [reflexivity|]. exact (A i h Y1).
  - destruct (sstep gpu s c) as [[[s1 o]| | | |]|] eqn:E; try exact I.
    apply IH; [|exact N2]. eapply all_own_step; eauto.
Qed.

Theorem C64_no_move_partial gpu (p : list (op V)) s outs :
  srun gpu (s0 V) p = Some (Ok (s, outs)) -> forallb no_move p = true ->
  (forall i h, nth_error (s_obj s) i <> Some (Some h)) ->
  exists w, run dv gpu (w0 V) p = Ok (w, outs) /\ w_dev w = [].
Proof.
  intros H N D. eapply C64_all_released_partial; eauto. apply no_move_owned; [|exact N].
  intros i h Hi. destruct i; discriminate.
Qed.
End C64.

(** [demo] above: no moves, everything destroyed *)
Theorem C64_demo : forallb (@no_move Z) demo = true /\
  exists s outs, srun true (s0 Z) demo = Some (Ok (s, outs)) /\ forall i h, nth_error (s_obj s) i <> Some (Some h).
Proof.
  split; [reflexivity|]. eexists _, _. split; [vm_compute; reflexivity|].
  intros i h. do 4 (destruct i as [|i]; [discriminate|]). destruct i; discriminate.
Qed.

(** FALSE in general: an alias made by move that is sent after the owner is gone keeps its device memory for
    ever, since the destructor of a non-owner frees nothing. *)
Definition leak_prog : list (op Z) :=
  [ ONew KVec 0 [1;2;3]%Z []; ONew KVec 0 []%Z []; OMove Z 1 0; ODestroy Z 0; OSend Z 1; ODestroy Z 1 ].
Theorem C64_alias_leak_refuted : exists w o, run 0%Z true (w0 Z) leak_prog = Ok (w, o) /\
  w_obj w = [None; None] /\ w_dev w = [Dm (Rg 0 0 3) [1;2;3]%Z 1].
Proof. do 2 eexists. split; [vm_compute; reflexivity|]. split; reflexivity. Qed.

(** Moving into an object that is on the device forgets its mapping. *)
Definition leak2_prog : list (op Z) :=
  [ ONew KVec 0 [1;2;3]%Z []; ONew KVec 0 [7]%Z []; OSend Z 1; OMove Z 1 0; ODestroy Z 0; ODestroy Z 1 ].
Theorem C64_move_onto_leak_refuted : exists w o, run 0%Z true (w0 Z) leak2_prog = Ok (w, o) /\
  w_obj w = [None; None] /\ w_dev w = [Dm (Rg 1 0 1) [7]%Z 1].
Proof. do 2 eexists. split; [vm_compute; reflexivity|]. split; reflexivity. Qed.

(** ** C65 *)
Section C65.
Variable V : Type.
Variable dv : V.

(** After any program within the contract: reading or writing an element of an object on the device, resizing a
    vector or appending to it is refused with an exception, and nothing changes; the same calls on an object on
    the host are not refused (the index being in range, the object owning its unshared storage). *)
Theorem C65_refused gpu (p : list (op V)) s outs i h q v k N :
  srun gpu (s0 V) p = Some (Ok (s, outs)) -> sget s i = Some (h, q) -> on_dev q = true ->
  exists w, run dv gpu (w0 V) p = Ok (w, outs) /\
    step dv gpu w (OGet V i k) = Ok (w, OutThrew V) /\
    step dv gpu w (OSet i k v) = Ok (w, OutThrew V) /\
    (h_kind h = KVec -> step dv gpu w (OPush i v) = Ok (w, OutThrew V) /\
                        step dv gpu w (OResize i N v) = Ok (w, OutThrew V)).
Proof.
  intros H Hs D.
  destruct (@C62_refines_partial V dv _ _ _ _ H) as (w & A & _ & O).
  destruct (O i h q Hs) as (o & E & K & _ & S & _).
  exists w. split; [exact A|]. cbn [step]. rewrite E. cbn [bind]. rewrite S, D.
  split; [reflexivity|]. split; [reflexivity|]. intros HK.
  unfold push_back_, resize_. rewrite K, HK, S, D. auto.
Qed.

Theorem C65_allowed gpu (p : list (op V)) s outs i h c v k N :
  srun gpu (s0 V) p = Some (Ok (s, outs)) -> sget s i = Some (h, OnHost c) -> k < length (vals c) ->
  exists w, run dv gpu (w0 V) p = Ok (w, outs) /\
    (exists x, nth_error (vals c) k = Some x /\ step dv gpu w (OGet V i k) = Ok (w, OutV x)) /\
    (exists w', step dv gpu w (OSet i k v) = Ok (w', OutU V) /\
       observes w' (sput s h (OnHost (set_vals c (upd (vals c) k v))))) /\
    (h_kind h = KVec -> h_own h = true -> shared s i (h_sto h) = false ->
       (exists w', step dv gpu w (OPush i v) = Ok (w', OutU V) /\
          observes w' (sput s h (OnHost (set_vals c (vals c ++ [v]))))) /\
       (exists w', step dv gpu w (OResize i N v) = Ok (w', OutU V) /\
          observes w' (sput s h (OnHost (set_vals c (vresize v (vals c) N)))))).
Proof.
  intros H Hs L.
  pose proof (@run_sim V dv gpu p _ _ _ _ (@rel0 V) (@cpu0 V gpu) H) as (w & g & A & B & C).
  exists w. split; [exact A|].
  destruct (nth_error (vals c) k) as [x|] eqn:E; [|apply nth_error_None in E; lia].
  split; [|split].
  - exists x. split; [reflexivity|].
    assert (X : sstep gpu s (OGet V i k) = Some (Ok (s, OutV x))) by (cbn [sstep]; rewrite Hs, E; reflexivity).
    pose proof (@step_sim V dv _ _ _ _ _ _ B C X) as (w1 & g1 & S1 & _). rewrite S1.
    cbn [step] in S1. destruct (get_obj w i) as [o| | | |]; try discriminate. cbn [bind] in S1.
    destruct (status w o); [discriminate|]. destruct (rd (w_host w) (o_buf o)) as [b| | | |]; try discriminate.
    cbn [bind] in S1. destruct (rd b k); try discriminate. cbn [bind] in S1. injection S1 as <- _. reflexivity.
  - assert (X : sstep gpu s (OSet i k v) = Some (Ok (sput s h (OnHost (set_vals c (upd (vals c) k v))), OutU V))).
    { cbn [sstep]. rewrite Hs. destruct (Nat.ltb_spec k (length (vals c))); [reflexivity|lia]. }
    pose proof (@step_sim V dv _ _ _ _ _ _ B C X) as (w1 & g1 & S1 & R1 & _). exists w1. split; [exact S1|].
    exact (rel_observes R1).
  - intros HK Ow Sh. split.
    + assert (X : sstep gpu s (OPush i v) = Some (Ok (sput s h (OnHost (set_vals c (vals c ++ [v]))), OutU V)))
        by (cbn [sstep]; rewrite Hs, HK, Ow, Sh; reflexivity).
      pose proof (@step_sim V dv _ _ _ _ _ _ B C X) as (w1 & g1 & S1 & R1 & _). exists w1. split; [exact S1|].
      exact (rel_observes R1).
    + assert (X : sstep gpu s (OResize i N v) = Some (Ok (sput s h (OnHost (set_vals c (vresize v (vals c) N))), OutU V)))
        by (cbn [sstep]; rewrite Hs, HK, Ow, Sh; reflexivity).
      pose proof (@step_sim V dv _ _ _ _ _ _ B C X) as (w1 & g1 & S1 & R1 & _). exists w1. split; [exact S1|].
      exact (rel_observes R1).
Qed.
End C65.

Theorem C65_demo : exists s outs h hc d, srun true (s0 Z) (firstn 7 demo) = Some (Ok (s, outs)) /\
  sget s 0 = Some (h, OnDev hc d) /\ h_kind h = KVec /\ hc = [[1;2;3]]%Z /\ d = [[11;22;33]]%Z.
Proof. do 5 eexists. split; [vm_compute; reflexivity|]. split; [vm_compute; reflexivity|]. repeat split. Qed.

(** FALSE for Dense (and tensor_Dense, CRS, tensor_CRS): with spare capacity resize succeeds on the device. *)
Theorem C65_dense_resize_refuted : exists w o w', run 0%Z true (w0 Z) (firstn 3 dense_resize_prog) = Ok (w, o) /\
  (exists ob, get_obj w 0 = Ok ob /\ status w ob = true) /\
  step 0%Z true w (OResize 0 5 0%Z) = Ok (w', OutU Z).
Proof.
  do 3 eexists. split; [vm_compute; reflexivity|]. split; [eexists; split; vm_compute; reflexivity|].
  vm_compute. reflexivity.
Qed.

Print Assumptions C62_refines_partial.
Print Assumptions C62_mixed_sides.
Print Assumptions C62_roundtrip.
Print Assumptions C62_demo.
Print Assumptions C62_dense_resize_refuted.
Print Assumptions C62_alias_resize_refuted.
Print Assumptions C63_transparent_partial.
Print Assumptions C63_final_contents_partial.
Print Assumptions C63_demo.
Print Assumptions C63_resend_refuted.
Print Assumptions C63_device_free_refuted.
Print Assumptions C63_transpose_refuted.
Print Assumptions C64_only_sent.
Print Assumptions C64_all_released_partial.
Print Assumptions C64_no_move_partial.
Print Assumptions C64_demo.
Print Assumptions C64_alias_leak_refuted.
Print Assumptions C64_move_onto_leak_refuted.
Print Assumptions C65_refused.
Print Assumptions C65_allowed.
Print Assumptions C65_demo.
Print Assumptions C65_dense_resize_refuted.

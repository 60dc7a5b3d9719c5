(** * MpiMap: finite maps from message channels to channel states.

    A channel is (communicator, source rank, destination rank, tag).  The map is std++'s [gmap]; only the
    facts below are used, so no other file of the model depends on std++. *)
From stdpp Require Import gmap.

Notation chan := (nat * nat * nat * nat)%type.

Notation cmap A := (gmap chan A).

Section Cmap.
Context {A : Type}.
Definition cempty : cmap A := empty.
Definition cget (d : A) (m : cmap A) (c : chan) : A := match lookup c m with Some a => a | None => d end.
Definition cset (m : cmap A) (c : chan) (a : A) : cmap A := <[c := a]> m.

Lemma chan_dec (c c' : chan) : {c = c'} + {c <> c'}.
Proof. exact (decide (c = c')). Defined.

Lemma cget_empty d c : cget d cempty c = d.
Proof. unfold cget, cempty. rewrite lookup_empty. reflexivity. Qed.

Lemma cget_set_eq d m c a : cget d (cset m c a) c = a.
Proof. unfold cget, cset. rewrite lookup_insert. reflexivity. Qed.

Lemma cget_set_ne d m c c' a : c <> c' -> cget d (cset m c a) c' = cget d m c'.
Proof. intro H. unfold cget, cset. rewrite lookup_insert_ne by exact H. reflexivity. Qed.

Lemma cset_set m c a b : cset (cset m c a) c b = cset m c b.
Proof. unfold cset. apply insert_insert. Qed.

Lemma cset_comm m c c' a b : c <> c' -> cset (cset m c a) c' b = cset (cset m c' b) c a.
Proof. intro H. unfold cset. apply insert_commute. congruence. Qed.

(** the channels that have been used, and sums over them *)
Definition ckeys (m : cmap A) : list chan := map fst (map_to_list m).
Definition csum (f : A -> nat) (m : cmap A) : nat := map_fold (fun _ a n => f a + n) 0 m.

Lemma ckeys_in d m c : cget d m c <> d -> List.In c (ckeys m).
Proof.
  unfold cget, ckeys. destruct (lookup c m) as [a|] eqn:E; [|congruence]. intros _.
  apply List.in_map_iff. exists (c, a). split; [reflexivity|]. apply elem_of_list_In, elem_of_map_to_list. exact E.
Qed.

Lemma csum_set f d m c x : f d = 0 -> csum f (cset m c x) + f (cget d m c) = csum f m + f x.
Proof.
  intro H. unfold csum, cset, cget.
  assert (INS : forall (m : cmap A) c x, lookup c m = None ->
    map_fold (fun (_ : chan) a n => f a + n) 0 (<[c:=x]> m) = f x + map_fold (fun (_ : chan) a n => f a + n) 0 m).
  { intros m' c' x' E. apply (map_fold_insert_L (fun (_ : chan) a n => f a + n)); [intros; lia|exact E]. }
  destruct (lookup c m) as [a|] eqn:E.
  - rewrite <- (insert_delete_insert m c x), INS by apply lookup_delete.
    rewrite <- (insert_delete m c a E) at 2. rewrite INS by apply lookup_delete. lia.
  - rewrite INS by exact E. rewrite H. lia.
Qed.
End Cmap.
Global Opaque cget cset cempty ckeys csum.

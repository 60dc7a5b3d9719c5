(** * LifeModel: who owns the storage of vectors and tensors, and how long views may be used (model only).

    Storage is allocated with new Float[N] and held by std::shared_ptr (member val); an object made by move(..) shares it
    and has val_create_flag = false; a view1D keeps a reference to its target and the raw pointer target->data() of the
    moment it was made.  The reference counts are kept explicitly.  Host memory; objects of class vector and one-dimensional
    tensor_Dense (whose resize is that of Dense, too); objects with an offset (first <> 0, made from views) and views of views
    are not in this model.  Histories are lists of operations on any number of objects and views; None: undefined behaviour. *)
From Verif Require Import Base.
Set Implicit Arguments.

Section LifeModel.
Context {F : Type} (d : F).                               (* d: the default 0 of resize *)

Inductive class := Vec | Tens.
(** monolish_vector.hpp:47-80, monolish_tensor_dense.hpp: val (number of the allocation), val_nnz, alloc_nnz, val_create_flag *)
Record obj := mkObj { ob_class : class; ob_buf : nat; ob_nnz : nat; ob_alloc : nat; ob_own : bool }.
(** monolish_view1D.hpp:45-58: target, target_data, first, range *)
Record view := mkView { vw_target : nat; vw_buf : nat; vw_first : nat; vw_range : nat }.
(** an allocation: its elements and the number of shared_ptr that hold it; with 0 it has been freed *)
Record world := mkWorld { w_heap : list (list F * nat); w_objs : list (option obj); w_views : list view }.
Definition start : world := mkWorld [] [] [].
Definition getobj (w : world) (i : nat) : option obj := match nth_error (w_objs w) i with Some (Some o) => Some o | _ => None end.

(** the elements of an allocation that has not been freed *)
Definition live (h : list (list F * nat)) (b : nat) : option (list F) :=
  match nth_error h b with Some (l, S _) => Some l | _ => None end.
Definition load (h : list (list F * nat)) (b k : nat) : option F := match live h b with Some l => nth_error l k | None => None end.
Definition store (h : list (list F * nat)) (b k : nat) (x : F) : option (list (list F * nat)) :=
  match nth_error h b with Some (l, S c) => if k <? length l then Some (upd h b (upd l k x, S c)) else None | _ => None end.
(** copying and dropping a shared_ptr *)
Definition acquire (h : list (list F * nat)) (b : nat) : list (list F * nat) := match nth_error h b with Some (l, c) => upd h b (l, S c) | None => h end.
Definition release (h : list (list F * nat)) (b : nat) : list (list F * nat) := match nth_error h b with Some (l, c) => upd h b (l, c - 1) | None => h end.
(** l[a] = ... = l[b-1] = x *)
Definition fill (l : list F) (a b : nat) (x : F) : list F := firstn a l ++ repeat x (b - a) ++ skipn (Nat.max a b) l.

Definition setobj (w : world) (h : list (list F * nat)) (i : nat) (o : option obj) : world := mkWorld h (upd (w_objs w) i o) (w_views w).
(** monolish_vector.hpp:446-465 = monolish_tensor_dense.hpp:653-665: a new allocation of n elements, with alloc_nnz = n *)
Definition realloc (h : list (list F * nat)) (o : obj) (n : nat) (x : F) : option (list (list F * nat) * obj) :=
  match live h (ob_buf o) with
  | Some l => if Nat.min (ob_nnz o) n <=? length l then
      Some (release h (ob_buf o) ++ [(firstn (Nat.min (ob_nnz o) n) l ++ repeat x (n - ob_nnz o), 1)], mkObj (ob_class o) (length h) n n (ob_own o)) else None
  | None => None
  end.

Inductive op :=
| New (c : class) (l : list F)                            (* vector / tensor with these elements; it gets the next number *)
| Share (c : class) (i : nat)                             (* y.move(s_i), y a new object of class c, at least one of them a tensor *)
| Resize (i n : nat) (x : F)                              (* s_i.resize(n, x) *)
| Push (i : nat) (x : F)                                  (* s_i.push_back(x), s_i a vector *)
| Get (i k : nat) | Set_ (i k : nat) (x : F)              (* s_i[k], s_i[k] = x *)
| Destroy (i : nat)
| View (i s n : nat)                                      (* view1D(s_i, s, n); it gets the next number *)
| VGet (v k : nat) | VSet (v k : nat) (x : F)             (* v[k], v[k] = x *)
| Copy (i : nat)                                          (* vector y(s_i) / tensor y(s_i); it gets the next number *)
| Assign (i j : nat)                                      (* s_i = s_j, of the same class *)
| VFill (v : nat) (x : F) | VResize (v n : nat)           (* v.fill(x), v.resize(n) *)
| Move (i j : nat).                                       (* s_i.move(s_j), at least one of them a tensor: s_i drops what it held *)
Inductive reply := Done | Threw | Value (x : F).

(** the elements of an object, as vcopy reads them *)
Definition elements (h : list (list F * nat)) (o : obj) : option (list F) :=
  match live h (ob_buf o) with Some l => if ob_nnz o <=? length l then Some (firstn (ob_nnz o) l) else None | None => None end.
Definition same_class (c c' : class) : bool := match c, c' with Vec, Vec | Tens, Tens => true | _, _ => false end.

Definition step (e : op) (w : world) : option (world * reply) :=
  let h := w_heap w in
  match e with
  | New c l => Some (mkWorld (h ++ [(l, 1)]) (w_objs w ++ [Some (mkObj c (length h) (length l) (length l) true)]) (w_views w), Done)
  (* move_vector.cpp:11-30, move_tensor_dense.cpp:34-50 *)
  | Share c i => match getobj w i with
      | Some o => match c, ob_class o with
                  | Vec, Vec => None
                  | _, _ => Some (mkWorld (acquire h (ob_buf o)) (w_objs w ++ [Some (mkObj c (ob_buf o) (ob_nnz o) (ob_alloc o) false)]) (w_views w), Done)
                  end
      | None => None end
  (* monolish_vector.hpp:446-465, monolish_tensor_dense.hpp:642-669 *)
  | Resize i n x => match getobj w i with
      | Some o =>
          if match ob_class o with Tens => n <? ob_alloc o | Vec => false end then
            match nth_error h (ob_buf o) with
            | Some (l, S c) => if (n <=? ob_nnz o) || (n <=? length l) then
                Some (setobj w (upd h (ob_buf o) (if n <=? ob_nnz o then l else fill l (ob_nnz o) n x, S c)) i
                        (Some (mkObj (ob_class o) (ob_buf o) n (ob_alloc o) (ob_own o))), Done) else None
            | _ => None
            end
          else if ob_own o then
            match realloc h o n x with Some (h', o') => Some (setobj w h' i (Some o'), Done) | None => None end
          else Some (w, Threw)
      | None => None end
  (* monolish_vector.hpp:473-489 *)
  | Push i x => match getobj w i with
      | Some o => match ob_class o with Tens => None | Vec =>
          if ob_own o then
            match (if ob_alloc o <=? ob_nnz o then
                     match realloc h o (2 * ob_alloc o + 1) d with
                     | Some (h', o') => Some (h', mkObj (ob_class o') (ob_buf o') (ob_nnz o) (ob_alloc o') (ob_own o'))
                     | None => None end
                   else Some (h, o)) with
            | Some (h', o') => match store h' (ob_buf o') (ob_nnz o') x with
                | Some h' => Some (setobj w h' i (Some (mkObj (ob_class o') (ob_buf o') (ob_nnz o' + 1) (ob_alloc o') (ob_own o'))), Done)
                | None => None end
            | None => None end
          else Some (w, Threw) end
      | None => None end
  (* monolish_vector.hpp:600-605, monolish_tensor_dense.hpp:812-817: no range check *)
  | Get i k => match getobj w i with Some o => match load h (ob_buf o) k with Some x => Some (w, Value x) | None => None end | None => None end
  | Set_ i k x => match getobj w i with
      | Some o => match store h (ob_buf o) k x with Some h' => Some (mkWorld h' (w_objs w) (w_views w), Done) | None => None end
      | None => None end
  | Destroy i => match getobj w i with Some o => Some (setobj w (release h (ob_buf o)) i None, Done) | None => None end
  (* monolish_view1D.hpp:68-110 *)
  | View i s n => match getobj w i with Some o => Some (mkWorld h (w_objs w) (w_views w ++ [mkView i (ob_buf o) s n]), Done) | None => None end
  (* monolish_view1D.hpp:445-450: asks the target for its device status, then uses target_data *)
  | VGet v k => match nth_error (w_views w) v with
      | Some u => match getobj w (vw_target u), load h (vw_buf u) (k + vw_first u) with Some _, Some x => Some (w, Value x) | _, _ => None end
      | None => None end
  | VSet v k x => match nth_error (w_views w) v with
      | Some u => match getobj w (vw_target u), store h (vw_buf u) (k + vw_first u) x with Some _, Some h' => Some (mkWorld h' (w_objs w) (w_views w), Done) | _, _ => None end
      | None => None end
  (* vector_constructor.cpp:159-176, tensor_dense_constructor.cpp:126-144 *)
  | Copy i => match getobj w i with
      | Some o => match elements h o with
          | Some l => Some (mkWorld (h ++ [(l, 1)]) (w_objs w ++ [Some (mkObj (ob_class o) (length h) (ob_nnz o) (ob_nnz o) true)]) (w_views w), Done)
          | None => None end
      | None => None end
  (* copy_vector.cpp:25-38, copy_tensor_dense.cpp:11-24: the sizes are asserted, and val_create_flag = true *)
  | Assign i j => match getobj w i, getobj w j with
      | Some o, Some q =>
          if same_class (ob_class o) (ob_class q) && (ob_nnz o =? ob_nnz q) then
            match elements h q, nth_error h (ob_buf o) with
            | Some l, Some (l0, S c) => if ob_nnz o <=? length l0 then
                Some (setobj w (upd h (ob_buf o) (l ++ skipn (ob_nnz o) l0, S c)) i (Some (mkObj (ob_class o) (ob_buf o) (ob_nnz o) (ob_alloc o) true)), Done) else None
            | _, _ => None end
          else None
      | _, _ => None end
  (* fill_view1D.cpp:9-31: data()[i] for i from first to last; sequential, as every element gets the same value *)
  | VFill v x => match nth_error (w_views w) v with
      | Some u => match getobj w (vw_target u) with
          | Some _ => if vw_range u =? 0 then Some (w, Done) else
              match nth_error h (vw_buf u) with
              | Some (l, S c) => if vw_first u + vw_range u <=? length l then
                  Some (mkWorld (upd h (vw_buf u) (fill l (vw_first u) (vw_first u + vw_range u) x, S c)) (w_objs w) (w_views w), Done) else None
              | _ => None end
          | None => None end
      | None => None end
  (* monolish_view1D.hpp:360-364: an assert on the present size of the target *)
  | VResize v n => match nth_error (w_views w) v with
      | Some u => match getobj w (vw_target u) with
          | Some o => if vw_first u + n <=? ob_nnz o then Some (mkWorld h (w_objs w) (upd (w_views w) v (mkView (vw_target u) (vw_buf u) (vw_first u) n)), Done) else None
          | None => None end
      | None => None end
  (* move_vector.cpp:11-30, move_tensor_dense.cpp:34-50: this->val = other.val releases the old storage of s_i *)
  | Move i j => match getobj w i, getobj w j with
      | Some o, Some q =>
          if (i =? j) || match ob_class o, ob_class q with Vec, Vec => true | _, _ => false end then None
          else Some (setobj w (release (acquire h (ob_buf q)) (ob_buf o)) i (Some (mkObj (ob_class o) (ob_buf q) (ob_nnz q) (ob_alloc q) false)), Done)
      | _, _ => None end
  end.
Fixpoint exec (h : list op) (w : world) : option (world * list reply) :=
  match h with
  | [] => Some (w, [])
  | e :: h => match step e w with
              | Some (w, r) => match exec h w with Some (w, rs) => Some (w, r :: rs) | None => None end
              | None => None
              end
  end.
End LifeModel.
Arguments start {F}. Arguments Share {F}. Arguments Get {F}. Arguments Destroy {F}. Arguments View {F}. Arguments VGet {F}. Arguments Copy {F}. Arguments Assign {F}. Arguments VResize {F}. Arguments Move {F}.
Arguments Done {F}. Arguments Threw {F}.

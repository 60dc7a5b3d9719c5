(** * GpuModel: host/device data management (the GPU build, MONOLISH_USE_NVIDIA_GPU).

    What is modelled
    - the OpenMP device data environment: a table of mapped host ranges with a
      device copy and a reference count, and the directives monolish uses on it
      ([target enter data map(to)], [target exit data map(from / release)],
      [target update to / from]), as the OpenMP 5.x specification defines them for
      array sections of pointers;
    - send / recv / nonfree_recv / device_free / destructors of vector, Dense,
      tensor_Dense, CRS and tensor_CRS (src/utils/system/gpu_comm.cpp);
    - the host accesses that are refused on the device (operator[], at, insert,
      resize, push_back), the assignment and copy constructors, [move], and the
      common shape of every BLAS / VML function (same-device asserts, then the
      computation on the side the first operand is on).

    Simplifications (each repeated at the definition it concerns)
    - element values are an arbitrary type [V]; index arrays use the same type;
    - host buffers are never recycled: a freed buffer's address is not reused;
    - [first] is 0 (only [set_first], not modelled, and [move] from an object whose
      first is not 0 make it non-zero);
    - one device; the directives are synchronous (no [nowait] is used in /repo). *)
From Verif Require Import Base.
Set Implicit Arguments.

Section GpuModel.
Variable V : Type.
Variable dv : V.      (* the value 0, used by resize's default argument *)

(** ** OpenMP device data environment *)

(** An array section [p[off:len]] of host buffer [rg_buf]. *)
Record region := Rg { rg_buf : nat; rg_off : nat; rg_len : nat }.

(** One entry of the device data environment: the mapped section, the contents of
    the corresponding device storage and the reference count. *)
Record dmap := Dm { dm_rg : region; dm_dev : list V; dm_cnt : nat }.

(** Object kinds: monolish::vector; matrix::Dense and tensor::tensor_Dense (same
    code for everything modelled here); matrix::CRS; tensor::tensor_CRS. *)
Inductive kind := KVec | KDense | KCrs | KTcrs.

(** The data members that matter here (include/monolish/common/monolish_vector.hpp:47-78,
    monolish_dense.hpp:45-76, monolish_crs.hpp:50-105, monolish_tensor_crs.hpp:12-31):
    [val] (buffer), [val_nnz], [alloc_nnz], [gpu_status] (a std::shared_ptr<bool>: an
    index into the shared cells), [val_create_flag], rowN, and the index arrays
    (std::vector<int>: buffer and size). *)
Record obj := Ob {
  o_kind : kind; o_buf : nat; o_nnz : nat; o_alloc : nat;
  o_idx : list (nat * nat); o_rows : nat; o_cell : nat; o_own : bool }.

Record world := Wd {
  w_host : list (list V);          (* host buffers *)
  w_dev : list dmap;               (* device data environment *)
  w_cell : list bool;              (* the shared gpu_status cells *)
  w_obj : list (option obj) }.     (* live objects; None: destroyed *)

Definition set_host w h := Wd h (w_dev w) (w_cell w) (w_obj w).
Definition set_dev w d := Wd (w_host w) d (w_cell w) (w_obj w).
Definition set_cell w c b := Wd (w_host w) (w_dev w) (upd (w_cell w) c b) (w_obj w).
Definition set_obj w i o := Wd (w_host w) (w_dev w) (w_cell w) (upd (w_obj w) i o).

(** [l[off:len]] read / written; outside the array is undefined behaviour. *)
Definition slice (l : list V) (off len : nat) : res (list V) :=
  if off + len <=? length l then Ok (firstn len (skipn off l)) else UB.
Definition splice (l : list V) (off : nat) (vs : list V) : res (list V) :=
  if off + length vs <=? length l
  then Ok (firstn off l ++ vs ++ skipn (off + length vs) l) else UB.

Definition host_read (w : world) (r : region) : res (list V) :=
  b <- rd (w_host w) (rg_buf r) ;; slice b (rg_off r) (rg_len r).
Definition host_write (w : world) (r : region) (vs : list V) : res world :=
  b <- rd (w_host w) (rg_buf r) ;;
  b' <- splice b (rg_off r) vs ;;
  Ok (set_host w (upd (w_host w) (rg_buf r) b')).

(** The section [r] lies inside the mapped section of [m] / meets it. *)
Definition covers (r : region) (m : dmap) : bool :=
  (rg_buf (dm_rg m) =? rg_buf r) && (rg_off (dm_rg m) <=? rg_off r) &&
  (rg_off r + rg_len r <=? rg_off (dm_rg m) + rg_len (dm_rg m)).
Definition overlaps (r : region) (m : dmap) : bool :=
  (rg_buf (dm_rg m) =? rg_buf r) &&
  (rg_off r <? rg_off (dm_rg m) + rg_len (dm_rg m)) &&
  (rg_off (dm_rg m) <? rg_off r + rg_len r).

(** replace / delete the first entry covering [r] *)
Fixpoint dev_subst (r : region) (f : dmap -> option dmap) (t : list dmap) : list dmap :=
  match t with
  | [] => []
  | m :: t' => if covers r m
               then match f m with Some m' => m' :: t' | None => t' end
               else m :: dev_subst r f t'
  end.

(** [#pragma omp target enter data map(to : r)]: a zero-length section maps nothing;
    a section inside a mapped one only has its reference count increased (no
    transfer); a section that partly overlaps a mapped one is not allowed; otherwise
    new device storage is created and filled from the host. *)
Definition enter_to (w : world) (r : region) : res world :=
  if rg_len r =? 0 then Ok w else
  match find (covers r) (w_dev w) with
  | Some _ => Ok (set_dev w (dev_subst r (fun m => Some (Dm (dm_rg m) (dm_dev m) (S (dm_cnt m)))) (w_dev w)))
  | None => if existsb (overlaps r) (w_dev w) then UB
            else vs <- host_read w r ;; Ok (set_dev w (Dm r vs 1 :: w_dev w))
  end.

(** The device section corresponding to [r], read / written: not being (entirely)
    mapped is undefined behaviour, except for an empty section. *)
Definition dev_read (w : world) (r : region) : res (list V) :=
  if rg_len r =? 0 then Ok [] else
  match find (covers r) (w_dev w) with
  | Some m => slice (dm_dev m) (rg_off r - rg_off (dm_rg m)) (rg_len r)
  | None => UB
  end.
Definition dev_write (w : world) (r : region) (vs : list V) : res world :=
  if rg_len r =? 0 then Ok w else
  match find (covers r) (w_dev w) with
  | Some m => d <- splice (dm_dev m) (rg_off r - rg_off (dm_rg m)) vs ;;
              Ok (set_dev w (dev_subst r (fun m => Some (Dm (dm_rg m) d (dm_cnt m))) (w_dev w)))
  | None => UB
  end.

(** [#pragma omp target exit data map(from : r)] ([copy] = true) and
    [map(release : r)] ([copy] = false): a section that is not mapped is ignored (a
    partly mapped one is not allowed); otherwise the reference count drops and at 0
    the section is copied back (from) and the device storage deleted. *)
Definition exit_data (copy : bool) (w : world) (r : region) : res world :=
  if rg_len r =? 0 then Ok w else
  match find (covers r) (w_dev w) with
  | Some m =>
      if dm_cnt m <=? 1
      then w1 <- (if copy then vs <- dev_read w r ;; host_write w r vs else Ok w) ;;
           Ok (set_dev w1 (dev_subst r (fun _ => None) (w_dev w1)))
      else Ok (set_dev w (dev_subst r (fun m => Some (Dm (dm_rg m) (dm_dev m) (pred (dm_cnt m)))) (w_dev w)))
  | None => if existsb (overlaps r) (w_dev w) then UB else Ok w
  end.

(** [#pragma omp target update to(r)] / [update from(r)]: a section that is not
    mapped is ignored (a partly mapped one is not allowed). *)
Definition update_to (w : world) (r : region) : res world :=
  if rg_len r =? 0 then Ok w else
  match find (covers r) (w_dev w) with
  | Some _ => vs <- host_read w r ;; dev_write w r vs
  | None => if existsb (overlaps r) (w_dev w) then UB else Ok w
  end.
Definition update_from (w : world) (r : region) : res world :=
  if rg_len r =? 0 then Ok w else
  match find (covers r) (w_dev w) with
  | Some _ => vs <- dev_read w r ;; host_write w r vs
  | None => if existsb (overlaps r) (w_dev w) then UB else Ok w
  end.

(** a directive with several list items treats them one after the other *)
Fixpoint each_ (f : world -> region -> res world) (w : world) (rs : list region) : res world :=
  match rs with
  | [] => Ok w
  | r :: rs' => w' <- f w r ;; each_ f w' rs'
  end.

(** ** monolish *)

(** the values section [begin()[0:nnz]] *)
Definition val_region (o : obj) : region := Rg (o_buf o) 0 (o_nnz o).

(** The sections the communication functions name, in order:
    vector / Dense / tensor_Dense: d[0:N] (gpu_comm.cpp:13-20, 187-194, 271-278);
    CRS: vald[0:nnz], cold[0:nnz], rowd[0:N+1] (gpu_comm.cpp:93-107);
    tensor_CRS: vald[0:nnz] and, for every slice, rowd[0:size], cold[0:size]
    (gpu_comm.cpp:353-371). *)
Definition regions (o : obj) : list region :=
  val_region o ::
  match o_kind o, o_idx o with
  | KCrs, [(c, _); (r, _)] => [Rg c 0 (o_nnz o); Rg r 0 (o_rows o + 1)]
  | _, l => map (fun e => Rg (fst e) 0 (snd e)) l
  end.

(** get_device_mem_stat(): [*gpu_status] (monolish_vector.hpp:273 and the same line
    in the other classes) *)
Definition status (w : world) (o : obj) : bool := nth (o_cell o) (w_cell w) false.

(** send(): gpu_comm.cpp:8-24 (vector), 86-112 (CRS), 180-198 (Dense), 264-282
    (tensor_Dense), 348-384 (tensor_CRS; the loop there re-reads the status, which
    the directives do not change). Without MONOLISH_USE_NVIDIA_GPU the body is empty. *)
Definition send_ (gpu : bool) (w : world) (o : obj) : res world :=
  if gpu then
    if status w o then each_ update_to w (regions o)
    else w1 <- each_ enter_to w (regions o) ;; Ok (set_cell w1 (o_cell o) true)
  else Ok w.

(** recv(): gpu_comm.cpp:27-42, 115-134, 201-215, 285-299, 387-412 *)
Definition recv_ (gpu : bool) (w : world) (o : obj) : res world :=
  if gpu then
    if status w o
    then w1 <- each_ (exit_data true) w (regions o) ;; Ok (set_cell w1 (o_cell o) false)
    else Ok w
  else Ok w.

(** nonfree_recv(): gpu_comm.cpp:45-57, 137-153, 218-231, 302-315, 415-437 *)
Definition nonfree_recv_ (gpu : bool) (w : world) (o : obj) : res world :=
  if gpu then
    if status w o then each_ update_from w (regions o) else Ok w
  else Ok w.

(** device_free(): gpu_comm.cpp:60-73, 156-176, 234-249, 318-334, 440-466 *)
Definition device_free_ (gpu : bool) (w : world) (o : obj) : res world :=
  if gpu then
    if status w o
    then w1 <- each_ (exit_data false) w (regions o) ;; Ok (set_cell w1 (o_cell o) false)
    else Ok w
  else Ok w.

(** destructor: monolish_vector.hpp:290-296, monolish_dense.hpp:600-606,
    monolish_crs.hpp:484-490, monolish_tensor_dense.hpp:610-616,
    monolish_tensor_crs.hpp:235-241 *)
Definition destroy_ (gpu : bool) (w : world) (o : obj) : res world :=
  if o_own o then if status w o then device_free_ gpu w o else Ok w else Ok w.

(** Outputs a client sees from one call. *)
Inductive out := OutU | OutV (v : V) | OutThrew.

(** A kernel operand: an object, or a view (view1D / view_Dense /
    view_tensor_Dense) of its elements [lo, lo+len); a view's device status is its
    target's (monolish_view1D.hpp:277-279). *)
Record operand := Opd { op_obj : nat; op_win : option (nat * nat) }.

(** A client program is a list of calls. Objects are numbered in creation order. *)
Inductive op :=
| ONew (k : kind) (rows : nat) (vals : list V) (idxs : list (list V))
| OCopy (x : nat)
| OMove (y x : nat)
| OAssign (y x : nat)
| OSend (o : nat) | ORecv (o : nat) | ONonfreeRecv (o : nat) | OFree (o : nat)
| ODestroy (o : nat)
| OGet (o i : nat) | OSet (o i : nat) (v : V)
| OResize (o N : nat) (v : V)
| OPush (o : nat) (v : V)
| OMap (y : operand) (xs : list operand) (f : list (list (list V)) -> nat -> V)
| OReduce (x : operand) (xs : list operand) (g : list (list (list V)) -> V)
| OHostOnly (y : nat) (f : list V -> nat -> V).

(** [new Float[n]] / std::vector storage: the next buffer number *)
Definition alloc (w : world) (vs : list V) : world * nat :=
  (set_host w (w_host w ++ [vs]), length (w_host w)).
Fixpoint alloc_all (w : world) (vss : list (list V)) : world * list (nat * nat) :=
  match vss with
  | [] => (w, [])
  | vs :: t => let '(w1, b) := alloc w vs in
               let '(w2, l) := alloc_all w1 t in (w2, (b, length vs) :: l)
  end.
Definition add_obj (w : world) (o : obj) : world :=
  Wd (w_host w) (w_dev w) (w_cell w) (w_obj w ++ [Some o]).
Definition add_cell (w : world) : world * nat :=
  (Wd (w_host w) (w_dev w) (w_cell w ++ [false]) (w_obj w), length (w_cell w)).

(** Constructors from host data: a fresh buffer of exactly the given elements, fresh
    index arrays, a fresh gpu_status = false, val_create_flag = true
    (vector_constructor.cpp:122-157, dense_constructor.cpp:20-58,
    tensor_dense_constructor.cpp:10-60, crs_constructor.cpp:26-48,
    tensor_crs_constructor.cpp). *)
Definition new_obj (w : world) (k : kind) (rows : nat) (vals : list V)
    (idxs : list (list V)) : world * obj :=
  let '(w1, b) := alloc w vals in
  let '(w2, ix) := alloc_all w1 idxs in
  let '(w3, c) := add_cell w2 in
  (w3, Ob k b (length vals) (length vals) ix rows c true).

Definition get_obj (w : world) (i : nat) : res obj :=
  match nth_error (w_obj w) i with Some (Some o) => Ok o | _ => UB end.

(** vcopy(N, a, y, gpu_status) on sections (src/internal/arithmetic/double_arithmetic.cpp:232-251) *)
Definition vcopy_ (w : world) (a y : region) (dev : bool) : res world :=
  if dev then vs <- dev_read w a ;; dev_write w y vs
  else vs <- host_read w a ;; host_write w y vs.

Fixpoint vcopy_all (w : world) (l : list (region * region)) (dev : bool) : res world :=
  match l with
  | [] => Ok w
  | (a, y) :: t => w1 <- vcopy_ w a y dev ;; vcopy_all w1 t dev
  end.

(** Copy constructors: vector_constructor.cpp:158-180, dense_constructor.cpp:180-202,
    tensor_dense_constructor.cpp:126-145, crs_constructor.cpp:154-187: resize,
    then (GPU build, source on the device) send and copy device to device, then copy
    host to host. The copy constructor of tensor_CRS is convert(tensor_CRS), which
    is not modelled here ([UB] stands for "outside the model").
    (vcopy order of the three CRS arrays: they are distinct.) *)
Definition copy_ctor (gpu : bool) (w : world) (x : obj) : res world :=
  match o_kind x with
  | KTcrs => UB
  | _ =>
    let rs := regions x in
    let '(w1, n) := new_obj w (o_kind x) (o_rows x) (repeat dv (o_nnz x))
                      (map (fun r => repeat dv (rg_len r)) (tl rs)) in
    w2 <- (if gpu && status w x
           then w2 <- send_ gpu w1 n ;; vcopy_all w2 (combine rs (regions n)) true
           else Ok w1) ;;
    w3 <- vcopy_all w2 (combine rs (regions n)) false ;;
    Ok (add_obj w3 n)
  end.

(** move: src/utils/move/move_vector.cpp, move_dense.cpp, move_tensor_dense.cpp:11-56:
    the target shares buffer and gpu_status with the source and does not own. *)
Definition move_ (y x : obj) : obj :=
  Ob (o_kind y) (o_buf x) (o_nnz x) (o_alloc x) (o_idx y) (o_rows y) (o_cell x) false.

(** operator=: copy_vector.cpp:26-40, copy_dense.cpp:10-24, copy_crs.cpp:10-24,
    copy_tensor_dense.cpp, copy_tensor_crs.cpp:11-25. is_same_size /
    is_same_structure are reduced to equal element counts. *)
Definition assign_ (w : world) (iy : nat) (y x : obj) : res world :=
  assert_ (o_nnz y =? o_nnz x) ;;;
  assert_ (Bool.eqb (status w y) (status w x)) ;;;
  let w1 := set_obj w iy (Some (Ob (o_kind y) (o_buf y) (o_nnz y) (o_alloc y)
                                   (o_idx y) (o_rows y) (o_cell y) true)) in
  vcopy_ w1 (val_region x) (val_region y) (status w y).

(** resize. vector (monolish_vector.hpp:446-467): refused on the device, then for a
    non-owner, else reallocation. Dense / tensor_Dense / CRS / tensor_CRS
    (monolish_dense.hpp:632-661, monolish_tensor_dense.hpp:642-671,
    monolish_crs.hpp:516-545, monolish_tensor_crs.hpp:267-296): spare capacity is
    used first, before the device check. *)
Definition realloc_ (w : world) (i : nat) (o : obj) (N : nat) (v : V) : res (world * out) :=
  b <- rd (w_host w) (o_buf o) ;;
  old <- slice b 0 (Nat.min (o_nnz o) N) ;;
  let '(w1, nb) := alloc w (old ++ repeat v (N - length old)) in
  Ok (set_obj w1 i (Some (Ob (o_kind o) nb N N (o_idx o) (o_rows o) (o_cell o) (o_own o))), OutU).

Definition resize_ (w : world) (i : nat) (o : obj) (N : nat) (v : V) : res (world * out) :=
  match o_kind o with
  | KVec =>
      if status w o then Ok (w, OutThrew)
      else if o_own o then realloc_ w i o N v else Ok (w, OutThrew)
  | _ =>
      if N <? o_alloc o then
        w1 <- host_write w (Rg (o_buf o) (o_nnz o) (N - o_nnz o)) (repeat v (N - o_nnz o)) ;;
        Ok (set_obj w1 i (Some (Ob (o_kind o) (o_buf o) N (o_alloc o) (o_idx o)
                                   (o_rows o) (o_cell o) (o_own o))), OutU)
      else if status w o then Ok (w, OutThrew)
      else if o_own o then realloc_ w i o N v else Ok (w, OutThrew)
  end.

(** push_back (vector only): monolish_vector.hpp:473-491; growth to 2*alloc+1. *)
Definition push_back_ (w : world) (i : nat) (o : obj) (v : V) : res (world * out) :=
  if status w o then Ok (w, OutThrew)
  else if o_own o then
    w1o <- (if o_alloc o <=? o_nnz o
            then w1out <- realloc_ w i o (2 * o_alloc o + 1) dv ;;
                 o1 <- get_obj (fst w1out) i ;; Ok (fst w1out, o1)
            else Ok (w, o)) ;;
    let '(w1, o1) := w1o in
    w2 <- host_write w1 (Rg (o_buf o1) (o_nnz o) 1) [v] ;;
    Ok (set_obj w2 i (Some (Ob (o_kind o1) (o_buf o1) (S (o_nnz o)) (o_alloc o1)
                               (o_idx o1) (o_rows o1) (o_cell o1) (o_own o1))), OutU)
  else Ok (w, OutThrew).

(** ** Kernels *)

Definition side_read (dev : bool) (w : world) (r : region) : res (list V) :=
  if dev then dev_read w r else host_read w r.

Fixpoint mapM {A B} (f : A -> res B) (l : list A) : res (list B) :=
  match l with
  | [] => Ok []
  | a :: t => b <- f a ;; bs <- mapM f t ;; Ok (b :: bs)
  end.

Definition operand_regions (o : obj) (win : option (nat * nat)) : list region :=
  match win with
  | None => regions o
  | Some (lo, len) => [Rg (o_buf o) lo len]
  end.

Definition operand_obj (w : world) (x : operand) : res (obj * option (nat * nat)) :=
  o <- get_obj w (op_obj x) ;; Ok (o, op_win x).

(** The asserts is_same_device_mem_stat(x, y) at the head of the BLAS and VML
    functions, e.g. src/blas/vector/axpy.hpp:12-13: all operands on the same side. *)
Definition same_side (w : world) (b : bool) (os : list (obj * option (nat * nat))) : res unit :=
  assert_ (forallb (fun o => Bool.eqb (status w (fst o)) b) os).

Definition operand_read (dev : bool) (w : world) (x : obj * option (nat * nat)) : res (list (list V)) :=
  mapM (side_read dev w) (operand_regions (fst x) (snd x)).

(** y[i] = f(operands)[i] for all i of y, on the side the operands are on
    (axpy.hpp:19-33, vadd etc. in src/internal/arithmetic/*.cpp, the CRS and Dense
    kernels likewise; the values the kernel computes are the subject of other
    models, here [f] is arbitrary). *)
Definition kernel_ (w : world) (y : operand) (xs : list operand)
    (f : list (list (list V)) -> nat -> V) : res world :=
  yo <- operand_obj w y ;;
  xos <- mapM (operand_obj w) xs ;;
  same_side w (status w (fst yo)) xos ;;;
  let dev := status w (fst yo) in
  ins <- mapM (operand_read dev w) (yo :: xos) ;;
  let r := hd (Rg 0 0 0) (operand_regions (fst yo) (snd yo)) in
  let vs := map (f ins) (seq 0 (rg_len r)) in
  if dev then dev_write w r vs else host_write w r vs.

(** a reduction (dot, nrm2, asum, sum, ...: src/blas/vector/dot.hpp:7-41) *)
Definition reduce_ (w : world) (x : operand) (xs : list operand)
    (g : list (list (list V)) -> V) : res V :=
  xo <- operand_obj w x ;;
  xos <- mapM (operand_obj w) xs ;;
  same_side w (status w (fst xo)) xos ;;;
  ins <- mapM (operand_read (status w (fst xo)) w) (xo :: xos) ;;
  Ok (g ins).

(** One call. [OGet]/[OSet]: operator[], at, insert
    (monolish_vector.hpp:600-605, monolish_dense.hpp:838-843, at_insert_sort_dense.cpp:9-60).
    [OHostOnly]: Dense::transpose() in place (src/utils/transpose/transpose_dense.cpp:9-35),
    which permutes the host array and never looks at the device status. *)
Definition step (gpu : bool) (w : world) (c : op) : res (world * out) :=
  match c with
  | ONew k rows vals idxs =>
      let '(w1, o) := new_obj w k rows vals idxs in Ok (add_obj w1 o, OutU)
  | OCopy x => o <- get_obj w x ;; w1 <- copy_ctor gpu w o ;; Ok (w1, OutU)
  | OMove y x =>
      oy <- get_obj w y ;; ox <- get_obj w x ;;
      Ok (set_obj w y (Some (move_ oy ox)), OutU)
  | OAssign y x =>
      oy <- get_obj w y ;; ox <- get_obj w x ;;
      w1 <- assign_ w y oy ox ;; Ok (w1, OutU)
  | OSend i => o <- get_obj w i ;; w1 <- send_ gpu w o ;; Ok (w1, OutU)
  | ORecv i => o <- get_obj w i ;; w1 <- recv_ gpu w o ;; Ok (w1, OutU)
  | ONonfreeRecv i => o <- get_obj w i ;; w1 <- nonfree_recv_ gpu w o ;; Ok (w1, OutU)
  | OFree i => o <- get_obj w i ;; w1 <- device_free_ gpu w o ;; Ok (w1, OutU)
  | ODestroy i =>
      o <- get_obj w i ;; w1 <- destroy_ gpu w o ;; Ok (set_obj w1 i None, OutU)
  | OGet i k =>
      o <- get_obj w i ;;
      if status w o then Ok (w, OutThrew)
      else b <- rd (w_host w) (o_buf o) ;; v <- rd b k ;; Ok (w, OutV v)
  | OSet i k v =>
      o <- get_obj w i ;;
      if status w o then Ok (w, OutThrew)
      else b <- rd (w_host w) (o_buf o) ;; b' <- wr b k v ;;
           Ok (set_host w (upd (w_host w) (o_buf o) b'), OutU)
  | OResize i N v => o <- get_obj w i ;; resize_ w i o N v
  | OPush i v => o <- get_obj w i ;; push_back_ w i o v
  | OMap y xs f => w1 <- kernel_ w y xs f ;; Ok (w1, OutU)
  | OReduce x xs g => v <- reduce_ w x xs g ;; Ok (w, OutV v)
  | OHostOnly i f =>
      o <- get_obj w i ;;
      vs <- host_read w (val_region o) ;;
      w1 <- host_write w (val_region o) (map (f vs) (seq 0 (o_nnz o))) ;; Ok (w1, OutU)
  end.

Fixpoint run (gpu : bool) (w : world) (p : list op) : res (world * list out) :=
  match p with
  | [] => Ok (w, [])
  | c :: p' => wo <- step gpu w c ;; wos <- run gpu (fst wo) p' ;;
               Ok (fst wos, snd wo :: snd wos)
  end.

Definition w0 : world := Wd [] [] [] [].

End GpuModel.

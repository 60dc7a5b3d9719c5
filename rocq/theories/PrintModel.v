(** * PrintModel: print_all of every class except COO (which is in IoModel) (model only, no proofs).

    The output is the list of its characters.  [pv v] is what the stream writes for the number [v] (the format is not
    modelled).  Device memory is not in use; failure to open or write a file is not modelled. *)
From Coq Require Import ZArith NArith Ascii.
From Verif Require Import Base Scalar DenseModel CooModel CrsModel TensorModel TensorCrsModel ViewModel IoModel.
Import ListNotations.
Open Scope list_scope.
Open Scope nat_scope.
Set Implicit Arguments.

Section PrintModel.
Context {F : Type} {SF : Scalar F} (pv : F -> text).

(** [out << i + 1 << " "] for a size_t *)
Definition p_ix (i : nat) : text := print_nat (i + 1) ++ [blank].
(** the same for an int: overflow is undefined *)
Definition p_int (i : nat) : res text :=
  defined_ (Z.of_nat i <? 2 ^ 31 - 1)%Z ;;; Ok (p_ix i).
(** [out << v << std::endl] *)
Definition p_val (v : F) : text := pv v ++ [nl].

(** src/utils/IO/IO_vector.cpp:17-41, 45-56: vald[i] for i < size(), where vald = data(): [val] is the buffer *)
Definition print_vector (val : list F) (n : nat) : res text :=
  for_ 0 n (fun i out => v <- rd val i ;; Ok (out ++ p_val v)) [].
(** src/utils/IO/IO_view1D.cpp:15-36 (and the other instances, 38-160): val[i] for first <= i < last *)
Definition print_view1D (val : list F) (w : win) : res text :=
  for_ (n_first w) (n_last w) (fun i out => v <- rd val i ;; Ok (out ++ p_val v)) [].

(** src/utils/IO/IO_dense.cpp:17-44: data()[i * get_col() + j] *)
Definition print_dense (d : dense F) : res text :=
  for_ 0 (d_row d) (fun i out =>
    for_ 0 (d_col d) (fun j out =>
      v <- rd (d_val d) (i * d_col d + j) ;; Ok (out ++ p_ix i ++ p_ix j ++ p_val v)) out) [].
(** src/utils/IO/IO_view_dense.cpp:14-42: data()[first + i * get_col() + j] *)
Definition print_view_dense (v : vdense) (t : target F) : res text :=
  for_ 0 (vd_row v) (fun i out =>
    for_ 0 (vd_col v) (fun j out =>
      x <- rd (tg_data t) (n_first (vd_win v) + i * vd_col v + j) ;; Ok (out ++ p_ix i ++ p_ix j ++ p_val x)) out) [].

(** src/utils/IO/IO_crs.cpp:17-47: data()[j], col_ind[j] + 1 is an int *)
Definition print_crs (a : crs F) : res text :=
  for_ 0 (m_row a) (fun i out =>
    lo <- rd (m_rp a) i ;; hi <- rd (m_rp a) (i + 1) ;;
    for_ lo hi (fun j out =>
      c <- rd (m_ci a) j ;; tc <- p_int c ;; v <- rd (m_val a) j ;; Ok (out ++ p_ix i ++ tc ++ p_val v)) out) [].

(** src/utils/IO/IO_tensor_dense.cpp:18-57: get_index(i), data()[i] *)
Definition print_tdense (t : tdense F) : res text :=
  for_ 0 (t_nnz t) (fun i out =>
    ind <- t_unindex (t_shape t) i ;; v <- rd (t_val t) i ;;
    Ok (out ++ concat (map p_ix ind) ++ p_val v)) [].
(** src/utils/IO/IO_view_tensor_dense.cpp:14-54: data()[first + i] *)
Definition print_view_tensor (v : vtens) (t : target F) : res text :=
  for_ 0 (n_range (vt_win v)) (fun i out =>
    ind <- t_unindex (vt_shape v) i ;; x <- rd (tg_data t) (n_first (vt_win v) + i) ;;
    Ok (out ++ concat (map p_ix ind) ++ p_val x)) [].

(** src/utils/IO/IO_tensor_coo.cpp:18-32, 37-51: begin()[i] (the tensor_COO objects of the model have offset 0) *)
Definition print_tcoo (q : tcoo F) : res text :=
  for_ 0 (q_nnz q) (fun i out =>
    ind <- rd (q_index q) i ;; v <- rd (q_val q) i ;; Ok (out ++ concat (map p_ix ind) ++ p_val v)) [].

(** src/utils/IO/IO_tensor_crs.cpp:52-71: one iteration of the loop over [d]; pos_2 is an array of int with
    shape.size() - 2 elements, filled from the last to the first from [d]; [nz] counts all entries (an int) *)
Definition tr_pos2 (shape : list nat) (d : nat) : res (list nat) := t_unindex (firstn (length shape - 2) shape) d.
(** [std::cout << pos_2[k] + 1 << " "] for all k; a coordinate that does not fit an int is implementation-defined
    and written UB here *)
Definition p_ints (l : list nat) : res text :=
  for_ 0 (length l) (fun k out => x <- rd l k ;; t <- p_int x ;; Ok (out ++ t)) [].
Definition print_tcrs (A : tcrs F) : res text :=
  require_ (2 <=? length (k_shape A)) ;;;
  '(out, _) <- for_ 0 (length (k_rps A)) (fun d st =>
    pos_2 <- tr_pos2 (k_shape A) d ;;
    rp <- rd (k_rps A) d ;; ci <- rd (k_cis A) d ;;
    for_ 0 (length rp - 1) (fun i st =>
      lo <- rd rp i ;; hi <- rd rp (i + 1) ;;
      for_ lo hi (fun j st =>
        let '(out, nz) := st in
        ps <- p_ints pos_2 ;; c <- rd ci j ;; tc <- p_int c ;; v <- rd (k_val A) (k_first A + nz) ;;
        defined_ (Z.of_nat nz <? 2 ^ 31 - 1)%Z ;;;
        Ok (out ++ ps ++ p_ix i ++ tc ++ p_val v, nz + 1)) st) st) ([], 0) ;;
  Ok out.
End PrintModel.

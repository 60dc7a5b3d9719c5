(** * IoModel: MatrixMarket text files (model only).

    A file is the list of its bytes.  [std::ifstream], [std::istringstream], [getline] and the extraction
    operators behave as libstdc++ implements the C++17 standard: a stream has the unread text and the flags
    eofbit and failbit; every input operation first builds a sentry, which fails (and sets failbit) when one
    of the flags is set, and then leaves its target unchanged.  A variable that was never assigned is [None];
    using it is undefined behaviour.
    Not modelled: failure to open or to write the file, running out of memory, the bad bit, the value of the locale (the
    classic one is assumed), thousands separators, the decimal digits of a float (an abstract codec; concrete
    instances for double and float are in FloatText.v). *)
From Coq Require Import Ascii String NArith ZArith Decimal DecimalN.
From Verif Require Import Base Scalar CooModel.
Import ListNotations.
Open Scope list_scope.
Open Scope nat_scope.
Set Implicit Arguments.

Definition text := list ascii.
Definition txt (s : string) : text := list_ascii_of_string s.
Definition nl : ascii := "010"%char.
Definition blank : ascii := " "%char.
(** isspace in the classic locale: tab, newline, vertical tab, form feed, carriage return, space *)
Definition is_space (c : ascii) : bool :=
  let n := nat_of_ascii c in (9 <=? n) && (n <=? 13) || (n =? 32).

(** ** Streams *)
Record stream := mkStream { s_rest : text; s_eof : bool; s_fail : bool }.
Definition stream_of (t : text) : stream := mkStream t false false.
Definition good (s : stream) : bool := negb (s_eof s || s_fail s).

(** the characters before the first newline, and what follows it ([None]: no newline) *)
Fixpoint line_split (t : text) : text * option text :=
  match t with
  | [] => ([], None)
  | c :: t' => if Ascii.eqb c nl then ([], Some t') else let '(l, r) := line_split t' in (c :: l, r)
  end.
(** [getline(ifs, buf)] *)
Definition getline (s : stream) (buf : text) : stream * text :=
  if good s then
    match s_rest s with
    | [] => (mkStream [] true true, [])
    | _ => match line_split (s_rest s) with
           | (l, Some r) => (mkStream r false false, l)
           | (l, None) => (mkStream [] true false, l)
           end
    end
  else (mkStream (s_rest s) (s_eof s) true, buf).

Fixpoint skip_space (t : text) : text :=
  match t with [] => [] | c :: t' => if is_space c then skip_space t' else t end.
(** the sentry of a formatted extraction: [None] when it fails *)
Definition sentry (s : stream) : stream * bool :=
  if good s then
    match skip_space (s_rest s) with
    | [] => (mkStream [] true true, false)
    | t => (mkStream t false false, true)
    end
  else (mkStream (s_rest s) (s_eof s) true, false).

Fixpoint take_while (p : ascii -> bool) (t : text) : text * text :=
  match t with
  | [] => ([], [])
  | c :: t' => if p c then let '(l, r) := take_while p t' in (c :: l, r) else ([], t)
  end.
Definition ended (t : text) : bool := match t with [] => true | _ => false end.

(** [s >> str] *)
Definition get_word (s : stream) (old : text) : stream * text :=
  let '(s, ok) := sentry s in
  if ok then
    let '(w, r) := take_while (fun c => negb (is_space c)) (s_rest s) in (mkStream r (ended r) false, w)
  else (s, old).

(** decimal digits *)
Definition digit (c : ascii) : option nat :=
  let n := nat_of_ascii c in if (48 <=? n) && (n <=? 57) then Some (n - 48) else None.
Definition is_digit (c : ascii) : bool := match digit c with Some _ => true | None => false end.
Fixpoint uint_of_text (t : text) : uint :=
  match t with
  | [] => Nil
  | c :: t' =>
      let u := uint_of_text t' in
      match digit c with
      | Some 0 => D0 u | Some 1 => D1 u | Some 2 => D2 u | Some 3 => D3 u | Some 4 => D4 u
      | Some 5 => D5 u | Some 6 => D6 u | Some 7 => D7 u | Some 8 => D8 u | Some 9 => D9 u
      | _ => Nil
      end
  end.
Fixpoint text_of_uint (u : uint) : text :=
  match u with
  | Nil => []
  | D0 u => "0" :: text_of_uint u | D1 u => "1" :: text_of_uint u | D2 u => "2" :: text_of_uint u
  | D3 u => "3" :: text_of_uint u | D4 u => "4" :: text_of_uint u | D5 u => "5" :: text_of_uint u
  | D6 u => "6" :: text_of_uint u | D7 u => "7" :: text_of_uint u | D8 u => "8" :: text_of_uint u
  | D9 u => "9" :: text_of_uint u
  end%char.
Definition N_of_text (t : text) : N := N.of_uint (uint_of_text t).
(** [out << n] for an unsigned number *)
Definition print_N (n : N) : text := text_of_uint (N.to_uint n).
Definition print_nat (n : nat) : text := print_N (N.of_nat n).

(** num_get for size_t: optional sign, digits.  No digit: 0 and failbit.  Too big: the maximum and failbit.
    A minus sign negates modulo 2^64. *)
Definition size_max : N := (2 ^ 64 - 1)%N.
Definition get_size (s : stream) (old : option N) : stream * option N :=
  let '(s, ok) := sentry s in
  if ok then
    let '(neg, t) := match s_rest s with
                     | c :: t => if Ascii.eqb c "-"%char then (true, t) else if Ascii.eqb c "+"%char then (false, t) else (false, s_rest s)
                     | [] => (false, [])
                     end in
    let '(ds, r) := take_while is_digit t in
    if ended ds then (mkStream r (ended r) true, Some 0%N)
    else
      let v := N_of_text ds in
      if (size_max <? v)%N then (mkStream r (ended r) true, Some size_max)
      else (mkStream r (ended r) false, Some (if neg then ((2 ^ 64 - v) mod 2 ^ 64)%N else v))
  else (s, old).

(** ** Floats: what [out << std::scientific << std::setprecision(max_digits10) << v] writes, and the value
    [in >> v] stores (it is called on the unread text after white space; 0 when there is no number) *)
Class Codec (F : Type) := { fprint : F -> text; fscan : text -> F }.

Definition get_float {F} {CF : Codec F} (s : stream) (old : option F) : option F :=
  let '(s, ok) := sentry s in if ok then Some (fscan (s_rest s)) else old.

Definition defined_ (b : bool) : res unit := if b then Ok tt else UB.
(** use of a variable *)
Definition use {A} (o : option A) : res A := match o with Some a => Ok a | None => UB end.

(** include/monolish/common/monolish_coo.hpp:17-22 *)
Definition mm_banner := txt "%%MatrixMarket".
Definition mm_mat := txt "matrix".
Definition mm_fmt := txt "coordinate".
Definition mm_real := txt "real".
Definition mm_general := txt "general".

Fixpoint teq (a b : text) : bool :=
  match a, b with
  | [], [] => true
  | x :: a, y :: b => Ascii.eqb x y && teq a b
  | _, _ => false
  end.

(** what input_mm leaves in the object: rowN, colN, row_index, col_index (std::vector<int>), the values *)
Record mm (F : Type) := mkMm { mm_row : N; mm_col : N; mm_ri : list Z; mm_ci : list Z; mm_val : list F }.
Arguments mkMm {F}.

(** conversion of a size_t to int: modulo 2^32 *)
Definition int_of_size (n : N) : Z := ((Z.of_N n + 2 ^ 31) mod 2 ^ 32 - 2 ^ 31)%Z.
(** [ix - 1] on size_t *)
Definition size_pred (n : N) : N := ((n + (2 ^ 64 - 1)) mod 2 ^ 64)%N.

Section Io.
Context {F : Type} {SF : Scalar F} {CF : Codec F}.

(** ** Output *)

(** src/utils/IO/IO_coo.cpp:24-27, 41-44, 61-64: one line; row_index[i] + 1 is an int *)
Definition entry_line (r c : nat) (v : F) : res text :=
  defined_ ((Z.of_nat r <? 2 ^ 31 - 1)%Z && (Z.of_nat c <? 2 ^ 31 - 1)%Z) ;;;
  Ok (print_nat (r + 1) ++ blank :: print_nat (c + 1) ++ blank :: fprint v ++ [nl]).
(** IO_coo.cpp:16-29, 34-46 print_all *)
Definition print_all (c : coo F) : res text :=
  for_ 0 (c_nnz c) (fun i out =>
    r <- rd (c_ri c) i ;; k <- rd (c_ci c) i ;; v <- rd (c_val c) i ;;
    l <- entry_line r k v ;; Ok (out ++ l)) [].
(** IO_coo.cpp:50-66 output_mm *)
Definition mm_header (c : coo F) : text :=
  mm_banner ++ blank :: mm_mat ++ blank :: mm_fmt ++ blank :: mm_real ++ blank :: mm_general ++ [nl] ++
  print_nat (c_row c) ++ blank :: print_nat (c_col c) ++ blank :: print_nat (c_nnz c) ++ [nl].
Definition output_mm (c : coo F) : res text :=
  body <- print_all c ;; Ok (mm_header c ++ body).

(** ** Input *)

(** IO_coo.cpp:114-116: [do getline(ifs, buf) while (buf[0] == '%')] *)
Definition is_comment (buf : text) : bool := match buf with c :: _ => Ascii.eqb c "%"%char | [] => false end.
Fixpoint mm_skip (fuel : nat) (s : stream) (buf : text) : res (stream * text) :=
  let '(s, buf) := getline s buf in
  if is_comment buf then match fuel with 0 => NoFuel | S fuel => mm_skip fuel s buf end else Ok (s, buf).

(** IO_coo.cpp:139-151: one iteration of the read loop *)
Definition mm_entry (i : nat) (st : stream * text * (list Z * list Z * list F)) : res (stream * text * (list Z * list Z * list F)) :=
  let '(s, buf, (ri, ci, va)) := st in
  let '(s, buf) := getline s buf in
  let d := stream_of buf in
  let '(d, ix) := get_size d None in
  let '(d, jx) := get_size d None in
  let value := get_float d None in
  ix <- use ix ;; ri <- wr ri i (int_of_size (size_pred ix)) ;;
  jx <- use jx ;; ci <- wr ci i (int_of_size (size_pred jx)) ;;
  value <- use value ;; va <- wr va i value ;;
  Ok (s, buf, (ri, ci, va)).

(** IO_coo.cpp:70-153 input_mm; [std::exit] ends the process like a failed assertion ([assert_]).  The object's old contents do not matter: every array is resized and
    completely overwritten, so the receiver is not an argument. *)
Definition input_mm (fuel : nat) (file : text) : res (mm F) :=
  let '(ifs, banner) := getline (stream_of file) [] in
  let bn := stream_of banner in
  let '(bn, w1) := get_word bn [] in
  let '(bn, w2) := get_word bn [] in
  let '(bn, w3) := get_word bn [] in
  let '(bn, w4) := get_word bn [] in
  let '(bn, w5) := get_word bn [] in
  assert_ (teq w1 mm_banner) ;;;
  assert_ (teq w2 mm_mat) ;;;
  assert_ (teq w3 mm_fmt) ;;;
  assert_ (teq w4 mm_real) ;;;
  assert_ (teq w5 mm_general) ;;;
  '(ifs, buf) <- mm_skip fuel ifs [] ;;
  let td := stream_of buf in
  let '(td, rowNN) := get_size td None in
  let '(td, colNN) := get_size td None in
  let '(td, NNZ) := get_size td None in
  colNN <- use colNN ;;
  assert_ (negb (colNN =? 0)%N) ;;;
  rowNN <- use rowNN ;;
  NNZ <- use NNZ ;;
  let n := N.to_nat NNZ in
  '(_, _, (ri, ci, va)) <- for_ 0 n mm_entry (ifs, buf, (repeat 0%Z n, repeat 0%Z n, repeat f0 n)) ;;
  Ok (mkMm rowNN colNN ri ci va).

End Io.

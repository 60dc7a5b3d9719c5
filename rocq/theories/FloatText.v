(** * FloatText: how double and float values are written and read (model only).

    [out << std::scientific << std::setprecision(p) << v] prints one digit, a point, [p] digits and a decimal exponent of at
    least two digits: the exact value of v rounded to nearest, ties to even (glibc printf).  With
    [p = std::numeric_limits<T>::max_digits10] that is 1+17 digits for double and 1+9 for float
    (src/utils/IO/IO_coo.cpp:20-21, 38-39, 54-55 and the other IO files).
    [in >> v] reads the longest numeral and converts it correctly rounded to nearest even (glibc strtod); no
    mantissa digit, or an exponent marker without digits: 0; too large: the largest finite number
    (libstdc++ num_get).  Assumed: glibc/libstdc++ behaviour as just stated; hexadecimal numerals are not accepted
    by num_get. *)
From Coq Require Import Ascii String NArith ZArith SpecFloat.
From Flocq Require Import Core.Zaux Core.Digits.
From Verif Require Import Base Scalar IoModel.
Import ListNotations.
Set Implicit Arguments.
Local Open Scope list_scope.
Local Open Scope Z_scope.

Definition radix10 : radix := Build_radix 10 eq_refl.

Section FloatText.
(** format (prec, emax) as in SpecFloat; [nd]: significant digits written *)
Variables (prec emax nd : Z).

(** ** writing *)
Definition digit_char (d : Z) : ascii := ascii_of_nat (Z.to_nat d + 48).
(** the last [k] decimal digits of [n] *)
Fixpoint digs (k : nat) (n : Z) : text :=
  match k with O => [] | S k => digs k (n / 10) ++ [digit_char (n mod 10)] end.
(** a/b rounded to nearest, ties to even *)
Definition round_div (a b : Z) : Z :=
  let q := a / b in let r := a mod b in
  match 2 * r ?= b with Lt => q | Gt => q + 1 | Eq => if Z.even q then q else q + 1 end.
(** m * 2^e as a fraction *)
Definition num (m e : Z) : Z := if 0 <=? e then m * 2 ^ e else m.
Definition den (e : Z) : Z := if 0 <=? e then 1 else 2 ^ (- e).
Definition pow10_400 : Z := 10 ^ 400.
(** the decimal exponent of m * 2^e (which is at least 10^-400) *)
Definition exp10 (m e : Z) : Z := Zdigits radix10 (num m e * pow10_400 / den e) - 401.
(** the digits for the unit 10^q *)
Definition at_unit (m e q : Z) : Z :=
  if 0 <=? q then round_div (num m e) (den e * 10 ^ q) else round_div (num m e * 10 ^ (- q)) (den e).
(** nd digits and the exponent of the first one; a carry out of the first digit shifts *)
Definition decimal (m e : Z) : Z * Z :=
  let k := exp10 m e in
  let d := at_unit m e (k - (nd - 1)) in
  if d =? 10 ^ nd then (10 ^ (nd - 1), k + 1) else (d, k).

Definition sign_text (s : bool) : text := if s then txt "-" else [].
Definition exp_text (k : Z) : text :=
  txt "e" ++ (if k <? 0 then txt "-" else txt "+") ++ digs (if Z.abs k <? 100 then 2 else 3) (Z.abs k).
Definition sci_text (d k : Z) : text :=
  match digs (Z.to_nat nd) d with
  | c :: t => c :: "."%char :: t ++ exp_text k
  | [] => []
  end.
Definition print_float (x : spec_float) : text :=
  match x with
  | S754_zero s => sign_text s ++ sci_text 0 0
  | S754_infinity s => sign_text s ++ txt "inf"
  | S754_nan => txt "nan"
  | S754_finite s m e => let '(d, k) := decimal (Zpos m) e in sign_text s ++ sci_text d k
  end.

(** ** reading *)
Definition char_digit (c : ascii) : Z := Z.of_nat (nat_of_ascii c) - 48.
Definition Z_of_digits (t : text) : Z := fold_left (fun a c => 10 * a + char_digit c) t 0.
Definition scan_sign (t : text) : bool * text :=
  match t with
  | c :: r => if Ascii.eqb c "-"%char then (true, r) else if Ascii.eqb c "+"%char then (false, r) else (false, t)
  | [] => (false, [])
  end.
(** the exponent part: [None] when the marker has no digits *)
Definition scan_exp (t : text) : option Z :=
  match t with
  | c :: r =>
      if (Ascii.eqb c "e"%char || Ascii.eqb c "E"%char)%bool then
        let '(s, r) := scan_sign r in
        let '(ds, _) := take_while is_digit r in
        if ended ds then None else Some (if s then - Z_of_digits ds else Z_of_digits ds)
      else Some 0
  | [] => Some 0
  end.
Definition max_float (s : bool) : spec_float :=
  S754_finite s (Z.to_pos (2 ^ prec - 1)) (emax - prec).
(** n * 10^k, correctly rounded *)
Definition of_decimal (s : bool) (n k : Z) : spec_float :=
  match n with
  | Zpos p =>
      let z := if 0 <=? k then SFdiv prec emax (S754_finite s (Z.to_pos (Zpos p * 10 ^ k)) 0) (S754_finite false 1 0)
               else SFdiv prec emax (S754_finite s p 0) (S754_finite false (Z.to_pos (10 ^ (- k))) 0) in
      match z with S754_infinity s => max_float s | _ => z end
  | _ => S754_zero s
  end.
Definition scan_float (t : text) : spec_float :=
  let '(s, t) := scan_sign t in
  let '(ip, t) := take_while is_digit t in
  let '(fp, t) := match t with
                  | c :: r => if Ascii.eqb c "."%char then take_while is_digit r else ([], t)
                  | [] => ([], [])
                  end in
  if (ended ip && ended fp)%bool then S754_zero false else
  match scan_exp t with
  | None => S754_zero false
  | Some k => of_decimal s (Z_of_digits (ip ++ fp)) (k - Z.of_nat (length fp))
  end.
End FloatText.

(** double: max_digits10 = 17 *)
Definition codec64 : Codec spec_float := {| fprint := print_float 18; fscan := scan_float 53 1024 |}.
(** float: max_digits10 = 9 *)
Definition codec32 : Codec spec_float := {| fprint := print_float 10; fscan := scan_float 24 128 |}.

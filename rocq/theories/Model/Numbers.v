(** Number conversions of the C/C++ library used by the code. *)
From Verif Require Export Model.Bytes.
From Coq Require Export Floats.SpecFloat.
Open Scope Z_scope.

(** Value of an ASCII digit. *)
Definition digit_val (c : ascii) : Z := uchar c - 48.

(** Longest prefix of decimal digits: value (starting from [acc]), number of
    digits, rest. *)
Fixpoint take_digits (l : bytes) (acc : Z) (n : Z) : Z * Z * bytes :=
  match l with
  | c :: t => if is_digit c then take_digits t (10 * acc + digit_val c) (n + 1) else (acc, n, l)
  | [] => (acc, n, [])
  end.

(** [strtol(buf, &end, 10)] before range checking, on the strings
    consumeNumber builds (optional '-', digits): [None] when no conversion can
    be done.  Leading white space and '+' cannot occur there and are omitted. *)
Definition strtol_value (buf : bytes) : option Z :=
  let '(neg, body) := match buf with
                      | c :: t => if Ascii.eqb c "-" then (true, t) else (false, buf)
                      | [] => (false, buf)
                      end in
  let '(v, n, _) := take_digits body 0 0 in
  if n =? 0 then None else Some (if neg then - v else v).

(** Outcome of [std::stoi] / [std::stol]. *)
Inductive conv : Type := ConvOk (z : Z) | ConvInvalid | ConvRange.

Definition stox (bits : Z) (buf : bytes) : conv :=
  match strtol_value buf with
  | None => ConvInvalid
  | Some z => if (- 2 ^ (bits - 1) <=? z) && (z <? 2 ^ (bits - 1)) then ConvOk z else ConvRange
  end.
(** [std::stoi]: 32-bit int. *)
Definition stoi := stox 32.
(** [std::stol]: 64-bit long (x86-64 Linux). *)
Definition stol := stox 64.

(** Correctly rounded IEEE double closest to [(-1)^neg * m / 10^k] (round half
    to even), through the standard library's executable specification. *)
Definition decimal_to_double (neg : bool) (m : Z) (k : Z) : spec_float :=
  match m, 10 ^ k with
  | Zpos p, Zpos q => SFdiv 53 1024 (S754_finite neg p 0) (S754_finite false q 0)
  | _, _ => S754_zero neg
  end.

(** [atof] on the strings consumeNumber builds: optional '-', digits,
    optionally '.' and digits.  No exponent can occur.  Without any digit the
    result is (positive) zero.  Simplification: the locale's decimal separator
    is '.', and conversion is correctly rounded, as glibc's is. *)
Definition atof (buf : bytes) : spec_float :=
  let '(neg, body) := match buf with
                      | c :: t => if Ascii.eqb c "-" then (true, t) else (false, buf)
                      | [] => (false, buf)
                      end in
  let '(v, n, rest) := take_digits body 0 0 in
  match rest with
  | c :: t =>
      if Ascii.eqb c "." then
        let '(v', k, _) := take_digits t v 0 in
        if n + k =? 0 then S754_zero false else decimal_to_double neg v' k
      else if n =? 0 then S754_zero false else decimal_to_double neg v 0
  | [] => if n =? 0 then S754_zero false else decimal_to_double neg v 0
  end.

(** ** Printing *)
Definition digit_chr (z : Z) : ascii := chr (48 + z).

Fixpoint dec_digits (fuel : nat) (n : Z) (acc : bytes) : bytes :=
  match fuel with
  | O => acc
  | S f =>
      let acc' := digit_chr (n mod 10) :: acc in
      if n / 10 =? 0 then acc' else dec_digits f (n / 10) acc'
  end.

(** Decimal notation of a non-negative integer.  The number of binary digits
    bounds the number of decimal digits. *)
Definition dec_nonneg (n : Z) : bytes := dec_digits (S (Z.to_nat (Z.log2 n + 1))) n [].

(** [std::to_string(int)], [std::to_string(long long)]. *)
Definition dec_Z (z : Z) : bytes :=
  if z <? 0 then str "-" ++ dec_nonneg (- z) else dec_nonneg z.

(** Integer nearest to [m * 2^e], ties to even. *)
Definition round_half_even (m e : Z) : Z :=
  if 0 <=? e then m * 2 ^ e
  else
    let d := 2 ^ (- e) in
    let q := m / d in
    let r := m mod d in
    if 2 * r <? d then q
    else if d <? 2 * r then q + 1
    else if Z.even q then q else q + 1.

(** Six decimals with leading zeros. *)
Fixpoint fixed_digits (n : nat) (z : Z) (acc : bytes) : bytes :=
  match n with
  | O => acc
  | S n' => fixed_digits n' (z / 10) (digit_chr (z mod 10) :: acc)
  end.

(** [std::to_string(double)], i.e. printf("%f"): exact decimal expansion
    rounded to six decimals (glibc, round half to even), '.' separator. *)
Definition double_to_string (d : spec_float) : bytes :=
  match d with
  | S754_zero s => (if s then str "-" else []) ++ str "0.000000"
  | S754_infinity s => (if s then str "-" else []) ++ str "inf"
  | S754_nan => str "nan"
  | S754_finite s m e =>
      let n := round_half_even (Zpos m * 1000000) e in
      (if s then str "-" else []) ++ dec_nonneg (n / 1000000) ++ str "." ++
      fixed_digits 6 (n mod 1000000) []
  end.

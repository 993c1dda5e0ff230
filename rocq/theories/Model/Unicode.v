(** src/unicode.cpp, include/unicode.hpp and StreamConsumer::appendUnicode. *)
From Verif Require Export Model.Bytes.
Open Scope Z_scope.

(** src/unicode.cpp:5-14 (hexbyte); [None] is std::invalid_argument.  The
    comparisons are on signed [char]; bytes >= 128 fail all three ranges. *)
Definition hexbyte (c : ascii) : option Z :=
  let z := schar c in
  if (48 <=? z) && (z <=? 57) then Some (z - 48)
  else if (65 <=? z) && (z <=? 70) then Some (z - 65 + 10)
  else if (97 <=? z) && (z <=? 102) then Some (z - 97 + 10)
  else None.

(** include/unicode.hpp:5-12 (hexbyte<unsigned short>): accumulation modulo
    2^16.  [inr c]: invalid_argument raised for character [c]. *)
Fixpoint hexshort_acc (acc : Z) (s : bytes) : Z + ascii :=
  match s with
  | [] => inl acc
  | c :: t =>
      match hexbyte c with
      | Some d => hexshort_acc ((acc * 16 + d) mod 65536) t
      | None => inr c
      end
  end.
Definition hexshort (s : bytes) : Z + ascii := hexshort_acc 0 s.

(** Behaviour of the C++ library that the standard leaves open: whether
    std::codecvt_utf8<char32_t> encodes surrogate code points (older
    libstdc++) or reports an error, which wstring_convert turns into
    std::range_error (newer libstdc++). *)
Record env : Type := mkEnv { encodes_surrogates : bool }.

(** [std::wstring_convert<std::codecvt_utf8<char32_t>, char32_t>::to_bytes]
    of a code unit below 2^16 (streamConsumer.cpp:372-373); [None] is
    std::range_error. *)
Definition utf8_bytes (e : env) (u : Z) : option bytes :=
  if u <? 128 then Some [chr u]
  else if u <? 2048 then Some [chr (192 + u / 64); chr (128 + u mod 64)]
  else if (55296 <=? u) && (u <=? 57343) && negb (encodes_surrogates e) then None
  else Some [chr (224 + u / 4096); chr (128 + u / 64 mod 64); chr (128 + u mod 64)].

(** Outcome of appendUnicode. *)
Inductive uni_res : Type :=
| UniOk (b : bytes)
| UniInvalid (c : ascii)   (* std::invalid_argument *)
| UniRange.                (* std::range_error *)

(** src/streamConsumer.cpp:369-375 (appendUnicode): the bytes appended. *)
Definition appendUnicode (e : env) (four : bytes) : uni_res :=
  match hexshort four with
  | inr c => UniInvalid c
  | inl u => match utf8_bytes e u with Some b => UniOk b | None => UniRange end
  end.

(** src/streamConsumer.cpp:377-397 (extractUnicode) on a NUL-terminated
    string: [s] is the text before the terminator.  [XUB]: the pointer is moved
    beyond the terminator (line 386 adds 6 and the loop adds 1, so one byte
    after the escape is skipped, the terminator itself when the escape ends the
    text).  [XAbort]: exception of appendUnicode, which nobody catches.
    [fuel] only has to exceed the length of [s]. *)
Inductive xres : Type := XOk (b : bytes) | XAbort | XUB | XFuel.

Fixpoint extractUnicode_loop (fuel : nat) (e : env) (s : bytes) (acc : bytes) : xres :=
  match fuel with
  | O => XFuel
  | S f =>
      match s with
      | [] => XOk acc
      | c :: t =>
          match c, t with
          | c0, u :: a :: b :: c' :: d :: rest =>
              if Ascii.eqb c0 BSLASH && Ascii.eqb u "u" then
                match appendUnicode e [a; b; c'; d] with
                | UniOk bs =>
                    match rest with
                    | [] => XUB
                    | _ :: rest' => extractUnicode_loop f e rest' (acc ++ bs)
                    end
                | _ => XAbort
                end
              else extractUnicode_loop f e t (acc ++ [c0])
          | c0, _ => extractUnicode_loop f e t (acc ++ [c0])
          end
      end
  end.
Definition extractUnicode (e : env) (s : bytes) : xres :=
  extractUnicode_loop (S (length s)) e s [].

(** Bytes and byte strings.

    [char] is an 8-bit signed byte on the platform the program targets
    (x86-64 Linux, gcc).  It is represented by [ascii]; a [std::string] or a
    C array of [char] is a [list ascii]. *)
From Coq Require Export Ascii String List ZArith NArith Bool.
Export ListNotations.
Open Scope list_scope.

Notation bytes := (list ascii).

(** Byte-string literal, for readability of the model. *)
Definition str (s : string) : bytes := list_ascii_of_string s.

(** Value of a [char] seen as [unsigned char] (used by [std::string::compare]). *)
Definition uchar (c : ascii) : Z := Z.of_N (N_of_ascii c).

(** Value of a [char] promoted to [int]: [char] is signed. *)
Definition schar (c : ascii) : Z :=
  (if uchar c <? 128 then uchar c else uchar c - 256)%Z.

(** Conversion of an integer to [char] (reduction modulo 256). *)
Definition chr (z : Z) : ascii := ascii_of_N (Z.to_N (z mod 256)).

(** [std::string::operator==]. *)
Fixpoint beqb (a b : bytes) : bool :=
  match a, b with
  | [], [] => true
  | x :: a', y :: b' => Ascii.eqb x y && beqb a' b'
  | _, _ => false
  end.

(** [std::string::operator<]: lexicographic, bytes compared as unsigned. *)
Fixpoint bltb (a b : bytes) : bool :=
  match a, b with
  | _, [] => false
  | [], _ :: _ => true
  | x :: a', y :: b' =>
      if (uchar x <? uchar y)%Z then true
      else if (uchar y <? uchar x)%Z then false
      else bltb a' b'
  end.

(** [std::tolower] on one byte.  Simplification: ASCII letters only, which is
    its behaviour in the "C" locale and, byte-wise, in every UTF-8 locale. *)
Definition tolower (c : ascii) : ascii :=
  if ((65 <=? uchar c) && (uchar c <=? 90))%Z then chr (uchar c + 32) else c.

(** ['0' <= c && c <= '9']. *)
Definition is_digit (c : ascii) : bool :=
  ((48 <=? uchar c) && (uchar c <=? 57))%Z.

Definition LF : ascii := chr 10.
Definition CR : ascii := chr 13.
Definition NUL : ascii := chr 0.
Definition TAB : ascii := chr 9.
Definition DQUOTE : ascii := chr 34.
Definition BSLASH : ascii := chr 92.

(** The [char] obtained from [EOF] ([char c = stream.get()] at end of input). *)
Definition EOFCHAR : ascii := chr (-1).

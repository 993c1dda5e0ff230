(** Widths of texts: src/jsonElement.cpp, lazystrlen and strlen. *)
From Verif Require Export Model.Bytes.

(** What a call comes to: a length; a write or read outside of wbuf; a read of
    an element of wbuf never written. *)
Inductive width : Type := Width (n : nat) | OutOfBounds | Uninitialised.

Section Locale.
  (** The C library's multibyte conversion in the current locale, initial shift
      state: the number of bytes of the character at the head, [None] when it is
      invalid or incomplete. *)
  Variable mb : bytes -> option nat.

  (** mbstowcs: the characters up to the null byte or the end: how many were
      converted, and whether the end was reached. *)
  Fixpoint convert (fuel : nat) (s : bytes) : nat * bool :=
    match fuel, s with
    | _, [] => (O, true)
    | O, _ => (O, false)
    | S fuel, c :: _ =>
        if Ascii.eqb c NUL then (O, true)
        else match mb s with
             | Some (S k) => let '(n, b) := convert fuel (skipn (S k) s) in (S n, b)
             | _ => (O, false)
             end
    end.

  (** jsonElement.cpp:24-34 (lazystrlen), [cache] being _strlen and [s] what
      stringify() answers.  wbuf has [length s] elements; mbstowcs may write four
      times as many (buf.size() * sizeof(wchar_t)), so it writes the terminator
      after the [n] characters, in bounds when [n < length s].  Without
      terminator wcslen reads on. *)
  Definition lazystrlen (cache : nat) (s : bytes) : width :=
    match cache, s with
    | S _, _ => Width cache
    | O, [] => Width O
    | O, _ =>
        let '(n, b) := convert (length s) s in
        if b then (if Nat.ltb n (length s) then Width n else OutOfBounds)
        else Uninitialised
    end.

  (** jsonElement.cpp:36-46 (strlen): mbtowc converts one character into wbuf[0];
      wcslen goes on at wbuf[1] unless it is the null character. *)
  Definition strlen (cache : nat) (s : bytes) : width :=
    match cache, s with
    | S _, _ => Width cache
    | O, [] => Width O
    | O, c :: t =>
        if Ascii.eqb c NUL then Width O
        else match mb s, t with
             | Some _, [] => OutOfBounds
             | _, _ => Uninitialised
             end
    end.
End Locale.

(** The conversion of a UTF-8 locale (glibc: lead bytes c2 to f7, continuation
    bytes, no overlong forms of three and four bytes). *)
Definition is_cont (c : ascii) : bool := let u := uchar c in ((128 <=? u) && (u <? 192))%Z.
Definition utf8_locale (s : bytes) : option nat :=
  match s with
  | [] => None
  | c :: t =>
      let u := uchar c in
      if (u <? 128)%Z then Some 1
      else if ((194 <=? u) && (u <? 224))%Z
      then match t with a :: _ => if is_cont a then Some 2 else None | _ => None end
      else if ((224 <=? u) && (u <? 240))%Z
      then match t with
           | a :: b :: _ => if is_cont a && is_cont b && negb ((u =? 224) && (uchar a <? 160))%Z then Some 3 else None
           | _ => None
           end
      else if ((240 <=? u) && (u <? 248))%Z
      then match t with
           | a :: b :: d :: _ =>
               if is_cont a && is_cont b && is_cont d && negb ((u =? 240) && (uchar a <? 144))%Z then Some 4 else None
           | _ => None
           end
      else None
  end.

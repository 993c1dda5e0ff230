(** The search prompt: src/curseOutput.cpp:204-245 (inputSearch). *)
From Verif Require Export Model.SearchPattern Model.Unicode.
Open Scope Z_scope.

(** How the prompt leaves the program: waiting for a key with some text typed, with
    a pattern or none ([nullptr]) and the keys not yet read, reading bytes nobody
    wrote, or an exception of extractUnicode that nobody catches. *)
Inductive prompted : Type :=
| Typing (buffer : list Z)
| Answer (p : option spat) (rest : list Z)
| Uninitialised
| Uncaught.

(** wcstombs to UTF-8 of one character; wgetch answers at most KEY_MAX (511), -1 for
    an error.  In the locale "C" (main.cpp:232-233: setlocale is not called with
    --ascii, which isIgnoringUnicode tells) only ASCII can be converted. *)
Definition wc_bytes (utf8 : bool) (c : Z) : option bytes :=
  if (0 <=? c) && (c <? 128) then Some [chr c]
  else if utf8 && (128 <=? c) && (c <? 2048) then Some [chr (192 + c / 64); chr (128 + c mod 64)]
  else None.

(** wcstombs of the characters, up to a NUL; [None] when one cannot be converted:
    nothing then ends the text. *)
Fixpoint wc_text (utf8 : bool) (buffer : list Z) : option bytes :=
  match buffer with
  | [] => Some []
  | c :: t =>
      if c =? 0 then Some []
      else match wc_bytes utf8 c, wc_text utf8 t with
           | Some b, Some s => Some (b ++ s)
           | _, _ => None
           end
  end.
(** curseOutput.cpp:235-238: what the array [bytesString] holds.  Four bytes per
    character leave room for the NUL unless there is no character. *)
Definition wcstombs (utf8 : bool) (buffer : list Z) : option bytes :=
  match buffer with [] => None | _ => wc_text utf8 buffer end.

(** curseOutput.cpp:234-244.  The text is read before [abort] is considered. *)
Definition answer (e : env) (ignoring utf8 : bool) (junk : Z) (buffer : list Z) (abort : bool) (rest : list Z) : prompted :=
  match wcstombs utf8 buffer with
  | None => Uninitialised
  | Some text =>
      match (if ignoring then XOk text else extractUnicode e text) with
      | XOk s => Answer (if abort then None else Some (SearchPattern junk s)) rest
      | XAbort => Uncaught
      | XUB | XFuel => Uninitialised
      end
  end.

(** curseOutput.cpp:206-231: reading keys. *)
Fixpoint inputSearch (e : env) (ignoring utf8 : bool) (junk : Z) (keys : list Z) (buffer : list Z) : prompted :=
  match keys with
  | [] => Typing buffer
  | c :: t =>
      if (c =? 10) || (c =? 13) then answer e ignoring utf8 junk buffer false t
      else if (c =? 8) || (c =? 127) then inputSearch e ignoring utf8 junk t (removelast buffer)
      else if c =? 27 then answer e ignoring utf8 junk buffer true t
      else inputSearch e ignoring utf8 junk t (buffer ++ [c])
  end.

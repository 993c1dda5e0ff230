(** src/searchPattern.cpp, include/searchPattern.hh. *)
From Verif Require Export Model.Json.
Open Scope Z_scope.

(** searchPattern.cpp:126-129: values of typeFlag. *)
Definition TYPE_BOOL : Z := 1.
Definition TYPE_NUMBER : Z := 2.
Definition TYPE_STRING : Z := 3.
Definition TYPE_OBJKEY : Z := 4.

(** include/searchPattern.hh:25-28: the members.  The bits of [flags]
    (searchPattern.cpp:121-124) are separate booleans; [regex] is compiled iff
    [fregex] and is determined by [pat] and [fcase]. *)
Record spat : Type := mkPat {
  pat : bytes; fcase : bool; fword : bool; fstr : bool; fregex : bool; ftype : Z }.

(** searchPattern.cpp:15: skip leading blanks; a std::string indexed at its
    length yields NUL, so the scan ends at the end or at a NUL byte. *)
Fixpoint skip_blanks (s : bytes) : bytes :=
  match s with
  | c :: t => if Ascii.eqb c " " || Ascii.eqb c TAB then skip_blanks t else s
  | [] => []
  end.

(** searchPattern.cpp:16-37: the pattern text and, when a '/' ended it, what
    follows. *)
Fixpoint scan_pattern (s : bytes) (escaped : bool) (acc : bytes) : bytes * option bytes :=
  match s with
  | [] => (acc, None)
  | c :: t =>
      if Ascii.eqb c NUL then (acc, None)
      else if escaped then
        if Ascii.eqb c "/" then scan_pattern t false (acc ++ [c])
        else scan_pattern t false (acc ++ [BSLASH; c])
      else if Ascii.eqb c BSLASH then scan_pattern t true acc
      else if Ascii.eqb c "/" then (acc, Some t)
      else scan_pattern t false (acc ++ [c])
  end.

(** searchPattern.cpp:48-70: one flag. *)
Definition eval_flag (p : spat) (c : ascii) : spat :=
  if Ascii.eqb c "i" then mkPat (map tolower (pat p)) true (fword p) (fstr p) (fregex p) (ftype p)
  else if Ascii.eqb c "w" then mkPat (pat p) (fcase p) true (fstr p) (fregex p) (ftype p)
  else if Ascii.eqb c "f" then mkPat (pat p) (fcase p) (fword p) true (fregex p) (ftype p)
  else if Ascii.eqb c "e" then mkPat (pat p) (fcase p) (fword p) (fstr p) true (ftype p)
  else if Ascii.eqb c "b" then mkPat (pat p) (fcase p) (fword p) (fstr p) (fregex p) TYPE_BOOL
  else if Ascii.eqb c "n" then mkPat (pat p) (fcase p) (fword p) (fstr p) (fregex p) TYPE_NUMBER
  else if Ascii.eqb c "s" then mkPat (pat p) (fcase p) (fword p) (fstr p) (fregex p) TYPE_STRING
  else if Ascii.eqb c "o" then mkPat (pat p) (fcase p) (fword p) (fstr p) (fregex p) TYPE_OBJKEY
  else p.

(** searchPattern.cpp:46-78 (evalFlags), up to a NUL. *)
Fixpoint eval_flags (p : spat) (s : bytes) : spat :=
  match s with
  | [] => p
  | c :: t => if Ascii.eqb c NUL then p else eval_flags (eval_flag p c) t
  end.

(** searchPattern.cpp:9-38: the constructor.  [junk] is the content of the
    uninitialised member typeFlag (line 9 initialises only regex and flags).
    Simplification: std::regex's constructor does not throw. *)
Definition SearchPattern (junk : Z) (input : bytes) : spat :=
  let '(text, flags) := scan_pattern (skip_blanks input) false [] in
  let p := mkPat text false false false false junk in
  match flags with
  | None => p
  | Some s => eval_flags p s
  end.

(** searchPattern.cpp:80-81. *)
Definition isEmpty (p : spat) : bool := match pat p with [] => true | _ => false end.

(** searchPattern.cpp:83-90 (operator()): [a] from the text, [b] from the
    pattern.  std::tolower is given a signed char and its int result is compared
    with one: for the bytes 128-254 the argument is negative, outside the domain
    of tolower; glibc's table answers 128-254, which is no signed char, so the
    comparison fails (for 255 it answers -1, the argument). *)
Definition high (a : ascii) : bool := (128 <=? uchar a) && (uchar a <=? 254).
Definition pat_eq (p : spat) (a b : ascii) : bool :=
  let a := if Ascii.eqb a TAB then " "%char else a in
  if fcase p then negb (high a) && Ascii.eqb (tolower a) b else Ascii.eqb a b.

(** std::search: the pattern occurs at the beginning of [s]. *)
Fixpoint at_start (eq : ascii -> ascii -> bool) (s p : bytes) : bool :=
  match p, s with
  | [], _ => true
  | y :: p', x :: s' => eq x y && at_start eq s' p'
  | _ :: _, [] => false
  end.

(** std::search(s.begin(), s.end(), p.begin(), p.end(), eq): offset of the first
    occurrence, the length of [s] (end) when there is none. *)
Fixpoint std_search (eq : ascii -> ascii -> bool) (s p : bytes) : nat :=
  if at_start eq s p then O
  else match s with
       | [] => O
       | _ :: t => S (std_search eq t p)
       end.
Definition found (eq : ascii -> ascii -> bool) (s p : bytes) : bool :=
  negb (std_search eq s p =? length s)%nat.

(** Dynamic type of the element given to match: a primitive, an object entry,
    or a container. *)
Inductive etype : Type := EPrim (p : prim) | EEntry | EContainer.

(** searchPattern.cpp:94-107. *)
Definition type_ok (flag : Z) (t : etype) : bool :=
  if flag =? TYPE_BOOL then match t with EPrim (PBool _) => true | _ => false end
  else if flag =? TYPE_STRING then match t with EPrim (PStr _) => true | _ => false end
  else if flag =? TYPE_OBJKEY then match t with EEntry => true | _ => false end
  else if flag =? TYPE_NUMBER then
    match t with EPrim (PInt _) | EPrim (PDbl _) | EPrim (PLong _) => true | _ => false end
  else true.

Section Match.
  (** std::regex_search of a pattern with the icase option or not. *)
  Variable regex_search : bytes -> bool -> bytes -> bool.

  (** searchPattern.cpp:92-119 (match). *)
  Definition match_ (p : spat) (s : bytes) (t : etype) : bool :=
    if negb (type_ok (ftype p) t) then false
    else if fregex p then regex_search (pat p) (fcase p) s
    else if (fstr p && negb (length s =? length (pat p))%nat) || (length s <? length (pat p))%nat then false
    else if fword p && (length (pat p) <? length s)%nat then found (pat_eq p) s (" "%char :: pat p ++ [" "%char])
    else found (pat_eq p) s (pat p).
End Match.

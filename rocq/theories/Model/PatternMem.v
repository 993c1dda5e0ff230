(** The patterns of searches in memory: src/curseSimpleOutput.cpp,
    src/curseSplitOutput.cpp, src/searchPattern.cpp. *)
From Verif Require Export Model.SearchPattern.

(** The SearchPattern of the search number [fst o], or (if [snd o]) its std::regex. *)
Definition obj : Type := (nat * bool)%type.
(** new, a use of what a pointer leads to, and delete *)
Inductive pcall : Type := PNew (o : obj) | PUse (o : obj) | PDelete (o : obj).

(** curseOutput.cpp:242 and searchPattern.cpp:9-38: evalFlags makes a regex iff the flag
    is given (71-77, taken not to throw). *)
Definition pattern_new (k : nat) (p : spat) : list pcall := PNew (k, false) :: PUse (k, false) :: (if fregex p then [PNew (k, true)] else []).
(** searchPattern.cpp:92-119 for an element of type [t] *)
Definition pattern_match (k : nat) (p : spat) (t : etype) : list pcall :=
  PUse (k, false) :: (if type_ok (ftype p) t then if fregex p then [PUse (k, true)] else [PUse (k, false)] else []).
(** searchPattern.cpp:40-44, then the memory of the pattern *)
Definition pattern_delete (k : nat) (p : spat) : list pcall := PUse (k, false) :: (if fregex p then [PDelete (k, true)] else []) ++ [PDelete (k, false)].

(** What a prompt is answered ([None]: Escape), the content of the uninitialised member
    typeFlag, and the elements the search goes through (curseOutput.cpp:204-243). *)
Definition prompt : Type := (option bytes * Z * list etype)%type.

(** curseSimpleOutput.cpp:165-176, curseSplitOutput.cpp:199-212 *)
Definition initSearch_mem (k : nat) (a : prompt) : list pcall :=
  match a with
  | (None, _, _) => []
  | (Some typed, junk, es) =>
      let p := SearchPattern junk typed in
      pattern_new k p ++ [PUse (k, false)] ++ (if isEmpty p then [] else flat_map (pattern_match k p) es ++ pattern_delete k p)
  end.

(** One search after another (curseOutput.cpp:117-156), numbered from [k] on *)
Fixpoint searches_mem (k : nat) (l : list prompt) : list pcall :=
  match l with
  | [] => []
  | a :: l => initSearch_mem k a ++ searches_mem (S k) l
  end.

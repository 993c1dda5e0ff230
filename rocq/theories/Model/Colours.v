(** What the terminal makes of the colour pairs of Model/SimpleText.v. *)
From Verif Require Export Model.SimpleText.
Open Scope Z_scope.

(** The colours of curses that the program uses. *)
Inductive colour : Type := Black | Red | Green | Magenta | Cyan | White | Blue.

(** outputFlag.cpp:18-26. *)
Definition OUT_ERROR : Z := 52.
Definition OUT_INPUTNAME : Z := 53.
Definition OUT_ACTIVEINPUTNAME : Z := 54.
Definition OUT_ADD : Z := 60.
Definition OUT_MOD : Z := 61.
Definition OUT_REM : Z := 62.

(** curseOutput.cpp:308-323 (init): start_color and the calls of init_pair, if
    [enabled] (params.colorEnabled()): pair, text, background. *)
Definition pairs (enabled : bool) : list (Z * (colour * colour)) :=
  if enabled
  then [(OUT_NUMBER, (Green, Black)); (OUT_BOOL, (Red, Black)); (OUT_NULL, (Red, Black)); (OUT_STRING, (Cyan, Black)); (OUT_OBJKEY, (Cyan, Black));
        (OUT_SEARCH, (White, Blue)); (OUT_ERROR, (White, Red)); (OUT_ACTIVEINPUTNAME, (Black, Green)); (OUT_INPUTNAME, (Black, White));
        (OUT_ADD, (Green, Black)); (OUT_MOD, (Cyan, Black)); (OUT_REM, (Magenta, Black))]
  else [].

(** attron(COLOR_PAIR(i)) (curseSimpleOutput.cpp:367-368, 394-395;
    curseSplitOutput.cpp:730-731, 798-799), by what curses says of it: the colours
    given to the pair; those of the terminal ([None]) when none were, as always
    without start_color. *)
Definition colours_of (enabled : bool) (i : option Z) : option (colour * colour) :=
  match i with
  | Some i => match find (fun e => fst e =? i) (pairs enabled) with Some e => Some (snd e) | None => None end
  | None => None
  end.

(** A text on the terminal: bytes, reverse and bold, colours. *)
Record seen : Type := mkSeen { seen_text : bytes; seen_reverse : bool; seen_colours : option (colour * colour) }.
Definition see (enabled : bool) (p : piece) : seen := mkSeen (ptext p) (preverse p) (colours_of enabled (ppair p)).
Definition see_all (enabled : bool) (l : list printed) : list (Z * Z * list seen) :=
  map (fun c => (cline c, ccol c, map (see enabled) (cpieces c))) l.

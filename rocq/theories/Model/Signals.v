(** The signal that the program goes on after having been stopped. *)
From Verif Require Export Model.SimpleView.
Open Scope Z_scope.

(** curseOutput.cpp:71-77 (onsig, SIGCONT): [w] columns and [hh] lines are the size
    of the terminal now; SIGWINCH is raised when it is not the one known
    (curseOutput.cpp:184-193; curseSimpleOutput.cpp:538-541: screenSize is that
    size).  Simplification: ioctl does not fail; SIGWINCH is handled at once. *)
Definition continued (sc : screen) (w hh : Z) : list event :=
  if negb (hh =? sh sc) || negb (w =? sw sc) then [EvSize w hh] else [].

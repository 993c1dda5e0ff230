(** What a program must respect that asks for windows, a screen and a file. *)
From Verif Require Export Model.Handles.

(** Windows that are there, windows there ever were, the screen and the file. *)
Record alive : Type := mkAlive { awins : list nat; aever : list nat; ascreen : bool; afile : bool }.
Definition nothing : alive := mkAlive [] [] false false.

(** Windows are made, used and deleted while there is a screen, and no screen is
    deleted before its windows, nor a file closed before the screen on it. *)
Inductive may : alive -> call -> alive -> Prop :=
| may_newterm w e f : may (mkAlive w e false f) Newterm (mkAlive w e true f)
| may_screen w e f : may (mkAlive w e true f) OnScreen (mkAlive w e true f)
| may_refresh w e f : may (mkAlive w e true f) Refresh (mkAlive w e true f)
| may_resize s : may s ResizeTerm s
| may_end w e f : may (mkAlive w e true f) Endwin (mkAlive w e true f)
| may_delscreen e f : may (mkAlive [] e true f) Delscreen (mkAlive [] e false f)
| may_newwin w e f k : ~ In k e -> may (mkAlive w e true f) (Newwin k) (mkAlive (k :: w) (k :: e) true f)
| may_win w e f k : In k w -> may (mkAlive w e true f) (OnWin k) (mkAlive w e true f)
| may_delwin w e f k w' : In k w -> (forall x, In x w' <-> In x w /\ x <> k) -> may (mkAlive w e true f) (Delwin k) (mkAlive w' e true f)
| may_fopen w e s : may (mkAlive w e s false) Fopen (mkAlive w e s true)
| may_file w e s : may (mkAlive w e s true) OnFile (mkAlive w e s true)
| may_fclose w e : may (mkAlive w e false true) Fclose (mkAlive w e false false).
Inductive goes : alive -> list call -> alive -> Prop :=
| goes_nil s : goes s [] s
| goes_cons s c s' l s'' : may s c s' -> goes s' l s'' -> goes s (c :: l) s''.

(** Nothing is used that is not there. *)
Definition orderly (l : list call) : Prop := exists s, goes nothing l s.
(** And in the end nothing is there any more. *)
Definition given_back (l : list call) : Prop := exists e, goes nothing l (mkAlive [] e false false).

(** The terminal is in curses mode: refresh() enters it, also after endwin(), which
    leaves it; without a screen refresh() does nothing. *)
Definition visual (l : list call) : Prop := exists x y, l = x ++ Refresh :: y /\ In Newterm x /\ ~ In Delscreen x /\ ~ In Endwin y.
(** The same for windows, any call on which may refresh it. *)
Definition visual_window (l : list call) : Prop := exists x k y, l = x ++ OnWin k :: y /\ ~ In Delscreen x /\ ~ In Endwin y.

(** The names of the files above the windows, in their colours. *)
From Verif Require Export Model.Colours Model.SplitText Model.Lines.
Open Scope Z_scope.

(** curseSplitOutput.cpp:441-442 (redraw) and 826-840 (writeTopLine): window [i] of
    those of the comparison, [act] is selectedWin, [w] is screenSize.first. *)
Definition title (enabled : bool) (w act i : Z) (name : bytes) : seen :=
  see enabled (mkPiece (split_top_text w name) false
                 (if enabled then Some (if i =? act then OUT_ACTIVEINPUTNAME else OUT_INPUTNAME) else None)).
(** curseSimpleOutput.cpp:46 and curseOutput.cpp:247-257 *)
Definition only_title (enabled : bool) (w : Z) (name : bytes) : seen :=
  see enabled (mkPiece (top_text w name) false (if enabled then Some OUT_ACTIVEINPUTNAME else None)).
(** curseOutput.cpp:158-164 and 259-271: a message on the bottom line. *)
Definition message (enabled : bool) (w : Z) (text : bytes) : seen :=
  see enabled (mkPiece (bottom_text w text) false (if enabled then Some OUT_ERROR else None)).
(** curseSplitOutput.cpp:741-770 (displayDiffOp): the marks, whatever the colours. *)
Definition mark_seen (enabled : bool) (o : op) : option seen :=
  match o with
  | OAdd => Some (see enabled (mkPiece (str "++") true (Some OUT_ADD)))
  | OMod => Some (see enabled (mkPiece (str "!!") true (Some OUT_MOD)))
  | ORem => Some (see enabled (mkPiece (str "--") true (Some OUT_REM)))
  | OEqu => None
  end.

(** A window of the comparison: title, texts, marks with their lines. *)
Definition win_seen (enabled : bool) (h : list elem) (wd act : Z) (res : list Z) (i : Z) (name : bytes) (w : win)
  : seen * list (Z * Z * list seen) * list (Z * option seen) :=
  (title enabled wd act i name, see_all enabled (cells_of h res enabled w), map (fun m => (fst m, mark_seen enabled (snd m))) (wmarks w)).
(** Both windows as redraw (curseSplitOutput.cpp:426-517) leaves them; [na] and
    [nb] are the names of the files. *)
Definition split_seen (enabled : bool) (h : list elem) (sc : screen) (na nb : bytes) (p : split) :=
  match pwins p with
  | [x; y] => Some (win_seen enabled h (sw sc) (pact p) (active_res p) 0 na x, win_seen enabled h (sw sc) (pact p) (active_res p) 1 nb y)
  | _ => None
  end.

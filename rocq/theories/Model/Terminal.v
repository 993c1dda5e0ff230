(** What the terminal shows of the view of one document: the cells of stdscr after
    a redraw.  Simplification: every byte of a text takes one column and is no
    control character; attributes and colours are in Model/SimpleText.v. *)
From Verif Require Export Model.SimpleText Model.Lines.
Open Scope Z_scope.

(** A curses window of [tw] columns and [th] lines: its cells in reading order
    (column [x] of line [y] is cell [y * tw + x]) and the cell of the cursor
    (curseOutput.cpp:289-306 opens it; without scrollok). *)
Record term : Type := mkTerm { tw : Z; th : Z; tcell : Z -> ascii; tpos : Z }.

(** clear() (curseSimpleOutput.cpp:45) *)
Definition cleared (w h : Z) : term := mkTerm w h (fun _ => " "%char) 0.

(** printw("%s") (curseSimpleOutput.cpp:398, through waddstr): from the cursor on, a
    full line is followed by the next one; a character in the last cell leaves the
    cursor there and the rest of the text is not printed. *)
Fixpoint add_str (s : bytes) (t : term) : term :=
  match s with
  | [] => t
  | c :: s =>
      let g := fun q => if q =? tpos t then c else tcell t q in
      if tpos t =? tw t * th t - 1 then mkTerm (tw t) (th t) g (tpos t)
      else add_str s (mkTerm (tw t) (th t) g (tpos t + 1))
  end.

(** move(line, column) (curseSimpleOutput.cpp:380): without effect outside the
    window. *)
Definition in_window (t : term) (line col : Z) : bool := (0 <=? line) && (line <? th t) && (0 <=? col) && (col <? tw t).
Definition move (line col : Z) (t : term) : term :=
  if in_window t line col then mkTerm (tw t) (th t) (tcell t) (line * tw t + col) else t.

(** One call of write or writeKey (curseSimpleOutput.cpp:314-383): a text is
    printed where the cursor is, even if move failed; a bracket, printed with
    mvprintw (369), is not printed then.  Simplification: a string that is a
    bracket, outside the window, is taken for one. *)
Definition is_bracket (p : printed) : bool :=
  match cpieces p with
  | [c] => existsb (beqb (ptext c)) [str "{"; str "}"; str "["; str "]"]
  | _ => false
  end.
Definition draw_printed (t : term) (p : printed) : term :=
  if negb (in_window t (cline p) (ccol p)) && is_bracket p then t
  else fold_left (fun t c => add_str (ptext c) t) (cpieces p) (move (cline p) (ccol p) t).

(** curseSimpleOutput.cpp:35-76 (redraw): clear, writeTopLine, then the document. *)
Definition terminal (name : bytes) (w h : Z) (ps : list printed) : term :=
  fold_left draw_printed ps (add_str (top_text w name) (move 0 0 (cleared w h))).

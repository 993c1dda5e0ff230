(** What the terminal shows of one of the two windows of the comparison: the cells of
    innerWin after a redraw.  Simplifications as in Model/Terminal.v; the texts and
    the marks of the comparison are each in the order printed, which of a text and a
    mark comes first is left open. *)
From Verif Require Export Model.Terminal Model.SplitText.
Open Scope Z_scope.

(** curseSplitOutput.cpp:741-771 (displayDiffOp) *)
Definition mark_text (o : op) : bytes :=
  match o with OAdd => str "++" | OMod => str "!!" | ORem => str "--" | OEqu => [] end.

(** A text printed (curseSplitOutput.cpp:713-739, 773-785) or a mark (741-771). *)
Inductive ink : Type := Inked (p : printed) | Margin (line : Z) (o : op).

(** curseSplitOutput.cpp:735, 779-781 and 797 (mvwprintw for a bracket; wmove and
    wprintw for a text), 748, 756, 764 (mvwprintw for a mark: nothing outside the
    window). *)
Definition draw_ink (t : term) (k : ink) : term :=
  match k with
  | Inked p => draw_printed t p
  | Margin y o => if in_window t y 0 then add_str (mark_text o) (move y 0 t) else t
  end.

(** The texts and the marks of one redraw, in some order. *)
Inductive mixed : list printed -> list (Z * op) -> list ink -> Prop :=
| M_none : mixed [] [] []
| M_text p ps ms l : mixed ps ms l -> mixed (p :: ps) ms (Inked p :: l)
| M_mark m ps ms l : mixed ps ms l -> mixed ps (m :: ms) (Margin (fst m) (snd m) :: l).

(** curseSplitOutput.cpp:438-442 (wclear, writeTopLine), then everything else; [w] and
    [h] are the size of innerWin (63). *)
Definition window_cells (name : bytes) (w h : Z) (inks : list ink) : term :=
  fold_left draw_ink inks (add_str (split_top_text (w + 2) name) (move 0 0 (cleared w h))).

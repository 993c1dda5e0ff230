(** Drawing again what is on screen. *)
From Verif Require Export Spec.ViewSpec Model.Lines Model.Signals.
Open Scope Z_scope.

(** Windows of at least two lines. *)
Definition two_lines (hh : Z) : Prop := 2 <= hh < 2 ^ 32.
Definition all_two_lines (evs : list event) : Prop := forall w hh, In (EvSize w hh) evs -> two_lines hh.
(** Drawing it changes nothing: not the rows on screen, not scrollTop, not what the
    next key leads to. *)
Definition settled (root : node) (sc : screen) (v : view) : Prop := redraw root sc v = Some (true, v).

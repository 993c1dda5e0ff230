(** The texts and colours the comparison puts on screen: what Model/SplitView.v
    prints (wcells) with its flags.  How the terminal shows it: Model/WindowCells.v; a
    text below the end of the window is among what is printed. *)
From Verif Require Import Model.SimpleText.
From Verif Require Export Model.SplitView.
Open Scope Z_scope.

(** curseSplitOutput.cpp:862-898 (getFlag), without the mark of the comparison
    (shown_op); [sel] is the selection of the window, [res] searchResults of the
    active window.  A text has its own type when it is a key or ": " (589-592,
    605-609): see [cells_of]. *)
Definition split_flag (h : list elem) (res : list Z) (sel : option Z) (e : elem) : flags :=
  mkFlags
    (sel_is sel (eid e) || match epar e with Some p => is_entry h p && sel_is sel p | None => false end)
    (mem (eid e) res) (node_type (value_of e)).

(** curseSplitOutput.cpp:723-736 and 787-805: as the view of one document does. *)
Definition cell_as (h : list elem) (res : list Z) (sel : option Z) (enabled : bool) (c : writing) : printed :=
  mkPrinted (celly c) (cellx c)
    (map (fun t => print_as enabled (retype (split_flag h res sel (celem c)) (fst t)) (snd t)) (ctexts c)).

(** What is in window [w] after a redraw, below the name of its file, in the order
    printed.  Simplification: the flags are read from members a redraw does not
    change. *)
Definition cells_of (h : list elem) (res : list Z) (enabled : bool) (w : win) : list printed :=
  rev (map (cell_as h res (wsel w) enabled) (wcells w)).

(** subWindows.at(selectedWin).searchResults *)
Definition active_res (p : split) : list Z :=
  match nth_error (pwins p) (Z.to_nat (pact p)) with Some w => wres w | None => [] end.

(** Rectangles of cells. *)
From Verif Require Export Model.Windows.
Open Scope Z_scope.

(** The cell at [line], [col] belongs to [r]. *)
Definition covers (r : rect) (line col : Z) : Prop :=
  rtop r <= line < rtop r + rlines r /\ rleft r <= col < rleft r + rcols r.
(** It is on the frame box() draws around [r]. *)
Definition frame (r : rect) (line col : Z) : Prop :=
  covers r line col /\ (line = rtop r \/ line = rtop r + rlines r - 1 \/ col = rleft r \/ col = rleft r + rcols r - 1).

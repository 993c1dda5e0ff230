(** The view of two documents side by side: what its properties speak about. *)
From Verif Require Export Spec.ViewerSpec Spec.DiffSpec Model.SplitView.
Open Scope Z_scope.

Definition end_split (e : ending) : split := match e with Waits _ p | Ends _ p => p end.
Definition end_screen (e : ending) : screen := match e with Waits sc _ | Ends sc _ => sc end.

(** The active window. *)
Definition active (p : split) : option win := nth_error (pwins p) (Z.to_nat (pact p)).

(** The windows of two documents are two, one of which is active. *)
Definition two_windows (p : split) : Prop := length (pwins p) = 2%nat /\ (pact p = 0 \/ pact p = 1).

(** The active window has a selection and it is a row on display of its own
    document. *)
Definition active_on_row (p : split) : Prop :=
  exists w i, active p = Some w /\ wsel w = Some i /\ In i (rows (pcoll p) (wroot w)).

(** What is selected in the active window belongs to its document. *)
Definition active_at_home (p : split) : Prop :=
  forall w i, active p = Some w -> wsel w = Some i -> In i (ids (wroot w)).

(** The other window selects the counterpart of what the active window selects,
    nothing when there is none. *)
Definition mirrored (dm : mat) (p : split) : Prop :=
  exists w0 w1, pwins p = [w0; w1] /\
    ((pact p = 0 /\ wsel w1 = equivalent dm (wsel w0)) \/ (pact p = 1 /\ wsel w0 = equivalent dm (wsel w1))).

(** Folding follows the pairing: of two counterparts both are collapsed or none. *)
Definition folds_agree (dm : mat) (p : split) : Prop :=
  forall x y, getEquivalence dm x = Some y -> (In x (pcoll p) <-> In y (pcoll p)).

(** The terminal always has room for two windows of width 5 and two lines. *)
Definition room (w hh : Z) : Prop := 10 <= w < 2 ^ 32 /\ 4 <= hh < 2 ^ 32.
Definition rooms (evs : list event) : Prop := forall w hh, In (EvSize w hh) evs -> room w hh.

(** More lines than both documents can take on the narrowest windows: for every
    element its text, and twice the deepest indentation with room for brackets. *)
Definition most_lines (len : elem -> Z) (a b : node) : Z :=
  fold_right (fun e s => len e + 2 * (4 * Z.of_nat (Nat.max (nesting a) (nesting b)) + 16) + s) 0 (elems a ++ elems b).

(** A window whose remembered selection is a row on display, and the rows Up and
    Down go to. *)
Definition at_rows (root : node) (coll : list Z) (w : win) : Prop :=
  wroot w = root /\ (exists l, wlast w = Some l /\ In l (rows coll root)) /\
  (forall i, wsel w = Some i -> In i (rows coll root)) /\ 0 <= wscroll w.
Definition aimed (root : node) (coll : list Z) (w : win) : Prop :=
  exists u d, wup w = Some u /\ wdown w = Some d /\ In u (rows coll root) /\ In d (rows coll root).

(** Everything drawn on screen that the comparison marks has its mark in the
    margin of the line it is drawn on. *)
Definition marks_in_place (dm : mat) (w : win) : Prop :=
  forall i c y, In (i, c, y) (wlog w) -> wscroll w < y -> shown_op dm i <> OEqu ->
    In (y - wscroll w, shown_op dm i) (wmarks w).

(** The remembered selection is drawn in the window: below its first line, which
    holds the name of the file, and above its end. *)
Definition drawn_below_top (w : win) (l : Z) : Prop := exists y, In (l, false, y) (wlog w) /\ wscroll w < y.
Definition in_window (sc : screen) (w : win) (l : Z) : Prop := exists y, In (l, false, y) (wlog w) /\ 0 < y - wscroll w < sh sc.

(** Counterparts that are both drawn are on the same line of the screen. *)
Definition level (dm : mat) (p : split) : Prop :=
  forall w0 w1 x y lx ly, pwins p = [w0; w1] -> getEquivalence dm x = Some y ->
    In (x, false, lx) (wlog w0) -> In (y, false, ly) (wlog w1) -> lx - wscroll w0 = ly - wscroll w1.

(** The window that is not active. *)
Definition inactive (p : split) : option win := nth_error (pwins p) (Z.to_nat (1 - pact p)).

(** Documents of which numbers stay within their types, and enough fuel. *)
Definition comparable (a b : node) (dm : mat) (len : elem -> Z) (f : nat) : Prop :=
  in_memory a /\ in_memory b /\
  all_containers (fun k => Z.of_nat k < 2 ^ 31) a /\ all_containers (fun k => Z.of_nat k < 2 ^ 31) b /\
  NoDup (ids a ++ ids b) /\ build a b = inl dm /\
  (forall e, 0 <= len e) /\ most_lines len a b < 2 ^ 32 /\ 4 * (most_lines len a b + 2) < Z.of_nat f.
Definition roomy_windows (sc : screen) : Prop := 5 <= sw sc < 2 ^ 32 /\ 2 <= sh sc < 2 ^ 32.

(** The comparison waits for a key: the last redraw was finished; selections are
    rows, those of the active window and of the other one counterparts. *)
Definition compares (a b : node) (dm : mat) (sc : screen) (p : split) : Prop :=
  (exists ws, redraw_all (split_memory a b) sc (pcoll p) dm ws = Done (true, pwins p)) /\
  (exists w0 w1, pwins p = [w0; w1] /\ at_rows a (pcoll p) w0 /\ at_rows b (pcoll p) w1) /\
  (forall w i, In w (pwins p) -> wsel w = Some i -> wlast w = Some i) /\
  two_windows p /\ active_on_row p /\ mirrored dm p /\ folds_agree dm p.

(** The active window [w] selects row [i], with rows [pre] above and [post] below. *)
Definition chosen (p : split) (w : win) (pre : list Z) (i : Z) (post : list Z) : Prop :=
  active p = Some w /\ wsel w = Some i /\ rows (pcoll p) (wroot w) = pre ++ i :: post.

(** Key [k] pressed in state [p] leads to [p'], where the next key is awaited. *)
Definition presses (rx : bytes -> bool -> bytes -> bool) (f : nat) (a b : node) (dm : mat) (sc : screen) (k : string) (p p' : split) : Prop :=
  (forall q, split_wait (split_memory a b) dm rx f sc p false [EvKey (str k) q] = Done (Waits sc p')) /\
  compares a b dm sc p' /\ map wres (pwins p') = map wres (pwins p).

(** Same active window and folds; the active window selects [s].  The other one
    selects the counterpart ([compares]) and without one remembers its last
    selection. *)
Definition selects (p p' : split) (s : Z) : Prop :=
  pact p' = pact p /\ pcoll p' = pcoll p /\
  (exists w', active p' = Some w' /\ wsel w' = Some s) /\
  exists v v', inactive p = Some v /\ inactive p' = Some v' /\ (wsel v' = None -> wlast v' = wlast v).

(** Same active window, same selections. *)
Definition same_selections (p p' : split) : Prop :=
  pact p' = pact p /\ map wsel (pwins p') = map wsel (pwins p) /\ map wlast (pwins p') = map wlast (pwins p).

(** Nothing of [post] is drawn in the window. *)
Definition undrawn (w : win) (post : list Z) : Prop := forall r y, In (r, false, y) (wlog w) -> ~ In r post.

(** The keys which move the selection, and the entries which are short enough. *)
From Verif Require Export Spec.ReachSpec Spec.SplitSpec.
Open Scope Z_scope.

(** A press of Up, Down, Right or PageDown. *)
Definition moving (e : event) : Prop :=
  exists k, e = EvKey (str k) None /\ In k ["KEY_UP"; "KEY_DOWN"; "KEY_RIGHT"; "KEY_NPAGE"]%string.
(** The rows end with those inside of the entry [i], of which [n] is the value and [c]
    the first row inside. *)
Definition ends_inside (coll : list Z) (root : node) (i : Z) (n : node) (c : Z) : Prop :=
  In (i, n) (shown (nid root) root) /\ i <> nid n /\ ~ In (nid n) coll /\ hd_error (members n) = Some c /\
  exists pre, rows coll root = pre ++ i :: inside coll n.
(** In such an entry the first row inside begins, when the entry begins on the first
    line, within the window. *)
Definition brief (sc : screen) (coll : list Z) (root : node) : Prop :=
  forall i n c h, ends_inside coll root i n c -> apart sc coll root i c h -> h <= sh sc - 2.

(** The comparison: the keys lead from [p] to [p'], in which the active window selects
    [r]; neither the active window nor what is folded changes. *)
Definition leads (rx : bytes -> bool -> bytes -> bool) (f : nat) (a b : node) (dm : mat) (sc : screen) (p : split) (keys : list event) (p' : split) (r : Z) : Prop :=
  Forall moving keys /\ split_wait (split_memory a b) dm rx f sc p false keys = Done (Waits sc p') /\ compares a b dm sc p' /\
  pact p' = pact p /\ pcoll p' = pcoll p /\ exists w', active p' = Some w' /\ wsel w' = Some r.
(** The keys lead to an entry at the end of which nothing inside is drawn and Down
    changes nothing. *)
Definition stuck_inside (rx : bytes -> bool -> bytes -> bool) (f : nat) (a b : node) (dm : mat) (sc : screen) (p : split) (root : node) : Prop :=
  exists i n c keys p' w' p'', ends_inside (pcoll p) root i n c /\ leads rx f a b dm sc p keys p' i /\ active p' = Some w' /\
    undrawn w' (inside (pcoll p) n) /\ presses rx f a b dm sc "KEY_DOWN" p' p'' /\ selects p' p'' i.

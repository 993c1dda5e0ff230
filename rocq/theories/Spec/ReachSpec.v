(** How far the rows of a document are from each other on the page. *)
From Verif Require Export Spec.PageSpec Spec.ViewerSpec.
Open Scope Z_scope.

(** [n] lines from the beginning of row [i] to that of row [d] further below. *)
Definition apart (sc : screen) (coll : list Z) (root : node) (i d n : Z) : Prop :=
  exists a s b s' c, page (slen sc) coll (nid root) 0 root = a ++ s :: b ++ s' :: c /\
    holder s = i /\ ~ In i (map holder a) /\ holder s' = d /\ ~ In d (map holder (a ++ s :: b)) /\
    n = total_lines (sw sc) (s :: b).
(** Every row begins, when the one above it is on the first line, within the window. *)
Definition near (sc : screen) (coll : list Z) (root : node) : Prop :=
  forall pre i d post n, rows coll root = pre ++ i :: d :: post -> apart sc coll root i d n -> n <= sh sc - 2.

(** The Up or the Down key a number of times. *)
Definition ups (k : nat) : list event := repeat (EvKey (str "KEY_UP") None) k.
Definition downs (k : nat) : list event := repeat (EvKey (str "KEY_DOWN") None) k.

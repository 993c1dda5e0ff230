(** Windows, events and outcomes the properties of the viewer speak about. *)
From Verif Require Export Model.SimpleView Spec.ViewSpec.
Open Scope Z_scope.

(** Windows and documents for which the sizes computed by the code stay within
    its types: at least 3 columns, texts below a gigabyte, and nesting that no
    stack could have held when the (recursive) reader built the document. *)
Definition roomy (root : node) (sc : screen) : Prop :=
  3 <= sw sc < 2 ^ 32 /\ (forall e, 0 <= slen sc e < 2 ^ 30) /\ Z.of_nat (nesting root) < 2 ^ 27.
Definition wide (evs : list event) : Prop := forall w hh, In (EvSize w hh) evs -> 3 <= w < 2 ^ 32.

(** No key starts or continues a search. *)
Definition unsearched (evs : list event) : Prop := forall k p, In (EvKey k p) evs -> k <> str "/" /\ k <> str "N".
Definition no_key (evs : list event) : Prop := forall k p, ~ In (EvKey k p) evs.

(** The selection is a row on display. *)
Definition on_row (root : node) (v : view) : Prop := exists i, vsel v = Some i /\ In i (rows (vcoll v) root).
Definition stays_on_row (root : node) (f : final) : Prop :=
  match f with Waiting _ v _ | Ended _ v _ => on_row root v | Undefined => False end.

(** Equal as far as the document [root] is concerned: everything but what the
    collapsed set says about addresses outside of it. *)
Definition agree (root : node) (c c' : list Z) : Prop := forall j, In j (ids root) -> (In j c <-> In j c').
Definition same_view (root : node) (v w : view) : Prop :=
  vsel v = vsel w /\ vscroll v = vscroll w /\ vres v = vres w /\ agree root (vcoll v) (vcoll w) /\
  vup v = vup w /\ vdown v = vdown w /\ vlast v = vlast w /\ vlines v = vlines w.
Definition same_final (root : node) (a b : final) : Prop :=
  match a, b with
  | Waiting sc v s, Waiting sc' w s' => sc = sc' /\ s = s' /\ same_view root v w
  | Ended sc v r, Ended sc' w r' => sc = sc' /\ r = r' /\ same_view root v w
  | Undefined, Undefined => True
  | _, _ => False
  end.

(** The rows directly below a container; row [i] is the one after [before] in the
    container shown by row [r]. *)
Definition members (n : node) : list Z :=
  match n with NPrim _ _ => [] | NArr _ l => map nid l | NObj _ l => map (fun x => mid (fst (fst x))) l end.
Definition held_by (root : node) (r : Z) (before : list Z) (i : Z) : Prop :=
  exists c after, In (r, c) (shown (nid root) root) /\ members c = before ++ i :: after.

(** The viewer when it waits for a key: everything is drawn, row [i] is selected,
    between [pre] and [post] on display. *)
Definition at_rest (root : node) (sc : screen) (v : view) : Prop :=
  exists v0, redraw root sc v0 = Some (true, v) /\ on_row root v0 /\ 0 <= vscroll v0 /\ incl (vres v0) (map fst (items (nid root) root)).
Definition stands (root : node) (v : view) (pre : list Z) (i : Z) (post : list Z) : Prop :=
  vsel v = Some i /\ rows (vcoll v) root = pre ++ i :: post.
(** Key [k] brings it from [v] to [v']. *)
Definition pressing (rx : bytes -> bool -> bytes -> bool) (root : node) (sc : screen) (k : string) (v v' : view) : Prop :=
  (forall p, wait rx root sc v false [EvKey (str k) p] = Waiting sc v' false) /\ at_rest root sc v' /\ vres v' = vres v.

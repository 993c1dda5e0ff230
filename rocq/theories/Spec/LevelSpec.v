(** Documents of the same shape, side by side. *)
From Verif Require Export Spec.SplitSpec.
Open Scope Z_scope.

(** The brackets of a document, without names and scalars. *)
Inductive shape : Type := Leaf | Arr (l : list shape) | Obj (l : list shape).
Fixpoint shape_of (n : node) : shape :=
  match n with
  | NPrim _ _ => Leaf
  | NArr _ l => Arr (map shape_of l)
  | NObj _ l => Obj (map (fun x => shape_of (snd x)) l)
  end.

(** Every element is the counterpart of the one at its place. *)
Definition paired (dm : mat) (a b : node) : Prop :=
  forall x y, In (x, y) (combine (ids a) (ids b)) -> getEquivalence dm x = Some y /\ getEquivalence dm y = Some x.

(** No row of the document needs a second line in a window of this width. *)
Definition unwrapped (len : elem -> Z) (width : Z) (r : node) : Prop :=
  forall e, In e (elems r) -> len e + len (ENode (value_of e)) + 4 * Z.of_nat (nesting r) + 16 <= width.
(** At every size the terminal gets, one half for each document. *)
Definition wide_enough (len : elem -> Z) (a b : node) (w hh : Z) (evs : list event) : Prop :=
  forall w' hh', In (EvSize w' hh') (EvSize w hh :: evs) -> unwrapped len (w' / 2) a /\ unwrapped len (w' / 2) b.
(** Both windows scrolled alike, an element on a line of one exactly when its
    counterpart is on that line of the other. *)
Definition in_step (dm : mat) (p : split) : Prop :=
  exists w0 w1, pwins p = [w0; w1] /\ wscroll w0 = wscroll w1 /\
    forall x y closing l, getEquivalence dm x = Some y -> (In (x, closing, l) (wlog w0) -> In (y, closing, l) (wlog w1)) /\ (In (y, closing, l) (wlog w1) -> In (x, closing, l) (wlog w0)).

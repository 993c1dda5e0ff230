(** include/fifoMap.hpp: a deque of pairs. *)
From Coq Require Export List Bool Arith Lia.
Export ListNotations.

Section Map.
  Context {K V : Type}.
  (** operator== of the keys. *)
  Variable eqk : K -> K -> bool.
  (** [V()] (fifoMap.hpp:30). *)
  Variable dflt : V.

  Definition fmap : Type := list (K * V).

  (** fifoMap.hpp:16-22. *)
  Fixpoint contains (m : fmap) (k : K) : bool :=
    match m with
    | [] => false
    | (k', _) :: t => if eqk k' k then true else contains t k
    end.

  (** fifoMap.hpp:25-33 (operator[]): the map afterwards and the position of the
      value the returned reference designates. *)
  Fixpoint index (m : fmap) (k : K) : fmap * nat :=
    match m with
    | [] => ([(k, dflt)], O)
    | (k', v) :: t =>
        if eqk k' k then (m, O)
        else let '(t', i) := index t k in ((k', v) :: t', S i)
    end.

  (** Value of the reference [m[k]]. *)
  Definition get (m : fmap) (k : K) : V :=
    let '(m', i) := index m k in nth i (map snd m') dflt.

  (** Writing through a reference: replaces the value at a position. *)
  Fixpoint assign (m : fmap) (i : nat) (v : V) : fmap :=
    match m, i with
    | [], _ => []
    | (k, _) :: t, O => (k, v) :: t
    | p :: t, S i' => p :: assign t i' v
    end.

  (** [m[k] = v]. *)
  Definition set (m : fmap) (k : K) (v : V) : fmap :=
    let '(m', i) := index m k in assign m' i v.
End Map.

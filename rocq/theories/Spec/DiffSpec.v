(** What a comparison of two documents should say. *)
From Verif Require Export Model.Json Spec.TreeSpec.
Open Scope Z_scope.

(** Every element in document order: identity, depth, identity of its parent.
    Entries of objects are elements. *)
Fixpoint outline (d : nat) (par : option Z) (n : node) : list (Z * (nat * option Z)) :=
  match n with
  | NPrim m _ => [(mid m, (d, par))]
  | NArr m l => (mid m, (d, par)) :: flat_map (outline (S d) (Some (mid m))) l
  | NObj m l => (mid m, (d, par)) ::
      flat_map (fun x => (mid (fst (fst x)), (S d, Some (mid m))) :: outline (S (S d)) (Some (mid (fst (fst x)))) (snd x)) l
  end.

(** [l] without some of its elements. *)
Inductive sublist {A} : list A -> list A -> Prop :=
| SL_nil : sublist [] []
| SL_skip x l l' : sublist l l' -> sublist l (x :: l')
| SL_keep x l l' : sublist l l' -> sublist (x :: l) (x :: l').

(** [P] holds of the number of children of every array and object. *)
Inductive all_containers (P : nat -> Prop) : node -> Prop :=
| AC_prim m p : all_containers P (NPrim m p)
| AC_arr m l : P (length l) -> Forall (all_containers P) l -> all_containers P (NArr m l)
| AC_obj m l : P (length l) -> Forall (fun x => all_containers P (snd x)) l -> all_containers P (NObj m l).

(** Number of children; [None] for a scalar. *)
Definition size_of (n : node) : option nat :=
  match n with NPrim _ _ => None | NArr _ l => Some (length l) | NObj _ l => Some (length l) end.

(** The values directly below. *)
Definition below (n : node) : list node :=
  match n with NPrim _ _ => [] | NArr _ l => l | NObj _ l => map snd l end.

(** An empty array or object somewhere. *)
Inductive has_empty : node -> Prop :=
| HE_here n : size_of n = Some O -> has_empty n
| HE_arr m l x : In x l -> has_empty x -> has_empty (NArr m l)
| HE_obj m l e k x : In (e, k, x) l -> has_empty x -> has_empty (NObj m l).

(** Comparing [a] with [b] compares two empty containers. *)
Inductive meets_empty : node -> node -> Prop :=
| ME_here a b : size_of a = Some O -> size_of b = Some O -> meets_empty a b
| ME_arr ma la mb lb x y : In x la -> In y lb -> meets_empty x y -> meets_empty (NArr ma la) (NArr mb lb)
| ME_obj ma la mb lb ex ey k x y : In (ex, k, x) la -> In (ey, k, y) lb -> meets_empty x y ->
    meets_empty (NObj ma la) (NObj mb lb).

(** The scalars of a document with their identities. *)
Fixpoint scalars (n : node) : list (Z * prim) :=
  match n with
  | NPrim m p => [(mid m, p)]
  | NArr _ l => flat_map scalars l
  | NObj _ l => flat_map (fun x => scalars (snd x)) l
  end.

(** Identities of pairs of outline records. *)
Definition pair_ids (P : list ((Z * (nat * option Z)) * (Z * (nat * option Z)))) : list (Z * Z) :=
  map (fun p => (fst (fst p), fst (snd p))) P.

(** [E] pairs elements of [a] with elements of [b], both in document order, at
    equal depths, below paired parents. *)
Definition pairing (E : Z -> Z -> Prop) (a b : node) : Prop := exists P,
  sublist (map fst P) (outline 1 None a) /\ sublist (map snd P) (outline 1 None b) /\
  (forall x y, E x y <-> In (x, y) (pair_ids P) \/ In (y, x) (pair_ids P)) /\
  Forall (fun p => fst (snd (fst p)) = fst (snd (snd p)) /\
    match snd (snd (fst p)), snd (snd (snd p)) with
    | None, None => True | Some pu, Some pv => In (pu, pv) (pair_ids P) | _, _ => False end) P.

(** Specifications about document trees and element identities. *)
From Verif Require Export Model.Json.
From Coq Require Export Sorting.Sorted Sorting.Permutation.
Open Scope Z_scope.

(** [P] holds of the key list of every object of the tree, at any depth. *)
Inductive all_objects (P : list bytes -> Prop) : tree -> Prop :=
| AO_prim p : all_objects P (TPrim p)
| AO_arr l : Forall (all_objects P) l -> all_objects P (TArr l)
| AO_obj l : P (map fst l) -> Forall (fun kv => all_objects P (snd kv)) l -> all_objects P (TObj l).

(** Byte order: [a] is a strict prefix of [b], or at the first difference its
    byte is smaller. *)
Definition byte_lt (a b : bytes) : Prop :=
  (exists x c, b = a ++ x :: c) \/
  (exists p x y a' b', a = p ++ x :: a' /\ b = p ++ y :: b' /\ uchar x < uchar y).

(** Every element's parent field is the identity of the element that contains
    it; [par] is what the root's should be. *)
Inductive linked : option Z -> node -> Prop :=
| L_prim par m p : mpar m = par -> linked par (NPrim m p)
| L_arr par m l : mpar m = par -> Forall (linked (Some (mid m))) l -> linked par (NArr m l)
| L_obj par m l : mpar m = par ->
    Forall (fun x => mpar (fst (fst x)) = Some (mid m) /\ linked (Some (mid (fst (fst x)))) (snd x)) l ->
    linked par (NObj m l).

(** Every element of the tree (entries included) with its depth, the root
    being at depth [d]. *)
Fixpoint elements (d : nat) (n : node) : list (meta * nat) :=
  match n with
  | NPrim m _ => [(m, d)]
  | NArr m l => (m, d) :: flat_map (elements (S d)) l
  | NObj m l => (m, d) :: flat_map (fun x => (fst (fst x), S d) :: elements (S (S d)) (snd x)) l
  end.

(** Identities of all elements. *)
Definition ids (n : node) : list Z := map (fun x => mid (fst x)) (elements 1 n).

(** Same tree up to the order of the entries of objects, at any depth. *)
Inductive reordered : tree -> tree -> Prop :=
| RO_prim p : reordered (TPrim p) (TPrim p)
| RO_arr l l' : Forall2 reordered l l' -> reordered (TArr l) (TArr l')
| RO_obj l l1 l' : Permutation l1 l' -> 
    Forall2 (fun a b => fst a = fst b /\ reordered (snd a) (snd b)) l l1 -> reordered (TObj l) (TObj l').

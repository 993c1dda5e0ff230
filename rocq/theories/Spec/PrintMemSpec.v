(** What printing may do with the strings it makes. *)
From Verif Require Export Model.PrintMem.
Open Scope Z_scope.

(** Only what is there is read; what is destroyed is destroyed once. *)
Definition sound (m : pmem) : Prop := faults m = [].
(** Everything made is destroyed. *)
Definition all_destroyed (m : pmem) : Prop := live m = [].

(** Arrays and objects of a document, itself among them. *)
Fixpoint containers (t : tree) : nat :=
  match t with
  | TPrim _ => 0
  | TArr l => S (list_sum (map containers l))
  | TObj l => S (list_sum (map (fun e => containers (snd e)) l))
  end.

(** Destroyed strings still hold what they held. *)
Definition lasting (ghost : nat -> bytes -> nat -> ascii) : Prop := forall i s k, ghost i s k = nth k s NUL.

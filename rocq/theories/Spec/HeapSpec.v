(** What the memory of a comparison should be. *)
From Verif Require Export Spec.DiffSpec.
From Verif Require Export Model.DiffMem.
Open Scope Z_scope.

(** The numbers from [nxt] on are free. *)
Definition wf (h : heap) : Prop := forall q, nxt h <= q -> blk h q = None.
(** The empty memory. *)
Definition empty_heap : heap := mkHeap 0 (fun _ => None).

(** The matrix [o] in memory tells what [m] tells. *)
Definition tells (o : obj) (m : mat) : Prop :=
  path o = mops m /\ equivalences o = meqv m /\ result o = Some (mresult m) /\ areSimilar o = Some (msimilar m).

(** Size of a document: one for each value, and one for each byte of its scalars. *)
Fixpoint weight (n : node) : Z :=
  match n with
  | NPrim _ p => 1 + Z.of_nat (length (prim_string p))
  | NArr _ l => 1 + fold_right Z.add 0 (map weight l)
  | NObj _ l => 1 + fold_right Z.add 0 (map (fun x => weight (snd x)) l)
  end.

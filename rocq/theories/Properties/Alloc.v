(** C87: the memory of a comparison; C88: how much of it is taken. *)
From Coq Require Import Lia.
From Verif Require Import Properties.Diff Proofs.DiffSelf Proofs.DiffMemBuild Proofs.DiffMemCost.
From Verif Require Import Spec.HeapSpec.
From Verif Require Import Model.Heap Model.DiffMem.
Open Scope Z_scope.

(** C87.  Whatever two documents are compared and whatever lives in memory: no element
    outside of an array is touched, nothing is read before it is set, nothing is used or
    deleted after its deletion, and of all that was made one matrix is left, which tells
    what Model/Diff.v computes; the only other end is the crash of C25. *)
Theorem C87_safe : forall a b h, wf h -> all_containers (fun k => Z.of_nat k < 2 ^ 31) b ->
  match build_mem a b h with
  | Done p h' => wf h' /\ blk h p = None /\ (exists o m, blk h' p = Some (BObj o) /\ build a b = inl m /\ tells o m) /\
                 forall q, q <> p -> blk h' q = blk h q
  | Died c => build a b = inr c
  | Faulty _ => False
  end.
Proof. exact build_memory. Qed.
Print Assumptions C87_safe.

(** The distance of two texts leaves nothing behind. *)
Theorem C87_text : forall a b h, wf h ->
  exists h', levenshtein_mem a b h = Done (levenshtein a b) h' /\ wf h' /\ forall q, blk h' q = blk h q.
Proof. exact levenshtein_memory. Qed.
Print Assumptions C87_text.

(** A viewer of two documents, whatever it compared one after the other, gives back all. *)
Theorem C87_freed : forall runs h, wf h ->
  (forall a b, In (a, b) runs -> all_containers (fun k => Z.of_nat k < 2 ^ 31) a /\ all_containers (fun k => Z.of_nat k < 2 ^ 31) b /\ ~ meets_empty a b) ->
  exists h', splitOutput_life runs h = Done tt h' /\ forall q, blk h' q = blk h q.
Proof. exact life_memory. Qed.
Print Assumptions C87_freed.

(** Blocks 100 and 101 live beforehand; more are made, up to 300, and one of them is left. *)
Example C87_example :
  let h := mkHeap 102 (fun q => if q =? 100 then Some (BInts [Some 1]) else if q =? 101 then Some (BPtrs [None]) else None) in
  let live h := filter (fun q => match blk h q with Some _ => true | None => false end) (map Z.of_nat (seq 0 310)) in
  wf h /\ all_containers (fun k => Z.of_nat k < 2 ^ 31) doc26b /\ live h = [100; 101] /\
  exists h', build_mem doc26a doc26b h = Done 102 h' /\ live h' = [100; 101; 102] /\ nxt h' = 301.
Proof.
  cbn zeta. split; [|split; [repeat constructor|split; [reflexivity|]]].
  - intros q H. cbn in *. destruct (Z.eqb_spec q 100); [lia|]. destruct (Z.eqb_spec q 101); [lia|reflexivity].
  - eexists. split; [vm_compute; reflexivity|]. split; vm_compute; reflexivity.
Qed.
Example C87_freed_example : wf empty_heap /\ ~ meets_empty doc26a doc26b /\
  exists h', splitOutput_life [(doc26a, doc26b); (doc26b, doc26a)] empty_heap = Done tt h' /\ map (blk h') (map Z.of_nat (seq 0 400)) = repeat None 400.
Proof.
  split; [intros q _; reflexivity|]. split.
  - assert (H := DiffSelf.no_crash doc26a doc26b ltac:(repeat constructor) ltac:(repeat constructor)). apply H. eexists. vm_compute. reflexivity.
  - eexists. split; vm_compute; reflexivity.
Qed.

(** C88.  The blocks a comparison makes and their elements, together, are at most eight
    times as many as the product of the sizes of the two documents. *)
Theorem C88_quadratic : forall a b h p h', build_mem a b h = Done p h' -> nxt h' - nxt h <= 8 * weight a * weight b.
Proof. intros a b h p h' H. apply build_makes in H. destruct H as [H _]. lia. Qed.
Print Assumptions C88_quadratic.

(** Nested arrays of two numbers: 107, where the bound is 800. *)
Example C88_example : let a := NArr (mkMeta 1 None) [num 2 7; NArr (mkMeta 3 (Some 1)) [num 4 33; num 5 44]] in
  let b := NArr (mkMeta 11 None) [num 12 7; NArr (mkMeta 13 (Some 11)) [num 14 35; num 15 44]] in
  exists p h', build_mem a b empty_heap = Done p h' /\ nxt h' = 107 /\ 8 * weight a * weight b = 800.
Proof. cbn zeta. eexists _, _. split; [vm_compute; reflexivity|]. split; vm_compute; reflexivity. Qed.

(** C16, C17: the ring buffer of include/wrappedBuffer.hpp. *)
From Verif Require Import Model.WrappedBuffer Spec.Window Spec.RingOps Proofs.RingProofs.
Open Scope Z_scope.

(** C17: after every history of put / put batch / pop_back / reset, no array
    access was out of bounds, size() is within capacity, toString() returns
    size() items and reads only inside the array. *)
Theorem C17_ring_capacity : forall (A : Type) (SIZE : nat) (ops : list (bufop A)),
  (0 < SIZE)%nat ->
  exists r, ring_run SIZE ops = Some r /\
    0 <= ring_size (Z.of_nat SIZE) r <= Z.of_nat SIZE /\
    Z.of_nat (length (ring_toString (Z.of_nat SIZE) r)) = ring_size (Z.of_nat SIZE) r /\
    Forall (fun c => c <> None) (ring_toString (Z.of_nat SIZE) r).
Proof. exact (fun A => @ring_capacity A). Qed.
Print Assumptions C17_ring_capacity.

Definition abc : list (bufop ascii) :=
  [OpPut "a"; OpPut "b"; OpPutMany ["c"; "d"; "e"; "f"; "g"]; OpPop; OpPop; OpPut "h"; OpReset;
   OpPut "i"; OpPut "j"]%char.
Example C17_example : exists r, ring_run 3 abc = Some r /\ ring_size 3 r = 2 /\
  ring_toString 3 r = [Some (Some "i"); Some (Some "j")]%char.
Proof. vm_compute. eexists; repeat split. Qed.

(** C16, full statement:
    [forall A SIZE ops, 0 < SIZE -> exists r, ring_run SIZE ops = Some r /\
       ring_toString SIZE r = map (fun x => Some (Some x)) (window_run SIZE ops)].
    It is false of the code; two witnesses: a put after two pops brings a
    popped item back, and a batch larger than the buffer leaves stale items. *)
Theorem C16_ring_window_refuted :
  exists (SIZE : nat) (ops : list (bufop ascii)) r,
    (0 < SIZE)%nat /\ ring_run SIZE ops = Some r /\
    ring_toString (Z.of_nat SIZE) r <> map (fun x => Some (Some x)) (window_run SIZE ops).
Proof.
  exists 3%nat, [OpPut "a"; OpPut "b"; OpPut "c"; OpPut "d"; OpPut "e"; OpPop; OpPop; OpPut "x"]%char.
  eexists. split; [repeat constructor|]. split; [vm_compute; reflexivity|]. vm_compute. discriminate.
Qed.
Print Assumptions C16_ring_window_refuted.

Theorem C16_ring_window_batch_refuted :
  exists (SIZE : nat) (ops : list (bufop ascii)) r,
    (0 < SIZE)%nat /\ ring_run SIZE ops = Some r /\
    ring_toString (Z.of_nat SIZE) r <> map (fun x => Some (Some x)) (window_run SIZE ops).
Proof.
  exists 3%nat, [OpPutMany ["a"; "b"; "c"; "d"]]%char.
  eexists. split; [repeat constructor|]. split; [vm_compute; reflexivity|]. vm_compute. discriminate.
Qed.
Print Assumptions C16_ring_window_batch_refuted.

(** C16, restricted to histories in which every pop_back directly follows a put
    (or reset) and no batch exceeds the buffer: exactly the window.  Missing:
    the other histories, on which the statement is false (above). *)
Theorem C16_ring_window_partial : forall (A : Type) (SIZE : nat) (ops : list (bufop A)),
  (0 < SIZE)%nat -> disciplined SIZE ops ->
  exists r, ring_run SIZE ops = Some r /\
    ring_toString (Z.of_nat SIZE) r = map (fun x => Some (Some x)) (window_run SIZE ops).
Proof. exact (fun A => @ring_window A). Qed.
Print Assumptions C16_ring_window_partial.

Definition disciplined_history : list (bufop ascii) :=
  [OpPut "a"; OpPut "b"; OpPut "c"; OpPut "d"; OpPop; OpPutMany ["e"; "f"]; OpPut "g"; OpPop; OpPut "h"]%char.
Example C16_example : disciplined 3 disciplined_history /\
  window_run 3 disciplined_history = ["e"; "f"; "h"]%char.
Proof. vm_compute. repeat split; repeat constructor. Qed.

(** Insertion-ordered map: C57. *)

From Verif Require Import Model.FifoMap Spec.MapSpec Proofs.MapProofs.

(** C57: after any history of reads and writes, iteration gives each key once,
    in the order of first use ... *)
Theorem C57_order : forall {K V} (eqk : K -> K -> bool) (dflt : V), (forall a b, eqk a b = true <-> a = b) ->
  forall h, key_order h (map fst (run_ops eqk dflt h)) /\ NoDup (map fst (run_ops eqk dflt h)).
Proof. intros K V eqk dflt H. exact (run_order eqk dflt H). Qed.
Print Assumptions C57_order.

(** ... contains() tells whether a key was used ... *)
Theorem C57_contains : forall {K V} (eqk : K -> K -> bool) (dflt : V), (forall a b, eqk a b = true <-> a = b) ->
  forall h k, contains eqk (run_ops eqk dflt h) k = true <-> exists o, In o h /\ key o = k.
Proof. intros K V eqk dflt H. exact (run_contains eqk dflt H). Qed.
Print Assumptions C57_contains.

(** ... and operator[] gives the last value written, the default when there was
    none, without changing the map. *)
Theorem C57_value : forall {K V} (eqk : K -> K -> bool) (dflt : V), (forall a b, eqk a b = true <-> a = b) ->
  forall (h : list (op K V)) k, (exists o, In o h /\ key o = k) ->
  exists v, value dflt h k v /\ get eqk dflt (run_ops eqk dflt h) k = v /\
    fst (index eqk dflt (run_ops eqk dflt h) k) = run_ops eqk dflt h.
Proof.
  intros K V eqk dflt H h k I. destruct (value_total eqk dflt H h k I) as (v & Hv). exists v. split; [exact Hv|].
  exact (run_get eqk dflt H h k v Hv).
Qed.
Print Assumptions C57_value.

Example C57_example : let h := [Write 5 true; Read 3; Write 2 true; Write 5 false; Read 2] in
  run_ops Nat.eqb false h = [(5, false); (3, false); (2, true)] /\
  key_order h [5; 3; 2] /\ value false h 5 false /\ value false h 2 true /\ value false h 3 false.
Proof.
  cbv zeta. split; [reflexivity|].
  pose proof (C57_order Nat.eqb false PeanoNat.Nat.eqb_eq [Write 5 true; Read 3; Write 2 true; Write 5 false; Read 2]) as [O _].
  split; [exact O|].
  split; [|split].
  - apply (V_kept false [Write 5 true; Read 3; Write 2 true; Write 5 false] 5 (Read 2)); [|left; discriminate].
    apply (V_write false [Write 5 true; Read 3; Write 2 true]).
  - apply (V_kept false [Write 5 true; Read 3; Write 2 true; Write 5 false] 2 (Read 2)); [|right; reflexivity].
    apply (V_kept false [Write 5 true; Read 3; Write 2 true] 2 (Write 5 false)); [|left; discriminate].
    apply (V_write false [Write 5 true; Read 3]).
  - apply (V_kept false [Write 5 true; Read 3; Write 2 true; Write 5 false] 3 (Read 2)); [|left; discriminate].
    apply (V_kept false [Write 5 true; Read 3; Write 2 true] 3 (Write 5 false)); [|left; discriminate].
    apply (V_kept false [Write 5 true; Read 3] 3 (Write 2 true)); [|left; discriminate].
    apply (V_first false [Write 5 true]). intros o [<-|[]]. discriminate.
Qed.

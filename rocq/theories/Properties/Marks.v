(** Where the marks of the comparison come from: C62, C82. *)
From Verif Require Import Spec.DiffSpec Spec.SplitSpec.
From Verif Require Proofs.SplitMarks Proofs.SplitCause Proofs.DiffSelf Proofs.DocumentProofs.
From Verif Require Import Properties.Split Properties.Compare.
From Coq Require Import Lia.
Open Scope Z_scope.

(** C62: nothing else is marked, in a window that is not scrolled: a mark other than
    '-' is that of something drawn on its line. *)
Theorem C62_sound_partial : forall h sc coll dm ws b vs,
  redraw_all h sc coll dm ws = Done (b, vs) ->
  Forall2 (fun w v => wscroll w = 0 -> forall y o, In (y, o) (wmarks v) -> o <> OEqu /\ (o = ORem \/ exists i c, In (i, c, y) (wlog v) /\ shown_op dm i = o)) ws vs.
Proof. exact SplitMarks.redraw_sound. Qed.
Print Assumptions C62_sound_partial.

(** C62, any window after any sequence of events: every mark is that of an element of
    the documents drawn in the window, or stands for something without counterpart. *)
Theorem C62_cause : forall rx f len w hh a b m evs e, build a b = inl m -> split_run rx f len w hh a b evs = Done e ->
  Forall (fun v => forall q, In q (wmarks v) -> snd q <> OEqu /\
    ((exists i c y, In i (ids a ++ ids b) /\ In (i, c, y) (wlog v) /\ shown_op m i = snd q) \/
     snd q = ORem /\ exists u, In u (ids a ++ ids b) /\ getEquivalence m u = None)) (pwins (end_split e)).
Proof. exact SplitCause.run_cause. Qed.
Print Assumptions C62_cause.

(** ["a","b","c","d","e","f",1] and [1]: the marks of a scrolled window and those of the
    window beside it, which is not scrolled. *)
Example C62_cause_example : exists m e, build (seven 1) (one 21) = inl m /\ after (seven 1) (one 21) 40 8 [key "^W-W"; key "J"] = Done e /\
  map wscroll (pwins (end_split e)) = [3; 0] /\
  map wmarks (pwins (end_split e)) = [[(7, OAdd); (6, OAdd); (5, OAdd); (4, OAdd)]; [(7, ORem); (6, ORem); (5, ORem); (4, ORem); (3, ORem); (2, ORem)]] /\ shown_op m 3 = OAdd /\ getEquivalence m 3 = None.
Proof. eexists _, _. split; [vm_compute; reflexivity|]. split; [vm_compute; reflexivity|]. vm_compute. repeat split. Qed.

(** C82, full statement: the same for every document; false of documents that hold an
    empty array or object, which end the program (C82_refuted). *)
Theorem C82_partial : forall rx f len w hh a b evs e, erase a = erase b -> NoDup (ids a ++ ids b) -> all_containers (fun k => Z.of_nat k < 2 ^ 31) a -> ~ has_empty a ->
  split_run rx f len w hh a b evs = Done e -> Forall (fun v => wmarks v = []) (pwins (end_split e)).
Proof. exact SplitCause.copies_unmarked. Qed.
Print Assumptions C82_partial.

Theorem C82_refuted : (forall rx f len w hh a b evs, erase a = erase b -> all_containers (fun k => Z.of_nat k < 2 ^ 31) a -> has_empty a ->
    split_run rx f len w hh a b evs = Bad Undef) /\
  exists a b, erase a = erase b /\ NoDup (ids a ++ ids b) /\ all_containers (fun k => Z.of_nat k < 2 ^ 31) a /\ has_empty a.
Proof.
  split.
  - intros rx f len w hh a b evs E F H. unfold split_run. rewrite (DiffSelf.self_crash a b E F H). reflexivity.
  - exists (document 1 (TArr [TArr []])), (document 21 (TArr [TArr []])). split; [reflexivity|]. split; [vm_compute; repeat constructor; cbn; intuition congruence|]. split; [repeat constructor|].
    eapply HE_arr; [left; reflexivity|apply HE_here; reflexivity].
Qed.
Print Assumptions C82_refuted.

(** A search, folds and the other window. *)
Example C82_example : erase (pair_doc 1) = erase (pair_doc 21) /\ NoDup (ids (pair_doc 1) ++ ids (pair_doc 21)) /\ all_containers (fun k => Z.of_nat k < 2 ^ 31) (pair_doc 1) /\ ~ has_empty (pair_doc 1) /\
  exists e, split_run no_regex fuel three 80 7 (pair_doc 1) (pair_doc 21) [key "J"; key "J"; key "H"; key "H"; look "q"; key "^W-W"; key "N"; key "J"] = Done e /\
    map wmarks (pwins (end_split e)) = [[]; []].
Proof.
  split; [reflexivity|]. split; [apply pair_comparable|]. split; [apply pair_sizes|]. split.
  { intros H. vm_compute in H. inversion H as [? Q|? ? ? ? Q|? ? ? ? x I Q]; subst; [discriminate Q|].
    destruct I as [[= _ _ <-]|[[= _ _ <-]|[]]].
    - inversion Q as [? R|? ? x I R|? ? ? ? x ? R]; subst; [discriminate R|].
      destruct I as [<-|[<-|[]]]; inversion R as [? R'|? ? ? ? R'|? ? ? ? ? ? R']; discriminate R'.
    - inversion Q as [? R|? ? ? ? R|? ? ? ? ? ? R]; discriminate R. }
  eexists. split; vm_compute; reflexivity.
Qed.

(** Counterparts on the same line: C61. *)
From Verif Require Import Spec.LevelSpec Spec.DiffSpec.
From Verif Require Proofs.SplitSteady Proofs.DocumentProofs.
From Verif Require Import Properties.Split Properties.Compare.
From Coq Require Import Lia.
Open Scope Z_scope.

(** C61, full statement: [level] after every sequence of events, of any two
    documents; false (Split.C61_refuted).  Proved for documents of the same shape of
    which each element is paired with the one at its place, on windows where no row
    takes a second line, without searches; then also both windows show the same rows. *)
Theorem C61_partial : forall rx f a b m len w hh evs e, comparable a b m len f -> shape_of a = shape_of b -> paired m a b ->
  room w hh -> rooms evs -> unsearched evs -> wide_enough len a b w hh evs ->
  split_run rx f len w hh a b evs = Done e -> level m (end_split e) /\ in_step m (end_split e).
Proof.
  intros rx f a b m len w hh evs e OK SH P RW R U W E.
  split; [exact (SplitSteady.run_level rx f a b m len OK SH P w hh evs e RW R U W E)|exact (SplitSteady.run_in_step rx f a b m len OK SH P w hh evs e RW R U W E)].
Qed.
Print Assumptions C61_partial.

(** A document without empty arrays and objects, compared with a copy. *)
Theorem C61_copies_partial : forall rx f a b m len w hh evs e, comparable a b m len f -> erase a = erase b -> ~ has_empty a ->
  room w hh -> rooms evs -> unsearched evs -> wide_enough len a b w hh evs ->
  split_run rx f len w hh a b evs = Done e -> level m (end_split e) /\ in_step m (end_split e).
Proof. intros rx f a b m len w hh evs e. exact (SplitSteady.copies_in_step rx f a b len m w hh evs e). Qed.
Print Assumptions C61_copies_partial.

(** {"a": [1, "hello"], "b": 2} and the same with "hallo", on a terminal of 80 columns
    and 7 lines, which gets one line less.  Row 5 is reached by scrolling: two lines
    are above the windows. *)
Definition hello (i : Z) (s : string) : node := document i (TObj [(str "a", TArr [num 1; txt s]); (str "b", num 2)]).
Definition hello_mat : mat := match build (hello 1 "hello") (hello 21 "hallo") with inl m => m | inr _ => mkMat [] [] 0 true end.
Definition hello_keys : list event := [key "J"; key "J"; EvSize 80 6; key "^W-W"; key "KEY_NPAGE"].
Example C61_partial_example : exists e,
  comparable (hello 1 "hello") (hello 21 "hallo") hello_mat three fuel /\ shape_of (hello 1 "hello") = shape_of (hello 21 "hallo") /\ paired hello_mat (hello 1 "hello") (hello 21 "hallo") /\
  room 80 7 /\ rooms hello_keys /\ unsearched hello_keys /\ wide_enough three (hello 1 "hello") (hello 21 "hallo") 80 7 hello_keys /\
  split_run no_regex fuel three 80 7 (hello 1 "hello") (hello 21 "hallo") hello_keys = Done e /\
  seen (Done e) = Some (1, [], [Some 5; Some 25]) /\ map wscroll (pwins (end_split e)) = [2; 2] /\
  map wlog (pwins (end_split e)) = [[(5, false, 5); (4, false, 4); (3, false, 3); (2, false, 2); (1, false, 1)]; [(25, false, 5); (24, false, 4); (23, false, 3); (22, false, 2); (21, false, 1)]].
Proof.
  eexists. split.
  { split; [apply DocumentProofs.document_in_memory|]. split; [apply DocumentProofs.document_in_memory|].
    split; [repeat constructor|]. split; [repeat constructor|]. split; [vm_compute; repeat constructor; cbn; intuition congruence|]. split; [vm_compute; reflexivity|].
    split; [intros e; unfold three; lia|]. split; vm_compute; reflexivity. }
  split; [reflexivity|]. split; [intros x y I; vm_compute in I; repeat (destruct I as [[= <- <-]|I]; [split; vm_compute; reflexivity|]); destruct I|].
  split; [split; split; vm_compute; congruence|].
  split; [intros w hh I; cbn in I; repeat (destruct I as [I|I]; [try discriminate I; try (injection I as <- <-; split; split; vm_compute; congruence)|]); destruct I|].
  split; [intros k q I; cbn in I; repeat (destruct I as [I|I]; [try discriminate I; try (injection I as <- <-; split; discriminate)|]); destruct I|].
  split.
  { intros w hh I. cbn in I. repeat (destruct I as [I|I]; [try discriminate I; try (injection I as <- <-; split; intros e _; vm_compute; intros [=])|]). destruct I. }
  split; [vm_compute; reflexivity|]. split; [reflexivity|]. split; reflexivity.
Qed.

Example C61_copies_example : erase (pair_doc 1) = erase (pair_doc 21) /\ ~ has_empty (pair_doc 1) /\ comparable (pair_doc 1) (pair_doc 21) pair_mat three fuel /\
  wide_enough three (pair_doc 1) (pair_doc 21) 80 7 [key "J"; key "J"; key "J"; key "H"; key "H"; key "J"] /\
  exists e, split_run no_regex fuel three 80 7 (pair_doc 1) (pair_doc 21) [key "J"; key "J"; key "J"; key "H"; key "H"; key "J"] = Done e /\
    seen (Done e) = Some (0, [23; 3], [Some 6; Some 26]).
Proof.
  split; [reflexivity|]. split.
  { intros H. vm_compute in H. inversion H as [? Q|? ? ? ? Q|? ? ? ? x I Q]; subst; [discriminate Q|].
    destruct I as [[= _ _ <-]|[[= _ _ <-]|[]]].
    - inversion Q as [? R|? ? x I R|? ? ? ? x ? R]; subst; [discriminate R|].
      destruct I as [<-|[<-|[]]]; inversion R as [? R'|? ? ? ? R'|? ? ? ? ? ? R']; discriminate R'.
    - inversion Q as [? R|? ? ? ? R|? ? ? ? ? ? R]; discriminate R. }
  split; [exact pair_comparable|]. split.
  { intros w hh I. cbn in I. repeat (destruct I as [I|I]; [try discriminate I; try (injection I as <- <-; split; intros e _; vm_compute; intros [=])|]). destruct I. }
  eexists. split; vm_compute; reflexivity.
Qed.

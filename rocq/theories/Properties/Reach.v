(** Which rows the Up and Down keys lead to in the view of one document: C77. *)
From Verif Require Import Model.SimpleView Spec.ViewSpec Spec.ReachSpec.
From Verif Require Proofs.ReachProofs Proofs.DocumentProofs.
From Verif Require Import Properties.View Properties.Press.
From Coq Require Import Lia.
Open Scope Z_scope.

(** C77, full statement: [forall rx root sc v r, in_memory root -> roomy root sc ->
    2 <= sh sc < 2 ^ 32 -> at_rest root sc v -> In r (rows (vcoll v) root) -> exists
    keys k v', (keys = ups k \/ keys = downs k) /\ wait rx root sc v false keys =
    Waiting sc v' false /\ vcoll v' = vcoll v /\ vsel v' = Some r].  False when more
    lines are between two rows than the window has (C77_refuted); that is the only
    obstacle (C77_near, C77_far).  Proved if there is none. *)
Theorem C77_partial : forall rx root sc v r, in_memory root -> roomy root sc -> 2 <= sh sc < 2 ^ 32 -> at_rest root sc v ->
  near sc (vcoll v) root -> In r (rows (vcoll v) root) ->
  exists keys k v', (keys = ups k \/ keys = downs k) /\ wait rx root sc v false keys = Waiting sc v' false /\ vcoll v' = vcoll v /\ vsel v' = Some r.
Proof. intros rx root sc v r M R H. exact (ReachProofs.reach rx root sc M R H v r). Qed.
Print Assumptions C77_partial.

(** Up is never in the way. *)
Theorem C77_up : forall rx root sc v pre r between i post, in_memory root -> roomy root sc -> at_rest root sc v ->
  stands root v (pre ++ r :: between) i post ->
  exists v', wait rx root sc v false (ups (S (length between))) = Waiting sc v' false /\ at_rest root sc v' /\ vcoll v' = vcoll v /\ vsel v' = Some r.
Proof. intros rx root sc v pre r between i post M R. exact (ReachProofs.ups_reach rx root sc M R between v pre i post r). Qed.
Print Assumptions C77_up.

(** Down and the row below: they are some number of lines apart, which decides. *)
Theorem C77_apart : forall root sc coll pre i d post, in_memory root -> roomy root sc -> rows coll root = pre ++ i :: d :: post ->
  exists n, apart sc coll root i d n.
Proof. intros root sc coll pre i d post M R. exact (ReachProofs.rows_apart root M sc R coll pre i d post). Qed.
Print Assumptions C77_apart.

Theorem C77_near : forall rx root sc v pre i d post n, in_memory root -> roomy root sc -> 2 <= sh sc < 2 ^ 32 -> at_rest root sc v ->
  stands root v pre i (d :: post) -> apart sc (vcoll v) root i d n -> n <= sh sc - 2 ->
  exists k v', wait rx root sc v false (downs k) = Waiting sc v' false /\ at_rest root sc v' /\ vcoll v' = vcoll v /\ vsel v' = Some d.
Proof. intros rx root sc v pre i d post n M R H. exact (ReachProofs.downs_next rx root sc M R H v pre i d post n). Qed.
Print Assumptions C77_near.

Theorem C77_far : forall rx root sc v pre i d post n, in_memory root -> roomy root sc -> 2 <= sh sc < 2 ^ 32 -> at_rest root sc v ->
  stands root v pre i (d :: post) -> apart sc (vcoll v) root i d n -> sh sc - 2 < n ->
  forall k, exists v', wait rx root sc v false (downs k) = Waiting sc v' false /\ at_rest root sc v' /\ vcoll v' = vcoll v /\ vsel v' = Some i.
Proof. intros rx root sc v pre i d post n M R H A S AP L k. exact (ReachProofs.downs_stuck rx root sc M R H k v pre i d post n A S AP L). Qed.
Print Assumptions C77_far.

(** [nested]: the rows 9 and 10 are eight lines apart, the beginning of row 9 and seven
    closing brackets.  In a window of 10 lines four presses of Down scroll and the
    fifth leads to row 10. *)
Example C77_apart_example : forall hh, apart (win 80 hh) [] nested 9 10 8.
Proof.
  intros hh. unfold apart. eexists [_; _; _; _; _; _; _; _], _, [_; _; _; _; _; _; _], _, _. split; [vm_compute; reflexivity|].
  split; [reflexivity|]. split; [intros I; vm_compute in I; intuition discriminate|]. split; [reflexivity|]. split; [intros I; vm_compute in I; intuition discriminate|]. vm_compute. reflexivity.
Qed.
Example C77_near_example : exists v, run no_regex nested (win 80 10) view0 (downs 8) = Waiting (win 80 10) v false /\ stands nested v [1; 2; 3; 4; 5; 6; 7; 8] 9 [10] /\ vscroll v = 0 /\
  exists v3 v', wait no_regex nested (win 80 10) v false (downs 4) = Waiting (win 80 10) v3 false /\ vsel v3 = Some 9 /\ vscroll v3 = 8 /\
    wait no_regex nested (win 80 10) v false (downs 5) = Waiting (win 80 10) v' false /\ vsel v' = Some 10.
Proof.
  eexists. split; [vm_compute; reflexivity|]. split; [split; vm_compute; reflexivity|]. split; [reflexivity|].
  eexists _, _. split; [vm_compute; reflexivity|]. split; [reflexivity|]. split; [reflexivity|]. split; [vm_compute; reflexivity|reflexivity].
Qed.

(** {"a": [1, 2]} in 5 lines: all rows are near, two lines at most. *)
Definition list_doc : node := document 1 (TObj [(str "a", TArr [num 1; num 2])]).
Example C77_example : in_memory list_doc /\ roomy list_doc (win 80 5) /\ near (win 80 5) [] list_doc /\ rows [] list_doc = [1; 2; 4; 5] /\
  exists v, run no_regex list_doc (win 80 5) view0 [] = Waiting (win 80 5) v false /\ at_rest list_doc (win 80 5) v /\ vcoll v = [].
Proof.
  assert (MM := DocumentProofs.document_in_memory 1 (TObj [(str "a", TArr [num 1; num 2])])). split; [exact MM|].
  assert (R : roomy list_doc (win 80 5)) by (apply roomy_win; [cbn; lia|vm_compute; reflexivity]). split; [exact R|]. split; [|split; [vm_compute; reflexivity|]].
  - assert (A1 : apart (win 80 5) [] list_doc 1 2 1) by (eexists [], _, [], _, _; repeat split; try (vm_compute; reflexivity); intros I; vm_compute in I; intuition discriminate).
    assert (A2 : apart (win 80 5) [] list_doc 2 4 2) by (eexists [_], _, [_], _, _; repeat split; try (vm_compute; reflexivity); intros I; vm_compute in I; intuition discriminate).
    assert (A3 : apart (win 80 5) [] list_doc 4 5 1) by (eexists [_; _; _], _, [], _, _; repeat split; try (vm_compute; reflexivity); intros I; vm_compute in I; intuition discriminate).
    intros pre i d post n E AP. change (sh (win 80 5)) with 5. vm_compute in E.
    destruct pre as [|? [|? [|? [|? pre]]]]; cbn [app] in E; [| | |discriminate E|destruct pre; discriminate E].
    + injection E as <- <- _. rewrite (ReachProofs.apart_unique _ _ _ _ _ _ _ AP A1). lia.
    + injection E as _ <- <- _. rewrite (ReachProofs.apart_unique _ _ _ _ _ _ _ AP A2). lia.
    + injection E as _ _ <- <- _. rewrite (ReachProofs.apart_unique _ _ _ _ _ _ _ AP A3). lia.
  - eexists. split; [vm_compute; reflexivity|]. split; [|reflexivity].
    assert (Q := C65_rest no_regex list_doc (win 80 5) [] MM R ltac:(intros w hh []) ltac:(intros k p [])).
    match goal with |- at_rest _ _ ?v => replace (run no_regex list_doc (win 80 5) view0 []) with (Waiting (win 80 5) v false) in Q by (vm_compute; reflexivity) end. apply Q.
Qed.

(** In a window of 9 lines row 10 of [nested] is out of reach from row 9. *)
Theorem C77_refuted : exists root sc v r, in_memory root /\ roomy root sc /\ 2 <= sh sc < 2 ^ 32 /\ at_rest root sc v /\ In r (rows (vcoll v) root) /\
  ~ exists keys k v', (keys = ups k \/ keys = downs k) /\ wait no_regex root sc v false keys = Waiting sc v' false /\ vcoll v' = vcoll v /\ vsel v' = Some r.
Proof.
  assert (MM := DocumentProofs.document_in_memory 1 (TArr [TArr [TArr [TArr [TArr [TArr [TArr [TArr [num 1]]]]]]]; num 2])).
  assert (R : roomy nested (win 80 9)) by (apply roomy_win; [cbn; lia|vm_compute; reflexivity]).
  assert (Q := C65_rest no_regex nested (win 80 9) (downs 9) MM R).
  assert (E : exists v, run no_regex nested (win 80 9) view0 (downs 9) = Waiting (win 80 9) v false /\ vsel v = Some 9 /\ vcoll v = [])
    by (eexists; split; [vm_compute; reflexivity|split; reflexivity]).
  destruct E as (v & E & SV & CV).
  rewrite E in Q. destruct Q as (_ & A); [intros w hh I; apply repeat_spec in I; discriminate I|intros k p I; apply repeat_spec in I; injection I as -> _; split; vm_compute; discriminate|].
  exists nested, (win 80 9), v, 10. split; [exact MM|]. split; [exact R|]. split; [cbn; lia|]. split; [exact A|]. split; [rewrite CV; vm_compute; auto 12|].
  assert (SN : stands nested v [1; 2; 3; 4; 5; 6; 7; 8] 9 [10]) by (split; [exact SV|rewrite CV; vm_compute; reflexivity]).
  intros (keys & k & v' & K & W & _ & S). destruct K as [-> | ->].
  - destruct (ReachProofs.ups_before no_regex nested (win 80 9) MM R k v _ _ _ A SN) as (v1 & j & W1 & S1 & J). rewrite W in W1. injection W1 as <-. rewrite S in S1. injection S1 as <-.
    vm_compute in J. intuition discriminate.
  - destruct (C77_far no_regex nested (win 80 9) v _ 9 10 [] 8 MM R ltac:(cbn; lia) A SN ltac:(rewrite CV; exact (C77_apart_example 9)) ltac:(cbn; lia) k) as (v1 & W1 & _ & _ & S1).
    rewrite W in W1. injection W1 as <-. rewrite S in S1. discriminate S1.
Qed.
Print Assumptions C77_refuted.

(** How the two windows of the comparison share the lines: C72, C73. *)
From Verif Require Import Spec.SplitLay Spec.LevelSpec.
From Verif Require Proofs.SplitShow Proofs.SplitPair Proofs.DocumentProofs.
From Verif Require Import Properties.Screen Properties.Split Properties.Compare Properties.Level Properties.Both.
From Coq Require Import Lia.
Open Scope Z_scope.

(** C72: whenever the comparison waits, what has a counterpart in one window is
    beside what has one in the other, in order; what has none is beside nothing; no
    line between is empty in both windows. *)
Theorem C72_beside : forall f a b m len sc p w v, comparable a b m len f -> roomy_windows sc -> slen sc = len -> compares a b m sc p -> pwins p = [w; v] ->
  exists l r, fills len (pcoll p) (sw sc - 2) w l /\ fills len (pcoll p) (sw sc - 2) v r /\ abreast m l r /\ apart m l r /\ no_blank l r.
Proof. exact SplitShow.windows_beside. Qed.
Print Assumptions C72_beside.

Theorem C72_waiting : forall rx f a b m len w hh evs sc p, comparable a b m len f -> room w hh -> rooms evs -> unsearched evs ->
  split_run rx f len w hh a b evs = Done (Waits sc p) ->
  exists u v l r, pwins p = [u; v] /\ fills len (pcoll p) (sw sc - 2) u l /\ fills len (pcoll p) (sw sc - 2) v r /\ abreast m l r /\ apart m l r /\ no_blank l r.
Proof.
  intros rx f a b m len w hh evs sc p OK RW R U E. assert (X := SplitPress.run_compares rx f a b m len w hh evs OK RW R U). rewrite E in X. destruct X as (G & L & C).
  destruct C as (C0 & (u & v & EW & C1) & C2). assert (C : compares a b m sc p) by (split; [exact C0|]; split; [exists u, v; split; assumption|exact C2]).
  destruct (SplitShow.windows_beside f a b m len sc p u v OK G L C EW) as (l & r & X). exists u, v, l, r. split; [exact EW|exact X].
Qed.
Print Assumptions C72_waiting.

(** {"a": 1, "b": [2, 4], "c": 3} and {"a": 1, "n": "new", "b": [2], "c": 3}: "new" is
    beside an empty line, and so is 4. *)
Definition old_doc : node := document 1 (TObj [(str "a", num 1); (str "b", TArr [num 2; num 4]); (str "c", num 3)]).
Definition new_doc : node := document 21 (TObj [(str "a", num 1); (str "n", txt "new"); (str "b", TArr [num 2]); (str "c", num 3)]).
Definition beside_mat : mat := match build old_doc new_doc with inl m => m | inr _ => mkMat [] [] 0 true end.
Definition lines_of (o : out ending) : option (list (list (Z * Z))) :=
  match o with Done (Waits sc p) => Some (map (fun w => map (fun x => (fst (fst x), snd x)) (rev (wlog w))) (pwins p)) | _ => None end.
Definition fuel2 : nat := Z.to_nat 12000.
Example C72_example : comparable old_doc new_doc beside_mat width_of fuel2 /\ room 80 20 /\
  lines_of (split_run no_regex fuel2 width_of 80 20 old_doc new_doc []) =
  Some [[(1, 1); (2, 2); (4, 4); (5, 5); (6, 6); (7, 7); (5, 8); (8, 9); (1, 10)];
        [(21, 1); (22, 2); (24, 3); (26, 4); (27, 5); (28, 6); (27, 8); (29, 9); (21, 10)]] /\
  steps [] old_doc = [(1, false); (2, false); (4, false); (6, false); (7, false); (5, true); (8, false); (1, true)] /\
  steps [] new_doc = [(21, false); (22, false); (24, false); (26, false); (28, false); (27, true); (29, false); (21, true)] /\
  map (getEquivalence beside_mat) [1; 2; 4; 6; 7; 5; 8] = [Some 21; Some 22; Some 26; Some 28; None; Some 27; Some 29] /\
  getEquivalence beside_mat 24 = None.
Proof.
  split. { split; [apply DocumentProofs.document_in_memory|]. split; [apply DocumentProofs.document_in_memory|].
    split; [repeat constructor|]. split; [repeat constructor|]. split; [vm_compute; repeat constructor; cbn; intuition congruence|]. split; [vm_compute; reflexivity|].
    split; [intros e; unfold width_of; lia|]. split; vm_compute; reflexivity. }
  split; [repeat split; vm_compute; congruence|]. repeat split; vm_compute; reflexivity.
Qed.

(** C73, full statement: [level_pairs] whenever the comparison waits.  False of two
    counterparts of which one is an array or object and the other is not: the end of
    the one is then drawn beside what follows the other (C73_refuted).  Proved for
    documents of which counterparts are of the same kind.  *)
Theorem C73_partial : forall rx f a b m len w hh evs sc p, comparable a b m len f -> room w hh -> rooms evs -> unsearched evs -> same_kinds m a b ->
  split_run rx f len w hh a b evs = Done (Waits sc p) ->
  exists u v l r, pwins p = [u; v] /\ fills len (pcoll p) (sw sc - 2) u l /\ fills len (pcoll p) (sw sc - 2) v r /\ level_pairs m l r.
Proof.
  intros rx f a b m len w hh evs sc p OK RW R U SK E. assert (X := SplitPress.run_compares rx f a b m len w hh evs OK RW R U). rewrite E in X. destruct X as (G & L & C).
  destruct C as (C0 & (u & v & EW & C1) & C2). assert (C : compares a b m sc p) by (split; [exact C0|]; split; [exists u, v; split; assumption|exact C2]).
  destruct (SplitPair.windows_level f a b m len sc p u v OK G L SK C EW) as (l & r & X). exists u, v, l, r. split; [exact EW|exact X].
Qed.
Print Assumptions C73_partial.

(** The documents of C72_example: 4 and "new" have no counterpart. *)
Example C73_partial_example : comparable old_doc new_doc beside_mat width_of fuel2 /\ room 80 20 /\ same_kinds beside_mat old_doc new_doc /\
  lines_of (split_run no_regex fuel2 width_of 80 20 old_doc new_doc []) =
  Some [[(1, 1); (2, 2); (4, 4); (5, 5); (6, 6); (7, 7); (5, 8); (8, 9); (1, 10)];
        [(21, 1); (22, 2); (24, 3); (26, 4); (27, 5); (28, 6); (27, 8); (29, 9); (21, 10)]].
Proof.
  destruct C72_example as (H1 & H2 & H3 & _). split; [exact H1|]. split; [exact H2|]. split; [|exact H3].
  intros x k y k' I I' H. vm_compute in I, I'.
  repeat (destruct I as [[= <- <-]|I]; [vm_compute in H; try discriminate H; injection H as <-; repeat (destruct I' as [I'|I']; [try discriminate I'; injection I' as <-; reflexivity|]); destruct I'|]).
  destruct I.
Qed.

(** [[], 1, 2, 3] and [5, 1, 2, 3]: [] and 5 are counterparts, and the end of [] is
    drawn beside 1. *)
Definition with_array : node := document 1 (TArr [TArr []; num 1; num 2; num 3]).
Definition with_number : node := document 21 (TArr [num 5; num 1; num 2; num 3]).
Definition array_mat : mat := match build with_array with_number with inl m => m | inr _ => mkMat [] [] 0 true end.
Definition state_of (o : out ending) : option (Z * list Z * list (node * Z * list (Z * Z))) :=
  match o with Done (Waits sc p) => Some (sw sc, pcoll p, map (fun w => (wroot w, wscroll w, map (fun x => (fst (fst x), snd x)) (rev (wlog w)))) (pwins p)) | _ => None end.
Theorem C73_refuted : exists a b m sc p u v l r, comparable a b m width_of fuel2 /\ room 80 20 /\
  split_run no_regex fuel2 width_of 80 20 a b [] = Done (Waits sc p) /\ pwins p = [u; v] /\
  fills width_of (pcoll p) (sw sc - 2) u l /\ fills width_of (pcoll p) (sw sc - 2) v r /\ ~ level_pairs m l r.
Proof.
  assert (X : state_of (split_run no_regex fuel2 width_of 80 20 with_array with_number []) =
    Some (40, [], [(with_array, 0, [(1, 1); (2, 2); (2, 3); (3, 4); (4, 5); (5, 6); (1, 7)]); (with_number, 0, [(21, 1); (22, 2); (23, 3); (24, 4); (25, 5); (21, 6)])])) by (vm_compute; reflexivity).
  exists with_array, with_number, array_mat.
  destruct (split_run no_regex fuel2 width_of 80 20 with_array with_number []) as [[sc p|sc p]|] eqn:E; cbn [state_of] in X; try discriminate X.
  destruct (pwins p) as [|u [|v [|v2 vs]]] eqn:V; cbn [map] in X; try discriminate X. injection X as X1 X2 X3 X4 X5 X6 X7 X8.
  exists sc, p, u, v.
  exists [mkSlot 1 false 1 2; mkSlot 2 false 2 3; mkSlot 2 true 3 4; mkSlot 3 false 4 5; mkSlot 4 false 5 6; mkSlot 5 false 6 7; mkSlot 1 true 7 8],
         [mkSlot 21 false 1 2; mkSlot 22 false 2 3; mkSlot 23 false 3 4; mkSlot 24 false 4 5; mkSlot 25 false 5 6; mkSlot 21 true 6 7].
  split. { split; [apply DocumentProofs.document_in_memory|]. split; [apply DocumentProofs.document_in_memory|].
    split; [repeat constructor|]. split; [repeat constructor|]. split; [vm_compute; repeat constructor; cbn; intuition congruence|]. split; [vm_compute; reflexivity|].
    split; [intros e; unfold width_of; lia|]. split; vm_compute; reflexivity. }
  split; [repeat split; vm_compute; congruence|]. split; [reflexivity|]. split; [exact V|]. rewrite X1, X2.
  assert (ONE : forall s q, sfrom s = fst q -> sto s = ends_at 38 0 q -> holder (snd q) = sid s -> holds 38 0 s [q]).
  { intros s q H1 H2 H3. split; [split; [symmetry; exact H1|exact H2]|]. exists q, []. split; [reflexivity|]. split; [exact H3|left; reflexivity]. }
  split; [|split].
  - exists (map (fun q => [q]) (combine [1; 2; 3; 4; 5; 6; 7] (half_page width_of [] 1 2 with_array))), [], []. rewrite X3, X4, X5.
    split; [vm_compute; reflexivity|]. split; [vm_compute; reflexivity|]. split; [|vm_compute; reflexivity].
    vm_compute map. repeat (constructor; [apply ONE; vm_compute; reflexivity|]). constructor.
  - exists (map (fun q => [q]) (combine [1; 2; 3; 4; 5; 6] (half_page width_of [] 21 2 with_number))), [], []. rewrite X6, X7, X8.
    split; [vm_compute; reflexivity|]. split; [vm_compute; reflexivity|]. split; [|vm_compute; reflexivity].
    vm_compute map. repeat (constructor; [apply ONE; vm_compute; reflexivity|]). constructor.
  - intros H. specialize (H (mkSlot 3 false 4 5) (mkSlot 23 false 3 4)). cbn [sfrom sclose sid] in H. enough (4 = 3) by lia. apply H; [cbn; tauto|cbn; tauto|reflexivity|vm_compute; reflexivity].
Qed.
Print Assumptions C73_refuted.

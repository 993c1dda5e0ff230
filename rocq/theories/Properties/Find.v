(** Searching for a text, from the keys typed to the row selected: C83. *)
From Verif Require Import Model.SimpleView Spec.ViewSpec Spec.FindSpec.
From Verif Require Proofs.FindProofs Proofs.DocumentProofs.
From Verif Require Import Properties.View Properties.Press.
From Coq Require Import Lia.
Open Scope Z_scope.

(** C83, full statement: as below, the row found being on the screen whether or not it is
    [under] the selected one.  False when the search starts over at the top, the
    screen being drawn once only then (C83_refuted); proved for the other case.  The
    search leads to the nearest row below that contains the text, else to the first of
    the document, opens the containers around it, and moves nothing if there is none. *)
Theorem C83_partial : forall rx root e ig u s k rest sc v i,
  in_memory root -> roomy root sc -> at_rest root sc v -> vsel v = Some i -> plain_text s -> enter k ->
  exists p, inputSearch e ig u 0 (keys_of s ++ k :: rest) [] = Answer (Some p) rest /\
  ((exists r v', target root s i r /\ wait rx root sc v false [EvKey (str "/") (Some p)] = Waiting sc v' false /\
      vsel v' = Some r /\ In r (rows (vcoll v') root) /\ incl (vcoll v') (vcoll v) /\
      (under root i r -> at_rest root sc v' /\ (2 <= sh sc < 2 ^ 32 -> exists line, In (r, line, true) (vlines v') /\ 1 <= line <= sh sc - 1))) \/
   (exists v', (forall r, ~ contains root s r) /\ wait rx root sc v false [EvKey (str "/") (Some p)] = Waiting sc v' false /\
      vsel v' = Some i /\ vcoll v' = vcoll v /\ vres v' = [])).
Proof. exact FindProofs.find_text. Qed.
Print Assumptions C83_partial.

Lemma plain_x : plain_text (str "x").
Proof. split; [repeat constructor; discriminate|]. split; [discriminate|]. split; [intros c t E; injection E as <- _; intros [B|B]; vm_compute in B; discriminate B|]. split; intros [I|[]]; discriminate I. Qed.
(** In [doc], the first row being selected, [x] leads to row 5, the last element of a. *)
Example C83_example : exists v v', run no_regex doc (win 20 6) view0 [] = Waiting (win 20 6) v false /\ at_rest doc (win 20 6) v /\ vsel v = Some 1 /\
  plain_text (str "x") /\ target doc (str "x") 1 5 /\ under doc 1 5 /\ ~ (exists r, contains doc (str "q") r) /\
  wait no_regex doc (win 20 6) v false [look "x"] = Waiting (win 20 6) v' false /\ vsel v' = Some 5 /\ In (5, 5, true) (vlines v').
Proof.
  assert (Q := C65_rest no_regex doc (win 20 6) [] (DocumentProofs.document_in_memory _ _) ltac:(apply roomy_win; [lia|vm_compute; reflexivity]) ltac:(intros w hh []) ltac:(intros k p [])).
  assert (E : exists v v', run no_regex doc (win 20 6) view0 [] = Waiting (win 20 6) v false /\ vsel v = Some 1 /\
    wait no_regex doc (win 20 6) v false [look "x"] = Waiting (win 20 6) v' false /\ vsel v' = Some 5 /\ In (5, 5, true) (vlines v'))
    by (eexists _, _; split; [vm_compute; reflexivity|]; split; [reflexivity|]; split; [vm_compute; reflexivity|split; [reflexivity|left; reflexivity]]).
  destruct E as (v & v' & E & SV & W & SV' & L). rewrite E in Q. exists v, v'. split; [exact E|]. split; [apply Q|]. split; [exact SV|].
  split; [exact plain_x|].
  split; [|split; [exists [], [2; 4], [6; 8; 10]; vm_compute; reflexivity|split; [|split; [exact W|split; [exact SV'|exact L]]]]].
  - left. exists [], [2; 4], [6; 8; 10]. split; [vm_compute; reflexivity|]. split.
    + repeat constructor; intros (x & I & a & b & O); vm_compute in I; repeat (destruct I as [I|I]; [try discriminate I; injection I as <-|]); try (destruct I);
        vm_compute in O; destruct a as [|? [|? a]]; cbn [app] in O; discriminate O.
    + exists (Scalar (PStr (str "x"))). split; [clear; vm_compute; auto 12|]. exists [], []. vm_compute. reflexivity.
  - intros (r & x & I & a & b & O). vm_compute in I. repeat (destruct I as [I|I]; [injection I as <- <-; vm_compute in O; destruct a as [|? [|? [|? [|? a]]]]; cbn [app] in O; discriminate O|]). destruct I.
Qed.

(** After Down, Left, Down the second row of [tall] is selected and the first folded; a
    search for x starts over at the top, opens the first row and selects x, which
    is beyond the last line drawn. *)
Theorem C83_refuted : exists root sc v i s, in_memory root /\ roomy root sc /\ 2 <= sh sc < 2 ^ 32 /\ at_rest root sc v /\ vsel v = Some i /\ plain_text s /\
  exists p r v', inputSearch (mkEnv false) true true 0 (keys_of s ++ [10]) [] = Answer (Some p) [] /\ target root s i r /\
  wait no_regex root sc v false [EvKey (str "/") (Some p)] = Waiting sc v' false /\ vsel v' = Some r /\ ~ exists line b, In (r, line, b) (vlines v').
Proof.
  assert (MM := DocumentProofs.document_in_memory 1 (TArr [TArr [num 0; num 0; num 0; num 0; num 0; num 0; txt "x"]; txt "y"])).
  assert (R : roomy tall (win 20 6)) by (apply roomy_win; [lia|vm_compute; reflexivity]).
  assert (Q := C65_rest no_regex tall (win 20 6) [key "J"; key "H"; key "J"] MM R).
  assert (E : exists v v', run no_regex tall (win 20 6) view0 [key "J"; key "H"; key "J"] = Waiting (win 20 6) v false /\ vsel v = Some 10 /\
    wait no_regex tall (win 20 6) v false [look "x"] = Waiting (win 20 6) v' false /\ vsel v' = Some 9 /\ map (fun x => fst (fst x)) (vlines v') = [5; 4; 3; 2; 1])
    by (eexists _, _; split; [vm_compute; reflexivity|]; split; [reflexivity|]; split; [vm_compute; reflexivity|split; reflexivity]).
  destruct E as (v & v' & E & SV & W & SV' & L). rewrite E in Q. destruct Q as (_ & A).
  { intros w hh I; repeat (destruct I as [I|I]; [discriminate I|]); destruct I. }
  { intros k p I; repeat (destruct I as [I|I]; [injection I as <- _; split; vm_compute; discriminate|]); destruct I. }
  exists tall, (win 20 6), v, 10, (str "x"). split; [exact MM|]. split; [exact R|]. split; [cbn; lia|]. split; [exact A|]. split; [exact SV|].
  split; [exact plain_x|].
  exists (SearchPattern 0 (str "x")), 9, v'. split; [vm_compute; reflexivity|]. split; [|split; [exact W|split; [exact SV'|]]].
  - right. assert (C : forall r, contains tall (str "x") r -> r = 9).
    { assert (EI : items (nid tall) tall = map (fun i => (i, Scalar (PInt 0))) [3; 4; 5; 6; 7; 8] ++ [(9, Scalar (PStr (str "x"))); (10, Scalar (PStr (str "y")))]) by (vm_compute; reflexivity).
      intros r (x & I & O). rewrite EI in I. cbn [map app] in I. destruct O as (a & b & O).
      assert (K : (x = Scalar (PInt 0) \/ x = Scalar (PStr (str "y"))) \/ r = 9) by (repeat (destruct I as [I|I]; [injection I as <- <-; auto|]); destruct I).
      destruct K as [[-> | ->]|K]; [| |exact K]; exfalso; vm_compute in O; (destruct a as [|? [|? [|? [|? a]]]]; cbn [app] in O; discriminate O). }
    split.
    + exists [1; 2; 3; 4; 5; 6; 7; 8; 9], []. split; [vm_compute; reflexivity|constructor].
    + exists [1; 2; 3; 4; 5; 6; 7; 8], [10]. split; [vm_compute; reflexivity|]. split; [repeat constructor; intros H; apply C in H; discriminate H|].
      exists (Scalar (PStr (str "x"))). split; [clear; vm_compute; auto 12|]. exists [], []. vm_compute. reflexivity.
  - intros (line & b & I). apply (in_map (fun x => fst (fst x))) in I. rewrite L in I. cbn in I. intuition discriminate.
Qed.
Print Assumptions C83_refuted.

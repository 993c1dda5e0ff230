(** Which rows can be reached with the keys: C90. *)
From Verif Require Import Model.SimpleView Model.SplitView Spec.ViewSpec Spec.RowsSpec.
From Verif Require Proofs.KeysReachProofs Proofs.SplitReachProofs Proofs.PressProofs Proofs.DocumentProofs Proofs.ReachProofs.
From Verif Require Import Properties.View Properties.Press Properties.Split Properties.Compare.
From Coq Require Import Lia.
Open Scope Z_scope.

(** C90, full statement: [forall rx root sc v r, in_memory root -> roomy root sc ->
    2 <= sh sc < 2 ^ 32 -> at_rest root sc v -> In r (rows (vcoll v) root) -> exists
    keys v', Forall moving keys /\ wait rx root sc v false keys = Waiting sc v' false
    /\ vcoll v' = vcoll v /\ vsel v' = Some r].  False when the document ends inside of
    an entry of which the key fills the window (C90_refuted).  Proved unless it does. *)
Theorem C90_partial : forall rx root sc v r, in_memory root -> roomy root sc -> 2 <= sh sc < 2 ^ 32 -> at_rest root sc v ->
  brief sc (vcoll v) root -> In r (rows (vcoll v) root) ->
  exists keys v', Forall moving keys /\ wait rx root sc v false keys = Waiting sc v' false /\ at_rest root sc v' /\ vcoll v' = vcoll v /\ vsel v' = Some r.
Proof. intros rx root sc v r M R H A B I. exact (KeysReachProofs.reach_row rx root sc M R H v r A B I). Qed.
Print Assumptions C90_partial.

(** [nested] in 6 lines, where Down does not lead from row 9 to row 10: the document
    does not end inside of an entry, and PageDown leads from row 2 to row 10. *)
Example C90_example : in_memory nested /\ roomy nested (win 80 6) /\ brief (win 80 6) [] nested /\ In 10 (rows [] nested) /\
  exists v, run no_regex nested (win 80 6) view0 [] = Waiting (win 80 6) v false /\ at_rest nested (win 80 6) v /\ vcoll v = [] /\
  exists v', wait no_regex nested (win 80 6) v false [EvKey (str "KEY_RIGHT") None; EvKey (str "KEY_NPAGE") None] = Waiting (win 80 6) v' false /\ vsel v' = Some 10.
Proof.
  assert (MM := DocumentProofs.document_in_memory 1 (TArr [TArr [TArr [TArr [TArr [TArr [TArr [TArr [num 1]]]]]]]; num 2])). split; [exact MM|].
  assert (R : roomy nested (win 80 6)) by (apply roomy_win; [cbn; lia|vm_compute; reflexivity]). split; [exact R|]. split; [|split; [vm_compute; auto 12|]].
  - intros i n c h (SH & NI & _). exfalso. apply NI. vm_compute in SH. repeat (destruct SH as [SH|SH]; [injection SH as <- <-; reflexivity|]). destruct SH.
  - eexists. split; [vm_compute; reflexivity|]. split; [|split; [reflexivity|eexists; split; [vm_compute; reflexivity|reflexivity]]].
    assert (Q := C65_rest no_regex nested (win 80 6) [] MM R ltac:(intros w hh []) ltac:(intros k p [])).
    match goal with |- at_rest _ _ ?v => replace (run no_regex nested (win 80 6) view0 []) with (Waiting (win 80 6) v false) in Q by (vm_compute; reflexivity) end. apply Q.
Qed.
(** {"a": [1]} in 4 lines ends inside of the entry "a", which needs two of them. *)
Definition short_key : node := document 1 (TObj [(str "a", TArr [num 1])]).
Example C90_brief_example : brief (win 80 4) [] short_key /\ rows [] short_key = [1; 2; 4] /\ exists n, ends_inside [] short_key 2 n 4.
Proof.
  split; [|split; [vm_compute; reflexivity|]].
  - assert (A2 : apart (win 80 4) [] short_key 2 4 2) by (eexists [_], _, [_], _, _; repeat split; try (vm_compute; reflexivity); intros I; vm_compute in I; intuition discriminate).
    intros i n c h (SH & NI & _ & ME & _) AP. change (sh (win 80 4)) with 4. vm_compute in SH.
    destruct SH as [SH|[SH|[SH|[]]]]; injection SH as <- <-; [destruct (NI eq_refl)| |destruct (NI eq_refl)]. vm_compute in ME. injection ME as <-.
    rewrite (ReachProofs.apart_unique _ _ _ _ _ _ _ AP A2). lia.
  - eexists. split; [vm_compute; right; left; reflexivity|]. split; [vm_compute; discriminate|]. split; [intros []|]. split; [reflexivity|]. exists [1]. vm_compute. reflexivity.
Qed.

(** {"kk...k": [1]} in a window of 5 lines, 20 wide: 60 letters do not fit in its three
    lines.  No keys lead to row 4, other than those of a search. *)
Definition wide_key : node := document 1 (TObj [(repeat "k"%char 60, TArr [num 1])]).
Definition narrow : screen := mkScreen 20 5 (fun e => if eid e =? 2 then 62 else 3).
Definition views : list view := Eval vm_compute in
  flat_map (fun l => match run no_regex wide_key narrow view0 (map key l) with Waiting _ v _ => [v] | _ => [] end)
    ([[]; ["J"]; ["J"; "J"]; ["H"]; ["J"; "H"]; ["J"; "J"; "H"]; ["J"; "H"; "K"]; ["J"; "H"; "K"; "H"]]%string).
Lemma views_closed v k p : In v views -> k <> str "/" -> k <> str "N" -> k <> str "Q" -> exists v', In v' views /\ forall t, wait no_regex wide_key narrow v false (EvKey k p :: t) = wait no_regex wide_key narrow v' false t.
Proof.
  intros I NS NN NQ.
  assert (X : In k (map str ["K"; "KEY_UP"; "J"; "KEY_DOWN"; "KEY_PPAGE"; "KEY_NPAGE"; "L"; "KEY_RIGHT"; "H"; "KEY_LEFT"]%string) \/
    ~ In k (map str ["Q"; "K"; "KEY_UP"; "J"; "KEY_DOWN"; "KEY_PPAGE"; "KEY_NPAGE"; "L"; "KEY_RIGHT"; "H"; "KEY_LEFT"; "/"; "N"]%string)).
  { destruct (in_dec (list_eq_dec Ascii.ascii_dec) k (map str ["K"; "KEY_UP"; "J"; "KEY_DOWN"; "KEY_PPAGE"; "KEY_NPAGE"; "L"; "KEY_RIGHT"; "H"; "KEY_LEFT"]%string)) as [J|J]; [left; exact J|right].
    intros K. apply J. cbn [map In] in *. intuition congruence. }
  assert (Y : exists v', In v' views /\ wait no_regex wide_key narrow v false [EvKey k p] = Waiting narrow v' false).
  { destruct X as [X|X]; [|exists v; split; [exact I|apply PressProofs.press_other; exact X]].
    unfold views in I. cbn [In] in I. cbn [map In] in X.
    destruct I as [<-|[<-|[<-|[<-|[<-|[<-|[<-|[<-|[]]]]]]]]];
      (repeat (destruct X as [<-|X]; [eexists; split; [|vm_compute; reflexivity]; unfold views; cbn [In]; tauto|]); destruct X). }
  destruct Y as (v' & J & W). exists v'. split; [exact J|]. intros t. change (EvKey k p :: t) with ([EvKey k p] ++ t).
  apply ReachProofs.wait_more; [exact W|]. intros e [<-|[]]. eauto.
Qed.
Theorem C90_refuted : exists root sc v r, in_memory root /\ roomy root sc /\ 2 <= sh sc < 2 ^ 32 /\ at_rest root sc v /\ In r (rows (vcoll v) root) /\
  ~ exists keys sc' v' s, (forall e, In e keys -> exists k p, e = EvKey k p) /\ unsearched keys /\ wait no_regex root sc v false keys = Waiting sc' v' s /\ vsel v' = Some r.
Proof.
  assert (MM := DocumentProofs.document_in_memory 1 (TObj [(repeat "k"%char 60, TArr [num 1])])).
  assert (R : roomy wide_key narrow) by (split; [cbn; lia|split; [intros e; cbn; destruct (eid e =? 2); lia|vm_compute; reflexivity]]).
  assert (Q := C65_rest no_regex wide_key narrow [] MM R ltac:(intros w hh []) ltac:(intros k p [])).
  assert (E : exists v, run no_regex wide_key narrow view0 [] = Waiting narrow v false /\ In v views /\ vcoll v = []) by (eexists; split; [vm_compute; reflexivity|split; [left; reflexivity|reflexivity]]).
  destruct E as (v & E & I & CV). rewrite E in Q. destruct Q as (_ & A).
  exists wide_key, narrow, v, 4. split; [exact MM|]. split; [exact R|]. split; [cbn; lia|]. split; [exact A|]. split; [rewrite CV; vm_compute; auto|].
  intros (keys & sc' & v' & s & K & U & W & S). clear A E CV. revert v I W. induction keys as [|e keys IH]; intros v I W.
  - cbn [wait] in W. injection W as _ <- _. unfold views in I. cbn [In] in I. destruct I as [<-|[<-|[<-|[<-|[<-|[<-|[<-|[<-|[]]]]]]]]]; discriminate S.
  - destruct (K e (or_introl eq_refl)) as (k & p & ->). destruct (U k p (or_introl eq_refl)) as (NS & NN).
    destruct (list_eq_dec Ascii.ascii_dec k (str "Q")) as [->|NQ]; [cbn in W; discriminate W|].
    destruct (views_closed v k p I NS NN NQ) as (v1 & I1 & W1). rewrite W1 in W.
    apply (IH (fun e J => K e (or_intror J)) (fun k p J => U k p (or_intror J)) v1 I1 W).
Qed.
Print Assumptions C90_refuted.

(** The comparison: every row of the active window can be reached, unless the document
    ends inside of an entry of which nothing inside is drawn when it is selected. *)
Theorem C90_split_partial : forall rx f a b m len sc p w r, comparable a b m len f -> roomy_windows sc -> slen sc = len ->
  compares a b m sc p -> active p = Some w -> In r (rows (pcoll p) (wroot w)) ->
  (exists keys p', leads rx f a b m sc p keys p' r) \/ stuck_inside rx f a b m sc p (wroot w).
Proof. intros rx f a b m len sc p w r OK G L C A. exact (SplitReachProofs.split_reach rx f a b m len sc OK G L p w C A r). Qed.
Print Assumptions C90_split_partial.

Theorem C90_split : forall rx f a b m len sc p w r, comparable a b m len f -> roomy_windows sc -> slen sc = len ->
  compares a b m sc p -> active p = Some w -> (forall i n c, ~ ends_inside (pcoll p) (wroot w) i n c) -> In r (rows (pcoll p) (wroot w)) ->
  exists keys p', leads rx f a b m sc p keys p' r.
Proof. intros rx f a b m len sc p w r OK G L C A. exact (SplitReachProofs.split_reach_all rx f a b m len sc OK G L p w C A r). Qed.
Print Assumptions C90_split.

(** [pair_doc] in windows of 5 lines, where Down stays on row 5 (C66_down_refuted): it
    ends with the entry "b" of a number, which PageDown reaches from the entry "a". *)
Example C90_split_example : exists sc p w, keys 7 ["J"; "J"; "J"]%string = Done (Waits sc p) /\ roomy_windows sc /\ slen sc = three /\
  compares (pair_doc 1) (pair_doc 21) pair_mat sc p /\ active p = Some w /\ wsel w = Some 5 /\ (forall i n c, ~ ends_inside (pcoll p) (wroot w) i n c) /\ In 6 (rows (pcoll p) (wroot w)).
Proof.
  destruct (keys 7 ["J"; "J"; "J"]%string) as [[sc p|sc p]|] eqn:E; [|vm_compute in E; discriminate E|vm_compute in E; discriminate E].
  assert (C := keys_compares 7 ["J"; "J"; "J"]%string sc p ltac:(split; split; vm_compute; congruence) eq_refl E). vm_compute in E. injection E as Q1 Q2.
  eexists sc, p, _. split; [reflexivity|]. split; [apply C|]. split; [apply C|]. split; [apply C|]. rewrite <- Q2. split; [reflexivity|]. split; [reflexivity|]. split; [|vm_compute; auto 8].
  intros i n c (SH & NI & _ & ME & pre & E). vm_compute in SH.
  destruct SH as [SH|[SH|[SH|[SH|[SH|[]]]]]]; injection SH as <- <-; try (destruct (NI eq_refl)); [|vm_compute in ME; discriminate ME].
  apply (f_equal (@rev Z)) in E. rewrite rev_app_distr in E. vm_compute in E. discriminate E.
Qed.

(** {"a": [1]} compared with itself in windows of 4 lines: the keys never lead to row 4. *)
Definition one_doc (i : Z) : node := document i (TObj [(str "a", TArr [num 1])]).
Definition one_mat : mat := match build (one_doc 1) (one_doc 21) with inl m => m | inr _ => mkMat [] [] 0 true end.
Lemma one_comparable : comparable (one_doc 1) (one_doc 21) one_mat three fuel.
Proof.
  split; [apply DocumentProofs.document_in_memory|]. split; [apply DocumentProofs.document_in_memory|].
  split; [repeat constructor|]. split; [repeat constructor|]. split; [vm_compute; repeat constructor; cbn; intuition congruence|]. split; [vm_compute; reflexivity|].
  split; [intros e; unfold three; lia|]. split; vm_compute; reflexivity.
Qed.
Definition window4 : screen := mkScreen 20 4 three.
Definition one_states : list split := Eval vm_compute in
  flat_map (fun l => match split_run no_regex fuel three 40 6 (one_doc 1) (one_doc 21) (map key l) with Done (Waits _ p) => [p] | _ => [] end) [[]; ["J"]]%string.
Lemma one_closed p e : In p one_states -> moving e -> exists p', In p' one_states /\
  forall t, split_wait (split_memory (one_doc 1) (one_doc 21)) one_mat no_regex fuel window4 p false (e :: t) = split_wait (split_memory (one_doc 1) (one_doc 21)) one_mat no_regex fuel window4 p' false t.
Proof.
  intros I (k & -> & K).
  assert (Y : exists p', In p' one_states /\ split_wait (split_memory (one_doc 1) (one_doc 21)) one_mat no_regex fuel window4 p false [EvKey (str k) None] = Done (Waits window4 p')).
  { unfold one_states in I. cbn [In] in I, K. destruct I as [<-|[<-|[]]];
      (repeat (destruct K as [<-|K]; [eexists; split; [|vm_compute; reflexivity]; unfold one_states; cbn [In]; tauto|]); destruct K). }
  destruct Y as (p' & J & W). exists p'. split; [exact J|]. intros t. change (EvKey (str k) None :: t) with ([EvKey (str k) None] ++ t).
  apply SplitReachProofs.split_wait_more; [exact W|]. intros e [<-|[]]. eauto.
Qed.
Theorem C90_split_refuted : exists a b m len f sc p w r, comparable a b m len f /\ roomy_windows sc /\ slen sc = len /\ compares a b m sc p /\ active p = Some w /\
  In r (rows (pcoll p) (wroot w)) /\ ~ exists keys p', leads no_regex f a b m sc p keys p' r.
Proof.
  assert (E : exists p w, split_run no_regex fuel three 40 6 (one_doc 1) (one_doc 21) (map key []) = Done (Waits window4 p) /\ In p one_states /\ active p = Some w /\ In 4 (rows (pcoll p) (wroot w)))
    by (eexists _, _; split; [vm_compute; reflexivity|split; [left; reflexivity|split; [reflexivity|vm_compute; auto 8]]]).
  destruct E as (p & w & E & I & A & V).
  destruct (typed_compares no_regex fuel (one_doc 1) (one_doc 21) one_mat three 40 6 [] window4 p one_comparable ltac:(split; split; vm_compute; congruence) eq_refl E) as (G & L & C).
  exists (one_doc 1), (one_doc 21), one_mat, three, fuel, window4, p, w, 4. split; [exact one_comparable|]. split; [exact G|]. split; [exact L|]. split; [exact C|]. split; [exact A|]. split; [exact V|].
  intros (keys & p' & F & W & _ & _ & _ & w' & A' & S). clear E G L C A V. revert p I W. induction F as [|e keys K F IH]; intros p I W.
  - cbn [split_wait] in W. injection W as <-. unfold one_states in I. cbn [In] in I. destruct I as [<-|[<-|[]]]; injection A' as <-; discriminate S.
  - destruct (one_closed p e I K) as (p1 & I1 & W1). rewrite W1 in W. exact (IH p1 I1 W).
Qed.
Print Assumptions C90_split_refuted.

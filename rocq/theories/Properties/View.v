(** The view of one document: C34 to C41, C43, C52. *)
From Verif Require Import Model.SimpleView Spec.ViewSpec Spec.ViewerSpec.
From Verif Require Proofs.DocumentProofs.
From Coq Require Import Lia.
Open Scope Z_scope.

(** For the examples.  Addresses are given in document order. *)
Definition num (z : Z) : tree := TPrim (PInt z).
Definition txt (s : string) : tree := TPrim (PStr (str s)).
Definition key (s : string) : event := EvKey (str s) None.
Definition look (s : string) : event := EvKey (str "/") (Some (SearchPattern 0 (str s))).
Definition no_regex (a : bytes) (b : bool) (c : bytes) : bool := false.
Definition win (w hh : Z) : screen := mkScreen w hh (fun _ => 3).
(** {"a": [1, "x"], "b": {"x": 2}, "c": "x"}: rows 1, 2 (a), 4, 5, 6 (b), 8 (x), 10 (c). *)
Definition doc : node := document 1 (TObj [(str "a", TArr [num 1; txt "x"]); (str "b", TObj [(str "x", num 2)]); (str "c", txt "x")]).
(** [[0,0,0,0,0,0,"x"], "y"] *)
Definition tall : node := document 1 (TArr [TArr [num 0; num 0; num 0; num 0; num 0; num 0; txt "x"]; txt "y"]).
Definition view_of (r : final) : option view := match r with Waiting _ v _ => Some v | Ended _ v _ => Some v | Undefined => None end.

Lemma roomy_win d w hh : 3 <= w < 2 ^ 32 -> Z.of_nat (nesting d) < 2 ^ 27 -> roomy d (win w hh).
Proof. intros W N. split; [exact W|]. split; [cbn; lia|exact N]. Qed.

(** C34: after a search for [p] the results are the rows of the scalars and keys
    that match, in document order. *)
Theorem C34_search_results : forall rx root p sc v o v',
  in_memory root -> isEmpty p = false ->
  initSearch root rx (Some p) sc v = Some (o, v') ->
  vres v' = map fst (filter (fun x => match snd x with
                                      | Scalar q => match_ rx p (tree_string (TPrim q)) (EPrim q)
                                      | Key k => match_ rx p k SearchPattern.EEntry
                                      end) (items (nid root) root)).
Proof. intros rx root p sc v o v' M E H. exact (DocumentProofs.search_results rx root M p sc v o v' E H). Qed.
Print Assumptions C34_search_results.

Example C34_example : exists o v', initSearch doc no_regex (Some (SearchPattern 0 (str "x"))) (win 20 6) (set_sel view0 (Some 1)) = Some (o, v') /\
  vres v' = [5; 8; 10] /\ items 1 doc = [(2, Key (str "a")); (4, Scalar (PInt 1)); (5, Scalar (PStr (str "x"))); (6, Key (str "b")); (8, Key (str "x"));
    (8, Scalar (PInt 2)); (10, Key (str "c")); (10, Scalar (PStr (str "x")))].
Proof. eexists _, _. split; [vm_compute; reflexivity|]. split; reflexivity. Qed.

(** C35: pressing n selects the first result after the selected row in document
    order, or the first result when there is none, and shows it; pressing it
    again and again reaches every result of a search ([f] being what the search
    accepted, see C34). *)
Theorem C35_next_result : forall root sc v i,
  in_memory root -> roomy root sc -> vsel v = Some i -> In i (rows (vcoll v) root) -> 0 <= vscroll v ->
  incl (vres v) (map fst (items (nid root) root)) -> vres v <> [] ->
  exists o v', nextResult root sc v = Some (o, v') /\ vres v' = vres v /\
    vsel v' = next_result (rows [] root) (vres v) i /\ on_row root v'.
Proof. exact DocumentProofs.next_spec. Qed.
Print Assumptions C35_next_result.

Theorem C35_visits_all : forall rx root sc v i f,
  in_memory root -> roomy root sc -> vsel v = Some i -> In i (rows (vcoll v) root) -> 0 <= vscroll v ->
  vres v = map fst (filter f (items (nid root) root)) ->
  forall r, In r (vres v) ->
  exists k v', wait rx root sc v false (repeat (EvKey (str "N") None) k) = Waiting sc v' false /\
    vsel v' = Some r /\ In r (rows (vcoll v') root).
Proof. exact DocumentProofs.visits_spec. Qed.
Print Assumptions C35_visits_all.

(** From row 5, results 5, 8 and 10: n goes to 8, unfolding what hides it; and
    wraps from 10 to 5. *)
Example C35_example :
  let v := mkView (Some 5) 0 [7] [5; 8; 10] (Some 4) (Some 6) false [] in
  next_result (rows [] doc) (vres v) 5 = Some 8 /\ next_result (rows [] doc) (vres v) 10 = Some 5 /\
  option_map (fun r => (vsel (snd r), vcoll (snd r))) (nextResult doc (win 20 6) v) = Some (Some 8, []) /\
  option_map vsel (view_of (wait no_regex doc (win 20 6) v false [key "N"; key "N"; key "N"])) = Some (Some 5) /\
  rows [7] doc = [1; 2; 4; 5; 6; 10].
Proof. vm_compute. auto. Qed.
Example C35_hypotheses_example : in_memory doc /\ roomy doc (win 20 6) /\ incl [5; 8; 10] (map fst (items (nid doc) doc)).
Proof.
  split; [split; [repeat constructor|vm_compute; repeat constructor; cbn; lia]|].
  split; [split; [split; [discriminate|reflexivity]|split; [|vm_compute; reflexivity]]|].
  - intros e. destruct e; vm_compute; split; (discriminate || reflexivity).
  - intros x H. vm_compute in *. intuition lia.
Qed.

(** C36, full statement: [forall rx root sc evs, in_memory root -> roomy root sc
    -> wide evs -> stays_on_row root (run rx root sc view0 evs)]: false
    (C36_refuted).  Proved (1) for sequences without search keys; (2) for every
    sequence in which the viewer never waits for a key without knowing the row
    below the selection, as it does when n wraps around to a result out of the
    window. *)
Theorem C36_partial : forall rx root sc evs,
  in_memory root -> roomy root sc -> wide evs ->
  unsearched evs \/
  (forall a b sc1 v1 stop, evs = a ++ b -> run rx root sc view0 a = Waiting sc1 v1 stop -> vdown v1 <> None) ->
  stays_on_row root (run rx root sc view0 evs).
Proof. exact DocumentProofs.run_on_row. Qed.
Print Assumptions C36_partial.

Example C36_example :
  unsearched [key "J"; key "H"; EvSize 40 3; key "KEY_NPAGE"; key "L"] /\
  option_map (fun v => (vsel v, vcoll v)) (view_of (run no_regex doc (win 20 6) view0 [key "J"; key "H"; EvSize 40 3; key "KEY_NPAGE"; key "L"; key "K"]))
  = Some (Some 8, [3]) /\
  option_map (fun v => (vsel v, vdown v)) (view_of (run no_regex doc (win 20 6) view0 [look "x"; key "J"])) = Some (Some 5, Some 6).
Proof.
  split; [|split; vm_compute; reflexivity]. intros k p I. cbn in I.
  repeat (destruct I as [[= <- <-]|I]; [split; discriminate|]). repeat (destruct I as [I|I]; [try discriminate I; injection I as <- <-; split; discriminate|]). destruct I.
Qed.

(** Down after a search that wrapped around selects the null pointer, which the
    redraw dereferences. *)
Theorem C36_refuted : exists root sc evs,
  in_memory root /\ roomy root sc /\ wide evs /\
  (exists sc' v, run no_regex root sc view0 (evs ++ [look "x"]) = Waiting sc' v false /\ vdown v = None) /\
  run no_regex root sc view0 (evs ++ [look "x"; key "J"]) = Undefined.
Proof.
  exists tall, (win 20 6), [key "J"; key "H"; key "J"]. split; [apply DocumentProofs.document_in_memory|]. split; [apply roomy_win; [lia|vm_compute; reflexivity]|].
  split; [intros w hh I; repeat (destruct I as [I|I]; [discriminate I|]); destruct I|]. split; [eexists _, _; split; vm_compute; reflexivity|vm_compute; reflexivity].
Qed.
Print Assumptions C36_refuted.

(** C37: the loop [while (!redraw());] ends, after at most [fuel_of root] turns. *)
Theorem C37_redraw_terminates : forall root sc v i,
  in_memory root -> roomy root sc -> vsel v = Some i -> In i (ids root) -> 0 <= vscroll v ->
  exists v', redraw_loop root (fuel_of root) sc v = Some v'.
Proof. exact DocumentProofs.redraw_ends. Qed.
Print Assumptions C37_redraw_terminates.

(** The last row is shown in a window of 4 lines after several turns. *)
Example C37_example :
  redraw_loop doc 3 (win 20 4) (mkView (Some 10) 0 [] [] None None false []) = None /\
  option_map vscroll (redraw_loop doc (fuel_of doc) (win 20 4) (mkView (Some 10) 0 [] [] None None false [])) = Some 8.
Proof. vm_compute. auto. Qed.

(** C38: after a redraw, with [pre] the visible rows before the selection and
    [post] those after it: up selects the last of [pre]; down selects the first
    of [post], stays at the last row, or, when no row of [post] was drawn because
    the window is full, keeps the selection and scrolls. *)
Theorem C38_adjacent_rows : forall root sc v v' i pre post,
  in_memory root -> redraw root sc v = Some (true, v') -> vsel v = Some i -> rows (vcoll v) root = pre ++ i :: post ->
  (exists w, selectUp v' = Some (Redraw, w) /\ vcoll w = vcoll v /\
     vsel w = Some (match rev pre with u :: _ => u | [] => i end)) /\
  exists o w, selectDown v' = Some (o, w) /\ vcoll w = vcoll v /\
    ((vsel w = Some (match post with d :: _ => d | [] => i end) /\ vscroll w = vscroll v') \/
     (vsel w = Some i /\ vscroll w = vscroll v' + 2 /\ forall r line b, In (r, line, b) (vlines v') -> ~ In r post)).
Proof. exact DocumentProofs.adjacent_rows. Qed.
Print Assumptions C38_adjacent_rows.

(** Row 6 is followed by the hidden row 8 ([7] is folded), then by row 10; in a
    window of 4 lines row 5 is the last that fits. *)
Example C38_example : exists v1 v2,
  redraw doc (win 20 20) (mkView (Some 6) 0 [7] [] None None false []) = Some (true, v1) /\
  vup v1 = Some 5 /\ vdown v1 = Some 10 /\ vlast v1 = false /\
  redraw doc (win 20 5) (mkView (Some 4) 0 [] [] None None false []) = Some (true, v2) /\
  vlast v2 = true /\ option_map (fun r => (vsel (snd r), vscroll (snd r))) (selectDown v2) = Some (Some 4, 2).
Proof. eexists _, _. split; [vm_compute; reflexivity|]. repeat (split; [vm_compute; reflexivity|]). vm_compute. reflexivity. Qed.

(** C39: after [while (!redraw());] the selected row is on a line of the window. *)
Theorem C39_selection_shown : forall root fuel sc v v' i,
  in_memory root -> 2 <= sh sc < 2 ^ 32 -> 0 <= vscroll v -> vsel v = Some i -> In i (rows (vcoll v) root) ->
  redraw_loop root fuel sc v = Some v' ->
  exists line, In (i, line, true) (vlines v') /\ 1 <= line <= sh sc - 1.
Proof. exact DocumentProofs.selection_shown. Qed.
Print Assumptions C39_selection_shown.

Example C39_example : exists v', redraw_loop doc (fuel_of doc) (win 20 4) (mkView (Some 10) 0 [] [] None None false []) = Some v' /\
  filter (fun x => snd x) (vlines v') = [(10, 3, true)].
Proof. eexists. split; vm_compute; reflexivity. Qed.

(** C40: on a row showing a container [n] with visible content, collapse hides
    exactly what was visible inside [n]; expanding, whatever redraws there were in
    between, brings back the collapsed set, the selection staying in place. *)
Theorem C40_collapse_expand : forall root v i n,
  in_memory root -> vsel v = Some i -> In i (rows (vcoll v) root) -> In (i, n) (shown (nid root) root) ->
  inside (vcoll v) n <> [] ->
  exists v1, collapseSelection root v = Some (Redraw, v1) /\ vsel v1 = Some i /\ vcoll v1 = nid n :: vcoll v /\
    (exists pre post, rows (vcoll v) root = pre ++ i :: inside (vcoll v) n ++ post /\ rows (vcoll v1) root = pre ++ i :: post) /\
    forall w, vsel w = Some i -> vcoll w = vcoll v1 ->
      exists w1, expandSelection root w = Some (Redraw, w1) /\ vsel w1 = Some i /\ vcoll w1 = vcoll v.
Proof. intros root v i n M. exact (ShownProofs.fold_row root M v i n). Qed.
Print Assumptions C40_collapse_expand.

Example C40_example : exists n, In (2, n) (shown 1 doc) /\ inside [7] n = [4; 5] /\
  rows [7] doc = [1; 2; 4; 5; 6; 10] /\ rows [nid n; 7] doc = [1; 2; 6; 10].
Proof. eexists. split; [right; left; reflexivity|]. vm_compute. auto. Qed.

(** C41, full statement: [findNext (deep root) (elems root) i = Some (hd_error
    post)] where [rows [] root = pre ++ i :: inside [] n ++ post], for every row
    [i] showing [n]; false (C41_refuted).  Proved: the answer is that of the
    document cut down to the innermost object value around [i] (the whole
    document when there is none), and findPrev is the previous sibling. *)
Theorem C41_partial : forall root t i n,
  in_memory root -> In t (root :: entry_values root) -> In (i, n) (level t) ->
  exists pre post, inside [] t = pre ++ i :: inside [] n ++ post /\
    findNext (deep root) (elems root) i = Some (hd_error post).
Proof. intros root t i n M. exact (ShownProofs.findNext_level root M t i n). Qed.
Print Assumptions C41_partial.

Theorem C41_find_prev : forall root c i,
  in_memory root -> In (ENode c) (elems root) -> In i (map eid (children c)) ->
  exists before after, map eid (children c) = before ++ i :: after /\
    findPrev (elems root) i = Some (hd_error (rev before)).
Proof. exact DocumentProofs.find_prev. Qed.
Print Assumptions C41_find_prev.

Theorem C41_refuted : exists root i n pre post,
  in_memory root /\ In (i, n) (shown (nid root) root) /\ rows [] root = pre ++ i :: inside [] n ++ post /\
  post = [5] /\ findNext (deep root) (elems root) i = Some None.
Proof.
  exists (document 1 (TObj [(str "a", TArr [num 1]); (str "b", num 2)])), 4, (NPrim (mkMeta 4 (Some 3)) (PInt 1)), [1; 2], [5].
  split; [apply DocumentProofs.document_in_memory|]. split; [right; right; left; reflexivity|]. vm_compute. auto.
Qed.
Print Assumptions C41_refuted.

Example C41_example : exists t n m, In t (doc :: entry_values doc) /\ In (4, n) (level t) /\ In (6, m) (level doc) /\
  findNext (deep doc) (elems doc) 4 = Some (Some 5) /\ findNext (deep doc) (elems doc) 5 = Some None /\
  findNext (deep doc) (elems doc) 6 = Some (Some 10) /\ findPrev (elems doc) 6 = Some (Some 2).
Proof.
  eexists _, _, _. split; [right; left; reflexivity|]. split; [left; reflexivity|]. split; [right; left; reflexivity|]. vm_compute. auto.
Qed.

(** C43, full statement: the conclusion for every view [v] left by previous
    documents; false (C43_refuted).  Proved when that view has no search results
    and its collapsed set no address of the new document. *)
Theorem C43_partial : forall rx root sc v evs,
  (forall j, In j (ids root) -> ~ In j (vcoll v)) -> vres v = [] ->
  same_final root (run rx root sc v evs) (run rx root sc view0 evs).
Proof. exact DocumentProofs.fresh_run. Qed.
Print Assumptions C43_partial.

(** (1) n in the second document jumps to an element of the first, which has been
    deleted; (2) a container of the second document is collapsed because it has
    the address of one collapsed in the first. *)
Theorem C43_refuted :
  (exists d1 d2 sc evs, in_memory d1 /\ in_memory d2 /\ (forall j, In j (ids d1) -> ~ In j (ids d2)) /\
     session no_regex [d1; d2] sc view0 (look "x" :: key "Q" :: evs) = Undefined /\
     exists v, run no_regex d2 sc view0 evs = Waiting sc v false /\ vsel v = Some (nid d2)) /\
  (exists d1 d2 sc evs sc1 v1 v2, in_memory d1 /\ in_memory d2 /\
     session no_regex [d1; d2] sc view0 (key "J" :: key "H" :: key "Q" :: evs) = Waiting sc1 v1 false /\
     run no_regex d2 sc view0 evs = Waiting sc1 v2 false /\
     vcoll v1 = [nid d2] /\ vsel v1 = Some 2 /\ vcoll v2 = [] /\ vsel v2 = Some 3).
Proof.
  split.
  - exists tall, (document 100 (TArr [num 1])), (win 20 6), [key "N"]. split; [apply DocumentProofs.document_in_memory|]. split; [apply DocumentProofs.document_in_memory|]. split.
    + intros j I J. vm_compute in I, J. repeat (destruct I as [<-|I]; [repeat (destruct J as [J|J]; [discriminate J|]); destruct J|]). destruct I.
    + split; [vm_compute; reflexivity|]. eexists. split; [vm_compute; reflexivity|reflexivity].
  - eexists tall, (document 2 (TArr [num 1])), (win 20 6), [key "J"], _, _, _. split; [apply DocumentProofs.document_in_memory|]. split; [apply DocumentProofs.document_in_memory|].
    split; [vm_compute; reflexivity|]. split; [vm_compute; reflexivity|]. repeat split.
Qed.
Print Assumptions C43_refuted.

(** A first document folded elsewhere does not matter. *)
Example C43_example :
  (forall j, In j (ids doc) -> ~ In j [100; 200]) /\
  option_map vsel (view_of (run no_regex doc (win 20 6) (mkView (Some 100) 5 [100; 200] [] (Some 100) None true []) [key "J"; key "H"; key "J"]))
  = Some (Some 6).
Proof.
  split; [|vm_compute; reflexivity]. intros j I J. vm_compute in I. destruct J as [<-|[<-|[]]]; repeat (destruct I as [I|I]; [discriminate I|]); destruct I.
Qed.

(** C52, full statement: after SIGINT or SIGTERM the viewer leaves its loop;
    false (C52_refuted): it waits for one more key first.  Proved: that key is the
    last one evaluated: every key after it is left unread. *)
Theorem C52_partial : forall rx root sc v stop evs b k p t,
  no_key b ->
  wait rx root sc v stop (evs ++ EvStop :: b ++ EvKey k p :: t) = Undefined \/
  exists sc' v' c, wait rx root sc v stop (evs ++ EvStop :: b ++ EvKey k p :: t) = Ended sc' v' (c ++ t).
Proof. intros rx root sc v stop evs b k p t N. exact (ShownProofs.stop_run rx root evs sc v stop b k p t N). Qed.
Print Assumptions C52_partial.

Theorem C52_refuted : exists root sc v,
  in_memory root /\ run no_regex root sc view0 [EvStop] = Waiting sc v true /\
  (* and only the document on display is left *)
  exists v', session no_regex [root; root] sc view0 [EvStop; key "J"] = Waiting sc v' false.
Proof. exists doc, (win 20 6). eexists. split; [apply DocumentProofs.document_in_memory|]. split; [vm_compute; reflexivity|]. eexists. vm_compute. reflexivity. Qed.
Print Assumptions C52_refuted.

Example C52_example : exists sc v,
  run no_regex doc (win 20 6) view0 [key "J"; EvStop; EvSize 30 9; key "J"; key "K"; key "K"] = Ended sc v [key "K"; key "K"] /\ vsel v = Some 4.
Proof. eexists _, _. split; vm_compute; reflexivity. Qed.

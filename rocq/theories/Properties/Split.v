(** Two documents side by side: C55, C56, C59 to C64. *)
From Verif Require Import Spec.SplitSpec.
From Verif Require Proofs.SplitBase Proofs.SplitKeep Proofs.SplitMem Proofs.SplitKeys Proofs.SplitMarks Proofs.SplitSee Proofs.DocumentProofs.
From Coq Require Import Lia.
Open Scope Z_scope.

(** For the examples.  Addresses are given in document order. *)
Definition num (z : Z) : tree := TPrim (PInt z).
Definition txt (s : string) : tree := TPrim (PStr (str s)).
Definition key (s : string) : event := EvKey (str s) None.
Definition look (s : string) : event := EvKey (str "/") (Some (SearchPattern 0 (str s))).
Definition no_regex (a : bytes) (b : bool) (c : bytes) : bool := false.
Definition three (e : elem) : Z := 3.
(** [[0,0,0,0,0,0,"x"], "y"] *)
Definition tall (i : Z) : node := document i (TArr [TArr [num 0; num 0; num 0; num 0; num 0; num 0; txt "x"]; txt "y"]).
(** {"a": 1, "b": [1, "q"]} and {"a": 1, "b": [1, "q", "zz"], "c": 4} *)
Definition left_ : node := document 1 (TObj [(str "a", num 1); (str "b", TArr [num 1; txt "q"])]).
Definition right_ : node := document 21 (TObj [(str "a", num 1); (str "b", TArr [num 1; txt "q"; txt "zz"]); (str "c", num 4)]).
Definition after (a b : node) (w hh : Z) (evs : list event) : out ending := split_run no_regex 100 three w hh a b evs.
(** Active window, collapsed, selections. *)
Definition seen (r : out ending) : option (Z * list Z * list (option Z)) :=
  match r with Done e => Some (pact (end_split e), pcoll (end_split e), map wsel (pwins (end_split e))) | Bad _ => None end.

(** C55: the index of the active window is always one of the two windows, and
    subWindows.at never throws. *)
Theorem C55_index : forall rx f len w hh a b evs,
  split_run rx f len w hh a b evs <> Bad Range /\
  forall e, split_run rx f len w hh a b evs = Done e -> two_windows (end_split e).
Proof. exact SplitBase.run_two_windows. Qed.
Print Assumptions C55_index.

Example C55_index_example :
  seen (after left_ right_ 40 20 [key "^W-W"; key "^W-L"; key "^W-KEY_LEFT"; key "^W-W"; key "J"; key "J"; key "J"; key "J"; key "J"])
  = Some (1, [], [None; Some 28]).
Proof. vm_compute. reflexivity. Qed.

(** Down after a search that wrapped around to a result out of the window leaves
    the active window without selection, which the redraw dereferences. *)
Theorem C55_refuted : exists a b evs,
  in_memory a /\ in_memory b /\ NoDup (ids a ++ ids b) /\
  (exists sc p w, after a b 40 8 evs = Done (Waits sc p) /\ active p = Some w /\ wdown w = None) /\
  after a b 40 8 (evs ++ [key "J"]) = Bad Undef.
Proof.
  exists (tall 1), (tall 21), [key "J"; key "H"; key "J"; look "x"]. split; [apply DocumentProofs.document_in_memory|]. split; [apply DocumentProofs.document_in_memory|].
  split; [vm_compute; repeat constructor; cbn; intuition congruence|]. split; [|vm_compute; reflexivity].
  eexists _, _, _. split; [vm_compute; reflexivity|]. split; reflexivity.
Qed.
Print Assumptions C55_refuted.

(** C55, full statement: [active_on_row] and no undefined behaviour after every
    sequence of events.  Missing: sequences with the search keys, which break it.
    The conditions on sizes keep every number within unsigned int; [f] bounds the
    number of redraws after one event, which are therefore finitely many. *)
Theorem C55_partial : forall rx f len w hh a b m evs,
  in_memory a -> in_memory b ->
  all_containers (fun k => Z.of_nat k < 2 ^ 31) a -> all_containers (fun k => Z.of_nat k < 2 ^ 31) b ->
  NoDup (ids a ++ ids b) -> build a b = inl m ->
  (forall e, 0 <= len e) -> most_lines len a b < 2 ^ 32 -> 4 * (most_lines len a b + 2) < Z.of_nat f ->
  room w hh -> rooms evs -> unsearched evs ->
  exists e, split_run rx f len w hh a b evs = Done e /\ active_on_row (end_split e).
Proof. exact SplitKeys.run_ends. Qed.
Print Assumptions C55_partial.

(** Collapsing, resizing and changing windows; the conditions hold. *)
Example C55_partial_example :
  let evs := [key "J"; key "J"; key "H"; EvSize 20 6; key "^W-W"; key "KEY_PPAGE"; key "L"; key "KEY_NPAGE"] in
  (room 40 20 /\ rooms evs /\ unsearched evs /\ most_lines three left_ right_ = 1003) /\
  seen (split_run no_regex (Z.to_nat 4100) three 40 20 left_ right_ evs) = Some (1, [25; 5], [Some 4; Some 24]).
Proof.
  cbv zeta. split; [|vm_compute; reflexivity]. split; [split; lia|]. split; [|split; [|vm_compute; reflexivity]].
  - intros w hh I. cbn in I. repeat (destruct I as [I|I]; [try discriminate I|]); [|destruct I]. injection I as <- <-. split; lia.
  - intros k p I. unfold key in I. cbn [In] in I. repeat (destruct I as [I|I]; [first [discriminate I|injection I as <- _; split; discriminate]|]). destruct I.
Qed.

(** C56, full statement: [active_at_home] after every sequence.  A text found
    only in the other document is selected in the active window. *)
Theorem C56_refuted : exists a b evs e,
  in_memory a /\ in_memory b /\ NoDup (ids a ++ ids b) /\
  after a b 40 20 evs = Done e /\ ~ active_at_home (end_split e).
Proof.
  exists left_, right_, [look "zz"]. eexists. split; [apply DocumentProofs.document_in_memory|]. split; [apply DocumentProofs.document_in_memory|].
  split; [vm_compute; repeat constructor; cbn; intuition congruence|]. split; [vm_compute; reflexivity|].
  intros H. specialize (H _ 28 eq_refl eq_refl). vm_compute in H. intuition discriminate.
Qed.
Print Assumptions C56_refuted.

(** Missing: sequences with the search keys. *)
Theorem C56_partial : forall rx f len w hh a b m evs,
  in_memory a -> in_memory b ->
  all_containers (fun k => Z.of_nat k < 2 ^ 31) a -> all_containers (fun k => Z.of_nat k < 2 ^ 31) b ->
  NoDup (ids a ++ ids b) -> build a b = inl m ->
  (forall e, 0 <= len e) -> most_lines len a b < 2 ^ 32 -> 4 * (most_lines len a b + 2) < Z.of_nat f ->
  room w hh -> rooms evs -> unsearched evs ->
  exists e, split_run rx f len w hh a b evs = Done e /\ map wroot (pwins (end_split e)) = [a; b] /\
    forall v i, In v (pwins (end_split e)) -> wsel v = Some i -> In i (ids (wroot v)).
Proof. exact SplitKeys.run_home. Qed.
Print Assumptions C56_partial.

Example C56_partial_example : seen (after left_ right_ 40 20 [key "^W-W"; key "J"; key "J"]) = Some (1, [], [Some 4; Some 24]) /\ In 24 (ids right_) /\ ~ In 24 (ids left_).
Proof. split; [vm_compute; reflexivity|]. split; [vm_compute; tauto|]. vm_compute. intuition discriminate. Qed.

(** C59: whatever happens, the inactive window selects the counterpart of the
    selection of the active window. *)
Theorem C59_mirrored : forall rx f len w hh a b m evs e,
  all_containers (fun k => Z.of_nat k < 2 ^ 31) a -> all_containers (fun k => Z.of_nat k < 2 ^ 31) b ->
  NoDup (ids a ++ ids b) -> build a b = inl m ->
  split_run rx f len w hh a b evs = Done e -> mirrored m (end_split e).
Proof. exact SplitMem.always_mirrored. Qed.
Print Assumptions C59_mirrored.

Example C59_example : exists m, build left_ right_ = inl m /\
  seen (after left_ right_ 40 20 [key "J"; key "J"; key "^W-W"; key "J"; key "J"]) = Some (1, [], [Some 7; Some 27]) /\
  getEquivalence m 27 = Some 7.
Proof. eexists. split; [vm_compute; reflexivity|]. split; vm_compute; reflexivity. Qed.

(** C60, full statement: [folds_agree] after every sequence.  A search unfolds
    the containers around its result and not their counterparts. *)
Theorem C60_refuted : exists a b m evs e,
  in_memory a /\ in_memory b /\ NoDup (ids a ++ ids b) /\ build a b = inl m /\
  after a b 40 8 evs = Done e /\ ~ folds_agree m (end_split e).
Proof.
  exists (tall 1), (tall 21). eexists. exists [key "J"; key "H"; key "J"; look "x"]. eexists.
  split; [apply DocumentProofs.document_in_memory|]. split; [apply DocumentProofs.document_in_memory|].
  split; [vm_compute; repeat constructor; cbn; intuition congruence|]. split; [vm_compute; reflexivity|]. split; [vm_compute; reflexivity|].
  intros H. specialize (H 2 22 eq_refl). vm_compute in H. intuition discriminate.
Qed.
Print Assumptions C60_refuted.

(** Missing: sequences with the search keys. *)
Theorem C60_partial : forall rx f len w hh a b m evs,
  in_memory a -> in_memory b ->
  all_containers (fun k => Z.of_nat k < 2 ^ 31) a -> all_containers (fun k => Z.of_nat k < 2 ^ 31) b ->
  NoDup (ids a ++ ids b) -> build a b = inl m ->
  (forall e, 0 <= len e) -> most_lines len a b < 2 ^ 32 -> 4 * (most_lines len a b + 2) < Z.of_nat f ->
  room w hh -> rooms evs -> unsearched evs ->
  exists e, split_run rx f len w hh a b evs = Done e /\ folds_agree m (end_split e).
Proof. exact SplitKeys.run_folds. Qed.
Print Assumptions C60_partial.

Example C60_partial_example : exists m, build left_ right_ = inl m /\
  seen (after left_ right_ 40 20 [key "^W-W"; key "J"; key "J"; key "H"]) = Some (1, [5; 25], [Some 4; Some 24]) /\
  getEquivalence m 25 = Some 5.
Proof. eexists. split; [vm_compute; reflexivity|]. split; vm_compute; reflexivity. Qed.

(** C64: from any state whose selections are rows on display, whatever the
    pairing, redrawing until nothing is missing ends, and finds for both windows
    the rows that Up and Down go to. *)
Theorem C64_redraw_ends : forall a b dm sc f p w0 w1,
  in_memory a -> in_memory b -> NoDup (ids a ++ ids b) ->
  5 <= sw sc < 2 ^ 32 -> 2 <= sh sc < 2 ^ 32 ->
  (forall e, 0 <= slen sc e) -> most_lines (slen sc) a b < 2 ^ 32 -> 4 * (most_lines (slen sc) a b + 2) < Z.of_nat f ->
  pwins p = [w0; w1] -> at_rows a (pcoll p) w0 -> at_rows b (pcoll p) w1 ->
  exists p' v0 v1, redraws (split_memory a b) dm f sc p = Done p' /\ pwins p' = [v0; v1] /\
    aimed a (pcoll p) v0 /\ aimed b (pcoll p) v1.
Proof. exact SplitKeys.redraw_ends. Qed.
Print Assumptions C64_redraw_ends.

(** Two redraws are needed to bring the last row into a window of three lines;
    the state is one the conditions allow. *)
Example C64_example :
  let w r s := mkWin r (Some s) (Some s) None None [] 0 0 0 [] false [] [] [] in
  let p := mkSplit [w (tall 1) 10; w (tall 21) 30] 0 [] in
  exists m p', build (tall 1) (tall 21) = inl m /\ at_rows (tall 1) [] (w (tall 1) 10) /\ at_rows (tall 21) [] (w (tall 21) 30) /\
  redraws (split_memory (tall 1) (tall 21)) m 100 (mkScreen 20 3 three) p = Done p' /\
  map wscroll (pwins p') = [9; 9] /\ map wup (pwins p') = [Some 9; Some 29].
Proof.
  eexists _, _. split; [vm_compute; reflexivity|].
  split; [repeat split; [eexists; split; [reflexivity|vm_compute; tauto]|intros i [= <-]; vm_compute; tauto|discriminate]|].
  split; [repeat split; [eexists; split; [reflexivity|vm_compute; tauto]|intros i [= <-]; vm_compute; tauto|discriminate]|].
  split; [vm_compute; reflexivity|]. split; vm_compute; reflexivity.
Qed.

(** ["a","b","c","d","e","f",1] and [1] *)
Definition seven (i : Z) : node := document i (TArr [txt "a"; txt "b"; txt "c"; txt "d"; txt "e"; txt "f"; num 1]).
Definition one (i : Z) : node := document i (TArr [num 1]).

(** C61, full statement: [level] after every sequence.  Not even at the start: an
    empty array takes two lines, the number it is paired with one, and nothing
    fills the line: what follows is not level any more. *)
Theorem C61_refuted : exists a b m e,
  in_memory a /\ in_memory b /\ NoDup (ids a ++ ids b) /\ build a b = inl m /\
  after a b 40 20 [] = Done e /\ map wscroll (pwins (end_split e)) = [0; 0] /\ ~ level m (end_split e).
Proof.
  exists (document 1 (TArr [TArr []; num 1; num 2; num 3])), (document 21 (TArr [num 5; num 1; num 2; num 3])). eexists. eexists.
  split; [apply DocumentProofs.document_in_memory|]. split; [apply DocumentProofs.document_in_memory|].
  split; [vm_compute; repeat constructor; cbn; intuition congruence|]. split; [vm_compute; reflexivity|]. split; [vm_compute; reflexivity|]. split; [reflexivity|].
  intros H. specialize (H _ _ 3 23 4 3 eq_refl eq_refl). vm_compute in H. intuition discriminate.
Qed.
Print Assumptions C61_refuted.

(** C62, full statement: after every sequence of events [marks_in_place] for both
    windows.  The marks of texts are put on the line they would have without
    scrolling. *)
Theorem C62_refuted : exists a b m evs e w,
  in_memory a /\ in_memory b /\ NoDup (ids a ++ ids b) /\ build a b = inl m /\
  after a b 40 8 evs = Done e /\ In w (pwins (end_split e)) /\ ~ marks_in_place m w.
Proof.
  exists (seven 1), (one 21). eexists. exists [key "^W-W"; key "J"]. eexists. eexists.
  split; [apply DocumentProofs.document_in_memory|]. split; [apply DocumentProofs.document_in_memory|].
  split; [vm_compute; repeat constructor; cbn; intuition congruence|]. split; [vm_compute; reflexivity|]. split; [vm_compute; reflexivity|]. split; [left; reflexivity|].
  intros H. specialize (H 5 false 5). vm_compute in H. intuition discriminate.
Qed.
Print Assumptions C62_refuted.

(** Missing: windows that are scrolled. *)
Theorem C62_partial : forall h sc coll dm ws b vs,
  redraw_all h sc coll dm ws = Done (b, vs) ->
  Forall2 (fun w v => wscroll w = 0 -> wscroll v = 0 -> marks_in_place dm v) ws vs.
Proof. exact SplitMarks.redraw_marked. Qed.
Print Assumptions C62_partial.

Example C62_partial_example : exists m vs,
  build (seven 1) (one 21) = inl m /\
  redraw_all (split_memory (seven 1) (one 21)) (mkScreen 20 12 three) [] m [new_win (seven 1); new_win (one 21)] = Done (true, vs) /\
  map wscroll vs = [0; 0] /\ map wmarks vs = [[(7, OAdd); (6, OAdd); (5, OAdd); (4, OAdd); (3, OAdd); (2, OAdd)]; [(7, ORem); (6, ORem); (5, ORem); (4, ORem); (3, ORem); (2, ORem)]] /\
  shown_op m 3 = OAdd.
Proof. eexists _, _. split; [vm_compute; reflexivity|]. split; [vm_compute; reflexivity|]. split; [reflexivity|]. split; reflexivity. Qed.

(** C63, full statement: after every sequence of events the selection of the
    active window is drawn [in_window].  What only the other document has moves it
    out at the bottom, and scrollTop of the window does not change. *)
Theorem C63_refuted : exists a b evs e w l,
  in_memory a /\ in_memory b /\ NoDup (ids a ++ ids b) /\
  after a b 40 8 evs = Done e /\ active (end_split e) = Some w /\ wsel w = Some l /\ sh (end_screen e) = 6 /\ In (l, false, 8) (wlog w) /\ wscroll w = 0 /\
  ~ in_window (end_screen e) w l.
Proof.
  exists (one 21), (seven 1), [key "J"]. eexists. eexists. exists 22.
  split; [apply DocumentProofs.document_in_memory|]. split; [apply DocumentProofs.document_in_memory|].
  split; [vm_compute; repeat constructor; cbn; intuition congruence|]. split; [vm_compute; reflexivity|]. split; [reflexivity|]. split; [reflexivity|]. split; [reflexivity|].
  split; [left; reflexivity|]. split; [reflexivity|].
  intros (y & I & B). cbn in I. cbn in B. intuition (try discriminate). injection H1 as <-. lia.
Qed.
Print Assumptions C63_refuted.

(** Missing: the bottom of the window.  The selection, or the last one where
    nothing is selected, is drawn and is not above the window. *)
Theorem C63_partial : forall h sc coll dm ws vs ls,
  redraw_all h sc coll dm ws = Done (true, vs) ->
  Forall2 (fun l w => wlast w = Some l /\ In l (rows coll (wroot w))) ls ws ->
  Forall2 (fun l v => drawn_below_top v l) ls vs.
Proof. exact SplitSee.redraw_sees. Qed.
Print Assumptions C63_partial.

(** A window scrolled by 6 lines selects the first row: it is scrolled back. *)
Example C63_partial_example : exists m vs,
  let w r s := mkWin r (Some s) (Some s) None None [] 6 0 0 [] false [] [] [] in
  build (tall 1) (tall 21) = inl m /\
  redraw_all (split_memory (tall 1) (tall 21)) (mkScreen 20 5 three) [] m [w (tall 1) 2; w (tall 21) 22] = Done (true, vs) /\
  map wscroll vs = [1; 1] /\ In (2, false, 2) (wlog (hd (new_win (one 1)) vs)).
Proof. eexists _, _. cbv zeta. split; [vm_compute; reflexivity|]. split; [vm_compute; reflexivity|]. split; [reflexivity|]. cbn. tauto. Qed.

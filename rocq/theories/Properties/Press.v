(** What each key does in the view of one document: C65. *)
From Verif Require Import Model.SimpleView Spec.ViewSpec Spec.ViewerSpec.
From Verif Require Proofs.PressProofs.
From Verif Require Import Properties.View.
From Coq Require Import Lia.
Open Scope Z_scope.

(** Full statement: Up, Down, PageUp, PageDown, Right, Left, / and q, pressed when the
    viewer waits for a key ([at_rest]), do what follows, Down always leading to the
    row below, Right to the first row inside; false of Down (C65_down_refuted) and
    Right (C65_right_refuted).  Proved: everything else, Down and Right as far as the
    rows below are drawn. *)

(** The viewer is at rest whenever it waits, as long as no search is made; the row
    selected is then on a line of the window. *)
Theorem C65_rest : forall rx root sc evs, in_memory root -> roomy root sc -> wide evs -> unsearched evs ->
  match run rx root sc view0 evs with
  | Waiting sc' v' _ => roomy root sc' /\ at_rest root sc' v'
  | Ended _ _ _ => True
  | Undefined => False
  end.
Proof. intros rx root sc evs M. exact (PressProofs.run_rest rx root M evs sc). Qed.
Print Assumptions C65_rest.

Theorem C65_on_screen : forall root sc v i, in_memory root -> at_rest root sc v -> vsel v = Some i -> 2 <= sh sc < 2 ^ 32 ->
  exists line, In (i, line, true) (vlines v) /\ 1 <= line <= sh sc - 1.
Proof. intros root sc v i M. exact (PressProofs.rest_shown root sc M v i). Qed.
Print Assumptions C65_on_screen.

Theorem C65_up : forall rx root sc k v pre i post, in_memory root -> roomy root sc -> at_rest root sc v -> stands root v pre i post ->
  k = "K"%string \/ k = "KEY_UP"%string ->
  exists v', pressing rx root sc k v v' /\ vcoll v' = vcoll v /\ vsel v' = Some (match rev pre with u :: _ => u | [] => i end).
Proof. intros rx root sc k v pre i post M R. exact (PressProofs.press_up rx root sc M R k v pre i post). Qed.
Print Assumptions C65_up.

Theorem C65_down_partial : forall rx root sc k v pre i post, in_memory root -> roomy root sc -> at_rest root sc v -> stands root v pre i post ->
  k = "J"%string \/ k = "KEY_DOWN"%string ->
  exists v', pressing rx root sc k v v' /\ vcoll v' = vcoll v /\
    (vsel v' = Some (match post with d :: _ => d | [] => i end) \/
     vsel v' = Some i /\ forall r line b, In (r, line, b) (vlines v) -> ~ In r post).
Proof. intros rx root sc k v pre i post M R. exact (PressProofs.press_down rx root sc M R k v pre i post). Qed.
Print Assumptions C65_down_partial.

Theorem C65_page_up : forall rx root sc v, in_memory root -> roomy root sc -> at_rest root sc v ->
  (forall r before i, vsel v = Some i -> held_by root r before i ->
     exists v', pressing rx root sc "KEY_PPAGE" v v' /\ vcoll v' = vcoll v /\ vsel v' = Some (match rev before with s :: _ => s | [] => r end)) /\
  (vsel v = Some (nid root) -> pressing rx root sc "KEY_PPAGE" v v).
Proof.
  intros rx root sc v M R A. split; [intros r before i S; exact (PressProofs.press_page_up rx root sc M R v r before i A S)|].
  intros S. exact (PressProofs.press_page_up_root rx root sc M v A S).
Qed.
Print Assumptions C65_page_up.

(** Up to the end of the innermost entry the row is in (see C41). *)
Theorem C65_page_down : forall rx root sc v, in_memory root -> roomy root sc -> at_rest root sc v ->
  (forall t i n, vsel v = Some i -> In t (root :: entry_values root) -> In (i, n) (level t) ->
     exists pre post v', inside [] t = pre ++ i :: inside [] n ++ post /\ pressing rx root sc "KEY_NPAGE" v v' /\ vcoll v' = vcoll v /\
       match post with s :: _ => vsel v' = Some s | [] => v' = v end) /\
  (vsel v = Some (nid root) -> pressing rx root sc "KEY_NPAGE" v v).
Proof.
  intros rx root sc v M R A. split; [intros t i n S; exact (PressProofs.press_page_down rx root sc M R v t i n A S)|].
  intros S. exact (PressProofs.press_page_down_root rx root sc M R v A S).
Qed.
Print Assumptions C65_page_down.

Theorem C65_left : forall rx root sc k v i n, in_memory root -> roomy root sc -> at_rest root sc v ->
  vsel v = Some i -> In (i, n) (shown (nid root) root) -> k = "H"%string \/ k = "KEY_LEFT"%string ->
  (inside (vcoll v) n <> [] ->
     exists v' pre post, pressing rx root sc k v v' /\ vsel v' = Some i /\ (forall j, In j (vcoll v') <-> j = nid n \/ In j (vcoll v)) /\
       rows (vcoll v) root = pre ++ i :: inside (vcoll v) n ++ post /\ rows (vcoll v') root = pre ++ i :: post) /\
  (inside (vcoll v) n = [] -> forall r before, held_by root r before i ->
     exists v', pressing rx root sc k v v' /\ vcoll v' = vcoll v /\ vsel v' = Some r) /\
  (inside (vcoll v) n = [] -> n = root ->
     exists v', pressing rx root sc k v v' /\ vsel v' = Some i /\ rows (vcoll v') root = [i]).
Proof.
  intros rx root sc k v i n M R A S SH K. split; [intros NE; exact (PressProofs.press_fold rx root sc M R k v i n A S SH NE K)|].
  split; [intros IE r before HB; exact (PressProofs.press_leave rx root sc M R k v r before i n A S HB SH IE K)|].
  intros IE ->. exact (PressProofs.press_left_root rx root sc M R k v i A S SH IE K).
Qed.
Print Assumptions C65_left.

Theorem C65_right_partial : forall rx root sc k v i n, in_memory root -> roomy root sc -> at_rest root sc v ->
  vsel v = Some i -> In (i, n) (shown (nid root) root) -> k = "L"%string \/ k = "KEY_RIGHT"%string ->
  (is_container n = true -> In (nid n) (vcoll v) ->
     exists v' pre post, pressing rx root sc k v v' /\ vsel v' = Some i /\ (forall j, In j (vcoll v') <-> j <> nid n /\ In j (vcoll v)) /\
       rows (vcoll v) root = pre ++ i :: post /\ rows (vcoll v') root = pre ++ i :: inside (vcoll v') n ++ post) /\
  (members n = [] -> ~ In (nid n) (vcoll v) -> pressing rx root sc k v v) /\
  (forall c l, members n = c :: l -> ~ In (nid n) (vcoll v) ->
     exists v', pressing rx root sc k v v' /\ vcoll v' = vcoll v /\
       (vsel v' = Some c \/
        i <> nid n /\ forall r line b, In (r, line, b) (vlines v) -> ~ In r (rows_after i (rows (vcoll v) root)))).
Proof.
  intros rx root sc k v i n M R A S SH K. split; [intros IC IN; exact (PressProofs.press_unfold rx root sc M R k v i n A S SH IC IN K)|].
  split; [intros ME NC; exact (PressProofs.press_right_scalar rx root sc M k v i n A S SH ME NC K)|].
  intros c l ME NC. exact (PressProofs.press_right rx root sc M R k v i n c l A S SH ME NC K).
Qed.
Print Assumptions C65_right_partial.

Theorem C65_others : forall rx root sc v i, in_memory root -> roomy root sc -> at_rest root sc v -> vsel v = Some i ->
  (forall p t, wait rx root sc v false (EvKey (str "Q") p :: t) = Ended sc v t) /\
  (forall k p, ~ In k (map str ["Q"; "K"; "KEY_UP"; "J"; "KEY_DOWN"; "KEY_PPAGE"; "KEY_NPAGE"; "L"; "KEY_RIGHT"; "H"; "KEY_LEFT"; "/"; "N"]%string) ->
     wait rx root sc v false [EvKey k p] = Waiting sc v false) /\
  (* nothing typed, or the prompt left *)
  (forall p, isEmpty p = true ->
     exists v', wait rx root sc v false [EvKey (str "/") (Some p)] = Waiting sc v' false /\ at_rest root sc v' /\ vsel v' = Some i /\ vcoll v' = vcoll v /\ vres v' = []) /\
  (exists v', wait rx root sc v false [EvKey (str "/") None] = Waiting sc v' false /\ at_rest root sc v' /\ vsel v' = Some i /\ vcoll v' = vcoll v /\ vres v' = vres v) /\
  (forall w hh, 3 <= w < 2 ^ 32 ->
     exists v', wait rx root sc v false [EvSize w hh] = Waiting (mkScreen w hh (slen sc)) v' false /\ at_rest root (mkScreen w hh (slen sc)) v' /\
       vsel v' = Some i /\ vcoll v' = vcoll v /\ vres v' = vres v).
Proof.
  intros rx root sc v i M R A S. split; [intros p t; exact (PressProofs.press_quit rx root sc v p t)|].
  split; [intros k p; exact (PressProofs.press_other rx root sc k v p)|].
  split; [intros p; exact (PressProofs.press_clear rx root sc M R v i p A S)|].
  split; [exact (PressProofs.press_cancel rx root sc M R v i A S)|].
  intros w hh W. exact (PressProofs.press_size rx root M sc v i w hh R W A S).
Qed.
Print Assumptions C65_others.

(** [[[[[[[[1]]]]]]], 2]: rows 1 to 10.  In a window of 6 lines the brackets closing
    after row 9 leave no line for row 10: Down never gets there. *)
Definition nested : node := document 1 (TArr [TArr [TArr [TArr [TArr [TArr [TArr [TArr [num 1]]]]]]]; num 2]).
Theorem C65_down_refuted : exists v, roomy nested (win 80 6) /\ at_rest nested (win 80 6) v /\
  stands nested v [1; 2; 3; 4; 5; 6; 7; 8] 9 [10] /\
  forall k, wait no_regex nested (win 80 6) v false (repeat (key "J") k) = Waiting (win 80 6) v false.
Proof.
  pose (v := mkView (Some 9) 8 [] [] (Some 8) (Some 10) true [(5, 5, false); (6, 4, false); (7, 3, false); (8, 2, false); (9, 1, true)]).
  exists v. split; [apply roomy_win; [cbn; lia|vm_compute; reflexivity]|]. split; [|split; [split; reflexivity|]].
  - exists v. split; [vm_compute; reflexivity|]. split; [exists 9; split; [reflexivity|vm_compute; tauto]|]. split; [vm_compute; discriminate|intros ? []].
  - assert (E : forall l, wait no_regex nested (win 80 6) v false (key "J" :: l) = wait no_regex nested (win 80 6) v false l).
    { intros l. cbn [wait key]. replace (evalKey nested no_regex (win 80 6) (str "J") None v) with (Some (Redraw, set_scroll v 10)) by (vm_compute; reflexivity).
      replace (redraw_loop nested (fuel_of nested) (win 80 6) (set_scroll v 10)) with (Some v) by (vm_compute; reflexivity). reflexivity. }
    induction k as [|k IH]; [reflexivity|]. cbn [repeat]. rewrite E. exact IH.
Qed.
Print Assumptions C65_down_refuted.

(** {"a": [1, 2], "b": 2}: rows 1, 2 (a), 4, 5, 6 (b).  With row 2 on the last line
    of the window, Right goes past the contents of "a". *)
Definition pair_doc : node := document 1 (TObj [(str "a", TArr [num 1; num 2]); (str "b", num 2)]).
Theorem C65_right_refuted : exists v v' n, roomy pair_doc (win 80 3) /\ at_rest pair_doc (win 80 3) v /\ vsel v = Some 2 /\
  In (2, n) (shown (nid pair_doc) pair_doc) /\ members n = [4; 5] /\ vcoll v = [] /\
  wait no_regex pair_doc (win 80 3) v false [key "L"] = Waiting (win 80 3) v' false /\ vsel v' = Some 6.
Proof.
  pose (v := mkView (Some 2) 0 [] [] (Some 1) (Some 6) true [(2, 2, true); (1, 1, false)]).
  exists v. eexists _, _. split; [apply roomy_win; [cbn; lia|vm_compute; reflexivity]|]. split.
  - exists v. split; [vm_compute; reflexivity|]. split; [exists 2; split; [reflexivity|vm_compute; tauto]|]. split; [vm_compute; discriminate|intros ? []].
  - split; [reflexivity|]. split; [right; left; reflexivity|]. split; [reflexivity|]. split; [reflexivity|]. split; vm_compute; reflexivity.
Qed.
Print Assumptions C65_right_refuted.

(** {"a": [1, "x"], "b": {"x": 2}, "c": "x"}: rows 1, 2 (a), 4, 5, 6 (b), 8 (x), 10 (c).
    In a window of 7 lines, after J J J: row 5 selected; then each key (Down scrolls first). *)
Definition after_keys (l : list string) : option (option Z * list Z) :=
  option_map (fun v => (vsel v, vcoll v)) (view_of (run no_regex doc (win 20 7) view0 (map key l))).
Example C65_example : exists v, run no_regex doc (win 20 7) view0 (map key ["J"; "J"; "J"]%string) = Waiting (win 20 7) v false /\
  at_rest doc (win 20 7) v /\ stands doc v [1; 2; 4] 5 [6; 8; 10] /\ held_by doc 2 [4] 5 /\
  map after_keys [["J"; "J"; "J"; "K"]; ["J"; "J"; "J"; "KEY_DOWN"; "J"]; ["J"; "J"; "J"; "KEY_PPAGE"]; ["J"; "J"; "J"; "KEY_LEFT"]; ["J"; "J"; "J"; "KEY_LEFT"; "H"];
    ["J"; "J"; "J"; "KEY_LEFT"; "H"; "L"]; ["J"; "J"; "J"; "KEY_LEFT"; "L"]; ["J"; "J"; "J"; "KEY_LEFT"; "KEY_NPAGE"]; ["J"; "J"; "J"; "L"]; ["J"; "J"; "J"; "X"]]%string
  = map Some [(Some 4, []); (Some 6, []); (Some 4, []); (Some 2, []); (Some 2, [3]); (Some 2, []); (Some 4, []); (Some 6, []); (Some 5, []); (Some 5, [])].
Proof.
  assert (R := C65_rest no_regex doc (win 20 7) (map key ["J"; "J"; "J"]%string) (DocumentProofs.document_in_memory _ _) ltac:(apply roomy_win; [cbn; lia|vm_compute; reflexivity])
    ltac:(intros w hh I; cbn in I; repeat (destruct I as [[=]|I]); destruct I)
    ltac:(intros k p I; cbn in I; repeat (destruct I as [[= <- <-]|I]; [split; discriminate|]); destruct I)).
  destruct (run no_regex doc (win 20 7) view0 (map key ["J"; "J"; "J"]%string)) as [sc v stop| |] eqn:E; [|vm_compute in E; discriminate E|destruct R].
  assert (E' := E). vm_compute in E'. injection E' as Q1 Q2 Q3. subst stop. assert (sc = win 20 7) by (symmetry; exact Q1). subst sc.
  exists v. split; [reflexivity|]. split; [apply R|]. split; [rewrite <- Q2; split; reflexivity|]. split; [|vm_compute; reflexivity].
  eexists _, _. split; [right; left; reflexivity|reflexivity].
Qed.

(** What each key does in the comparison of two documents: C66. *)
From Verif Require Import Spec.SplitSpec.
From Verif Require Proofs.SplitPress Proofs.DocumentProofs.
From Verif Require Import Properties.Split.
From Coq Require Import Lia.
Open Scope Z_scope.

(** Full statement: each key, pressed when the comparison waits ([compares]), does in
    the active window what it does in the view of one document (C65), the other
    window following; Down always leading to the row below.  False of Down, which
    may stay (C66_down_refuted) or pass over rows (C66_skip_refuted), and so of
    Right.  Proved: everything else, Down and Right as far as the rows below are
    drawn. *)

(** The comparison rests whenever it waits, as long as no search is made. *)
Theorem C66_rest : forall rx f a b m len w hh evs, comparable a b m len f -> room w hh -> rooms evs -> unsearched evs ->
  match split_run rx f len w hh a b evs with
  | Done (Waits sc p) => roomy_windows sc /\ slen sc = len /\ compares a b m sc p
  | Done (Ends _ _) => True
  | Bad _ => False
  end.
Proof. exact SplitPress.run_compares. Qed.
Print Assumptions C66_rest.

(** A window draws its rows in order from the first one, without a gap. *)
Theorem C66_in_order : forall f a b m len sc p w, comparable a b m len f -> slen sc = len -> compares a b m sc p -> In w (pwins p) ->
  exists rest, rows (pcoll p) (wroot w) =
    rev (map (fun x => fst (fst x)) (filter (fun x => negb (snd (fst x)) && existsb (Z.eqb (fst (fst x))) (rows (pcoll p) (wroot w))) (wlog w))) ++ rest.
Proof. exact SplitPress.in_order. Qed.
Print Assumptions C66_in_order.

Theorem C66_up : forall rx f a b m len sc k p w pre i post, comparable a b m len f -> roomy_windows sc -> slen sc = len ->
  compares a b m sc p -> chosen p w pre i post -> k = "K"%string \/ k = "KEY_UP"%string ->
  exists p', presses rx f a b m sc k p p' /\ selects p p' (hd i (rev pre)).
Proof. intros rx f a b m len sc k p w pre i post OK G L. exact (SplitPress.press_up rx f a b m len sc OK G L k p w pre i post). Qed.
Print Assumptions C66_up.

Theorem C66_down_partial : forall rx f a b m len sc k p w pre i post, comparable a b m len f -> roomy_windows sc -> slen sc = len ->
  compares a b m sc p -> chosen p w pre i post -> k = "J"%string \/ k = "KEY_DOWN"%string ->
  exists p' s, presses rx f a b m sc k p p' /\ selects p p' s /\
    (s = hd i post \/ undrawn w post /\ (s = i \/ In s post) /\ forall n, nid n = i -> In (ENode n) (elems (wroot w)) -> inside (pcoll p) n = []).
Proof. intros rx f a b m len sc k p w pre i post OK G L. exact (SplitPress.press_down rx f a b m len sc OK G L k p w pre i post). Qed.
Print Assumptions C66_down_partial.

Theorem C66_page_up : forall rx f a b m len sc p w, comparable a b m len f -> roomy_windows sc -> slen sc = len -> compares a b m sc p -> active p = Some w ->
  (forall r before i, wsel w = Some i -> held_by (wroot w) r before i ->
     exists p', presses rx f a b m sc "KEY_PPAGE" p p' /\ selects p p' (match rev before with s :: _ => s | [] => r end)) /\
  (wsel w = Some (nid (wroot w)) -> presses rx f a b m sc "KEY_PPAGE" p p).
Proof.
  intros rx f a b m len sc p w OK G L C A. split; [intros r before i S H; exact (SplitPress.press_page_up rx f a b m len sc OK G L p w r before i C A S H)|].
  intros S. exact (SplitPress.press_page_up_root rx f a b m len sc OK p w C A S).
Qed.
Print Assumptions C66_page_up.

(** Up to the end of the innermost entry the row is in (see C41). *)
Theorem C66_page_down : forall rx f a b m len sc p w, comparable a b m len f -> roomy_windows sc -> slen sc = len -> compares a b m sc p -> active p = Some w ->
  (forall t i n, wsel w = Some i -> In t (wroot w :: entry_values (wroot w)) -> In (i, n) (ViewSpec.level t) ->
     exists pre post p', inside [] t = pre ++ i :: inside [] n ++ post /\ presses rx f a b m sc "KEY_NPAGE" p p' /\
       match post with s :: _ => selects p p' s | [] => p' = p end) /\
  (wsel w = Some (nid (wroot w)) -> presses rx f a b m sc "KEY_NPAGE" p p).
Proof.
  intros rx f a b m len sc p w OK G L C A. split; [intros t i n S; exact (SplitPress.press_page_down rx f a b m len sc OK G L p w t i n C A S)|].
  intros S. exact (SplitPress.press_page_down_root rx f a b m len sc OK p w C A S).
Qed.
Print Assumptions C66_page_down.

(** Folding takes the counterpart along. *)
Theorem C66_left : forall rx f a b m len sc k p w i n, comparable a b m len f -> roomy_windows sc -> slen sc = len -> compares a b m sc p ->
  active p = Some w -> wsel w = Some i -> In (i, n) (shown (nid (wroot w)) (wroot w)) -> k = "H"%string \/ k = "KEY_LEFT"%string ->
  (inside (pcoll p) n <> [] ->
     exists p' pre post, presses rx f a b m sc k p p' /\ same_selections p p' /\
       (forall j, In j (pcoll p') <-> j = nid n \/ getEquivalence m (nid n) = Some j \/ In j (pcoll p)) /\
       rows (pcoll p) (wroot w) = pre ++ i :: inside (pcoll p) n ++ post /\ rows (pcoll p') (wroot w) = pre ++ i :: post) /\
  (inside (pcoll p) n = [] -> forall r before, held_by (wroot w) r before i ->
     exists p', presses rx f a b m sc k p p' /\ selects p p' r).
Proof.
  intros rx f a b m len sc k p w i n OK G L C A S SH K. split; [intros NE; exact (SplitPress.press_fold rx f a b m len sc OK G L k p w i n C A S SH NE K)|].
  intros IE r before HB. exact (SplitPress.press_leave rx f a b m len sc OK G L k p w r before i n C A S HB SH IE K).
Qed.
Print Assumptions C66_left.

Theorem C66_right_partial : forall rx f a b m len sc k p w pre i post n, comparable a b m len f -> roomy_windows sc -> slen sc = len -> compares a b m sc p ->
  chosen p w pre i post -> In (i, n) (shown (nid (wroot w)) (wroot w)) -> k = "L"%string \/ k = "KEY_RIGHT"%string ->
  (is_container n = true -> In (nid n) (pcoll p) ->
     exists p' pre post, presses rx f a b m sc k p p' /\ same_selections p p' /\
       (forall j, In j (pcoll p') <-> j <> nid n /\ getEquivalence m (nid n) <> Some j /\ In j (pcoll p)) /\
       rows (pcoll p) (wroot w) = pre ++ i :: post /\ rows (pcoll p') (wroot w) = pre ++ i :: inside (pcoll p') n ++ post) /\
  (members n = [] -> ~ In (nid n) (pcoll p) -> presses rx f a b m sc k p p) /\
  (members n <> [] -> ~ In (nid n) (pcoll p) ->
     exists p' s, presses rx f a b m sc k p p' /\ selects p p' s /\ (hd_error (members n) = Some s \/ i <> nid n /\ undrawn w post)).
Proof.
  intros rx f a b m len sc k p w pre i post n OK G L C H SH K. split; [intros IC IN; destruct H as (A & S & _); exact (SplitPress.press_unfold rx f a b m len sc OK G L k p w i n C A S SH IC IN K)|].
  split; [intros ME NC; destruct H as (A & S & _); exact (SplitPress.press_right_scalar rx f a b m len sc OK k p w i n C A S SH ME NC K)|].
  intros ME NC. exact (SplitPress.press_right rx f a b m len sc OK G L k p w pre i post n C H SH ME NC K).
Qed.
Print Assumptions C66_right_partial.

(** ^W and w goes to the other window, ^W and an arrow to the window on that side, if
    there is one.  The window come to selects what it selected, or else the last
    thing it selected. *)
Theorem C66_switch : forall rx f a b m len sc p w v, comparable a b m len f -> roomy_windows sc -> slen sc = len -> compares a b m sc p ->
  active p = Some w -> inactive p = Some v ->
  (forall k, k = "^W-W"%string \/ pact p = 0 /\ (k = "^W-L" \/ k = "^W-KEY_RIGHT")%string \/ pact p = 1 /\ (k = "^W-H" \/ k = "^W-KEY_LEFT")%string ->
     exists p', presses rx f a b m sc k p p' /\ pact p' = 1 - pact p /\ pcoll p' = pcoll p /\
       exists w', active p' = Some w' /\ wsel w' = match wsel v with Some i => Some i | None => wlast v end /\ wroot w' = wroot v) /\
  (forall k, pact p = 1 /\ (k = "^W-L" \/ k = "^W-KEY_RIGHT")%string \/ pact p = 0 /\ (k = "^W-H" \/ k = "^W-KEY_LEFT")%string -> presses rx f a b m sc k p p).
Proof. intros rx f a b m len sc p w v OK G L. exact (SplitPress.press_switch rx f a b m len sc OK G L p w v). Qed.
Print Assumptions C66_switch.

Theorem C66_others : forall rx f a b m len sc p, comparable a b m len f -> roomy_windows sc -> slen sc = len -> compares a b m sc p ->
  (forall q t, split_wait (split_memory a b) m rx f sc p false (EvKey (str "Q") q :: t) = Done (Ends sc p)) /\
  (forall k q, ~ In k (map str ["Q"; "K"; "KEY_UP"; "J"; "KEY_DOWN"; "KEY_PPAGE"; "KEY_NPAGE"; "L"; "KEY_RIGHT"; "H"; "KEY_LEFT"; "/"; "N";
                                "^W-W"; "^W-L"; "^W-KEY_RIGHT"; "^W-H"; "^W-KEY_LEFT"]%string) ->
     split_wait (split_memory a b) m rx f sc p false [EvKey k q] = Done (Waits sc p)) /\
  (* SIGINT ends the comparison, but only once a key is pressed *)
  (forall k q t, k <> str "/" -> k <> str "N" -> exists p', split_wait (split_memory a b) m rx f sc p false (EvStop :: EvKey k q :: t) = Done (Ends sc p')) /\
  (forall w hh, room w hh ->
     exists p', split_wait (split_memory a b) m rx f sc p false [EvSize w hh] = Done (Waits (mkScreen (w / 2) (hh - 2) len) p') /\
       compares a b m (mkScreen (w / 2) (hh - 2) len) p' /\ same_selections p p' /\ pcoll p' = pcoll p).
Proof.
  intros rx f a b m len sc p OK G L C. split; [intros q t; exact (SplitPress.press_quit rx f a b m sc p q t)|].
  split; [intros k q; exact (SplitPress.press_other rx f a b m sc p k q)|].
  split; [intros k q t; exact (SplitPress.press_stop rx f a b m len sc OK G L p k q t C)|].
  intros w hh. exact (SplitPress.press_size rx f a b m len sc p w hh OK L C).
Qed.
Print Assumptions C66_others.

(** {"a": [1, 2], "b": 2} compared with itself: rows 1, 2 (a), 4, 5, 6 (b). *)
Definition pair_doc (i : Z) : node := document i (TObj [(str "a", TArr [num 1; num 2]); (str "b", num 2)]).
Definition fuel : nat := Z.to_nat 4100.
Definition pair_mat : mat := match build (pair_doc 1) (pair_doc 21) with inl m => m | inr _ => mkMat [] [] 0 true end.
Lemma pair_sizes i : all_containers (fun k => Z.of_nat k < 2 ^ 31) (pair_doc i).
Proof. repeat constructor. Qed.
Lemma pair_ids : NoDup (ids (pair_doc 1) ++ ids (pair_doc 21)).
Proof. vm_compute. repeat constructor; cbn; intuition congruence. Qed.
Lemma pair_build : build (pair_doc 1) (pair_doc 21) = inl pair_mat.
Proof. vm_compute. reflexivity. Qed.
Lemma pair_lines : most_lines three (pair_doc 1) (pair_doc 21) < 2 ^ 32.
Proof. vm_compute. reflexivity. Qed.
Lemma pair_fuel : 4 * (most_lines three (pair_doc 1) (pair_doc 21) + 2) < Z.of_nat fuel.
Proof. vm_compute. reflexivity. Qed.
Lemma pair_comparable : comparable (pair_doc 1) (pair_doc 21) pair_mat three fuel.
Proof.
  split; [apply DocumentProofs.document_in_memory|]. split; [apply DocumentProofs.document_in_memory|].
  split; [apply pair_sizes|]. split; [apply pair_sizes|]. split; [exact pair_ids|]. split; [exact pair_build|].
  split; [intros e; unfold three; lia|]. split; [exact pair_lines|exact pair_fuel].
Qed.
Definition keys (hh : Z) (l : list string) : out ending := split_run no_regex fuel three 40 hh (pair_doc 1) (pair_doc 21) (map key l).
Lemma typed_compares rx f a b m len w hh l sc p : comparable a b m len f -> room w hh ->
  forallb (fun k => negb (beqb (str k) (str "/") || beqb (str k) (str "N"))) l = true -> split_run rx f len w hh a b (map key l) = Done (Waits sc p) ->
  roomy_windows sc /\ slen sc = len /\ compares a b m sc p.
Proof.
  intros C R F E. assert (X := C66_rest rx f _ _ _ len w hh (map key l) C R). rewrite E in X. apply X.
  - intros w' h I. apply in_map_iff in I. destruct I as (k & [=] & _).
  - intros k q I. apply in_map_iff in I. destruct I as (s & Q & I). assert (S : str s = k) by (injection Q; auto). subst k.
    rewrite forallb_forall in F. specialize (F s I). split; intros Z; rewrite Z in F; discriminate F.
Qed.
Lemma keys_compares hh l sc p : room 40 hh -> forallb (fun k => negb (beqb (str k) (str "/") || beqb (str k) (str "N"))) l = true -> keys hh l = Done (Waits sc p) ->
  roomy_windows sc /\ slen sc = three /\ compares (pair_doc 1) (pair_doc 21) pair_mat sc p.
Proof. exact (typed_compares no_regex fuel (pair_doc 1) (pair_doc 21) pair_mat three 40 hh l sc p pair_comparable). Qed.

(** In windows of 5 lines (7 with the title and the last line) "b" (row 6) does not
    fit below 2 (row 5): Down stays there however often it is pressed. *)
Theorem C66_down_refuted : exists sc p w, keys 7 ["J"; "J"; "J"]%string = Done (Waits sc p) /\
  roomy_windows sc /\ slen sc = three /\ compares (pair_doc 1) (pair_doc 21) pair_mat sc p /\ chosen p w [1; 2; 4] 5 [6] /\
  forall k, split_wait (split_memory (pair_doc 1) (pair_doc 21)) pair_mat no_regex fuel sc p false (repeat (key "J") k) = Done (Waits sc p).
Proof.
  destruct (keys 7 ["J"; "J"; "J"]%string) as [[sc p|sc p]|] eqn:E; [|vm_compute in E; discriminate E|vm_compute in E; discriminate E].
  assert (C := keys_compares 7 ["J"; "J"; "J"]%string sc p ltac:(split; split; vm_compute; congruence) eq_refl E). vm_compute in E. injection E as Q1 Q2.
  eexists sc, p, _. split; [reflexivity|]. split; [apply C|]. split; [apply C|]. split; [apply C|].
  rewrite <- Q2. split; [split; [reflexivity|split; reflexivity]|]. rewrite <- Q1.
  match goal with |- forall k, split_wait ?h ?m ?r ?f ?s ?v false _ = _ => assert (E : forall l, split_wait h m r f s v false (key "J" :: l) = split_wait h m r f s v false l) end.
  { intros l. cbn [split_wait key].
    match goal with |- context[split_key ?h ?m ?r ?s ?k ?q ?v] => let x := eval vm_compute in (split_key h m r s k q v) in replace (split_key h m r s k q v) with x by (vm_compute; reflexivity) end.
    cbn [SplitView.bind].
    match goal with |- context[redraws ?h ?m ?f ?s ?v] => let x := eval vm_compute in (redraws h m f s v) in replace (redraws h m f s v) with x by (vm_compute; reflexivity) end. reflexivity. }
  induction k as [|k IH]; [reflexivity|]. cbn [repeat]. rewrite E. exact IH.
Qed.
Print Assumptions C66_down_refuted.

(** In windows of 4 lines "a" (row 2) is the last row drawn: Down and Right pass over
    what it contains, rows 4 and 5. *)
Theorem C66_skip_refuted : exists sc p w n, keys 6 ["J"]%string = Done (Waits sc p) /\
  roomy_windows sc /\ slen sc = three /\ compares (pair_doc 1) (pair_doc 21) pair_mat sc p /\ chosen p w [1] 2 [4; 5; 6] /\
  In (2, n) (shown (nid (wroot w)) (wroot w)) /\ members n = [4; 5] /\ pcoll p = [] /\
  forall k, k = "J"%string \/ k = "L"%string ->
    exists p', split_wait (split_memory (pair_doc 1) (pair_doc 21)) pair_mat no_regex fuel sc p false [key k] = Done (Waits sc p') /\ selects p p' 6.
Proof.
  destruct (keys 6 ["J"]%string) as [[sc p|sc p]|] eqn:E; [|vm_compute in E; discriminate E|vm_compute in E; discriminate E].
  assert (C := keys_compares 6 ["J"]%string sc p ltac:(split; split; vm_compute; congruence) eq_refl E). vm_compute in E. injection E as Q1 Q2.
  eexists sc, p, _, _. split; [reflexivity|]. split; [apply C|]. split; [apply C|]. split; [apply C|].
  rewrite <- Q2, <- Q1. split; [split; [reflexivity|split; reflexivity]|]. split; [right; left; reflexivity|]. split; [reflexivity|]. split; [reflexivity|].
  intros k [-> | ->]; eexists; (split; [vm_compute; reflexivity|]); (split; [reflexivity|split; [reflexivity|]]);
    (split; [eexists; split; reflexivity|]); eexists _, _; (split; [reflexivity|split; [reflexivity|discriminate]]).
Qed.
Print Assumptions C66_skip_refuted.

(** Windows of 18 lines: row 5 selected after J J J, in the other window 25; then each key. *)
Definition seen_keys (l : list string) : option (Z * list Z * list (option Z)) := seen (keys 20 (["J"; "J"; "J"]%string ++ l)).
Example C66_example : exists sc p w v, keys 20 ["J"; "J"; "J"]%string = Done (Waits sc p) /\
  roomy_windows sc /\ slen sc = three /\ compares (pair_doc 1) (pair_doc 21) pair_mat sc p /\ chosen p w [1; 2; 4] 5 [6] /\ held_by (wroot w) 2 [4] 5 /\
  inactive p = Some v /\ wsel v = Some 25 /\ (exists n, In (5, n) (shown (nid (wroot w)) (wroot w)) /\ inside (pcoll p) n = []) /\
  map seen_keys [["K"]; ["J"]; ["KEY_PPAGE"]; ["KEY_PPAGE"; "KEY_NPAGE"]; ["H"]; ["H"; "H"]; ["H"; "H"; "^W-W"; "L"]; ["H"; "L"]; ["^W-L"; "K"]; ["^W-H"]; ["X"]]%string
  = map Some [(0, [], [Some 4; Some 24]); (0, [], [Some 6; Some 26]); (0, [], [Some 4; Some 24]); (0, [], [Some 5; Some 25]); (0, [], [Some 2; Some 22]);
              (0, [23; 3], [Some 2; Some 22]); (1, [], [Some 2; Some 22]); (0, [], [Some 4; Some 24]); (1, [], [Some 4; Some 24]); (0, [], [Some 5; Some 25]); (0, [], [Some 5; Some 25])].
Proof.
  destruct (keys 20 ["J"; "J"; "J"]%string) as [[sc p|sc p]|] eqn:E; [|vm_compute in E; discriminate E|vm_compute in E; discriminate E].
  assert (C := keys_compares 20 ["J"; "J"; "J"]%string sc p ltac:(split; split; vm_compute; congruence) eq_refl E). vm_compute in E. injection E as Q1 Q2.
  eexists sc, p, _, _. split; [reflexivity|]. split; [apply C|]. split; [apply C|]. split; [apply C|].
  rewrite <- Q2. split; [split; [reflexivity|split; reflexivity]|]. split; [eexists _, _; split; [right; left; reflexivity|reflexivity]|].
  split; [reflexivity|]. split; [reflexivity|]. split; [eexists; split; [do 3 right; left; reflexivity|reflexivity]|]. vm_compute. reflexivity.
Qed.

(** What is on screen is what drawing it again shows: C98. *)
From Verif Require Import Spec.AgainSpec Spec.ViewerSpec Properties.View.
From Verif Require Proofs.AgainProofs Proofs.AgainRuns Proofs.DocumentProofs.
From Coq Require Import Lia.
Open Scope Z_scope.

(** C98, full statement: [forall rx root sc v0 evs sc' v stop, two_lines (sh sc) ->
    all_two_lines evs -> run rx root sc v0 evs = Waiting sc' v stop -> settled root
    sc' v].  False when a search started over at the top, which draws the screen
    once only (C98_refuted).  Proved for every run without search keys, and for
    every run that ends with a row known below the selection. *)
Theorem C98_partial : forall rx root sc v0 evs sc' v stop, two_lines (sh sc) -> all_two_lines evs ->
  run rx root sc v0 evs = Waiting sc' v stop -> unsearched evs \/ vdown v <> None -> settled root sc' v.
Proof. exact AgainRuns.run_settled. Qed.
Print Assumptions C98_partial.

(** A drawing that succeeds shows the same when done again. *)
Theorem C98_again : forall root sc v0 v, two_lines (sh sc) -> redraw root sc v0 = Some (true, v) -> redraw root sc v = Some (true, v).
Proof. intros root sc v0 v T. exact (AgainProofs.redraw_again root sc T v0 v). Qed.
Print Assumptions C98_again.

(** A change of size to the same size changes nothing of what follows. *)
Theorem C98_same_size_partial : forall rx root sc v0 evs sc' v stop rest, two_lines (sh sc) -> all_two_lines evs ->
  run rx root sc v0 evs = Waiting sc' v stop -> unsearched evs \/ vdown v <> None ->
  run rx root sc v0 (evs ++ EvSize (sw sc') (sh sc') :: rest) = run rx root sc v0 (evs ++ rest).
Proof. exact AgainRuns.run_same_size. Qed.
Print Assumptions C98_same_size_partial.

(** A viewer that was stopped and goes on shows the document for the size the
    terminal has then. *)
Theorem C98_continued_partial : forall rx root sc v0 evs sc' v stop w hh rest, two_lines (sh sc) -> all_two_lines evs ->
  run rx root sc v0 evs = Waiting sc' v stop -> unsearched evs \/ vdown v <> None ->
  run rx root sc v0 (evs ++ continued sc' w hh ++ rest) = run rx root sc v0 (evs ++ EvSize w hh :: rest).
Proof. exact AgainRuns.run_continued. Qed.
Print Assumptions C98_continued_partial.

(** Scrolled down to the last row and back up to a row above the window: scrollTop
    was lowered by the last drawing. *)
Definition trip : list event := [key "J"; key "J"; key "J"; key "J"; key "J"; key "J"; key "J"; key "J"; key "K"; key "K"; key "K"; key "K"; key "K"].
Example C98_example : exists v, two_lines (sh (win 20 5)) /\ all_two_lines trip /\ unsearched trip /\
  run no_regex tall (win 20 5) view0 trip = Waiting (win 20 5) v false /\ vsel v = Some 2 /\ vscroll v = 1 /\ vdown v = Some 3 /\
  option_map (fun v => (vscroll v, vsel v)) (view_of (run no_regex tall (win 20 5) view0 (firstn 12 trip))) = Some (2, Some 3) /\
  continued (win 20 5) 20 5 = [] /\ continued (win 20 5) 20 7 = [EvSize 20 7] /\
  option_map (fun v => length (vlines v)) (view_of (run no_regex tall (win 20 5) view0 (trip ++ continued (win 20 5) 20 7))) = Some 6%nat /\
  length (vlines v) = 4%nat.
Proof.
  eexists. split; [unfold two_lines; cbn; lia|]. split; [intros w hh Q; repeat (destruct Q as [Q|Q]; [discriminate Q|]); destruct Q|].
  split; [intros k p Q; repeat (destruct Q as [Q|Q]; [injection Q as <- _; split; vm_compute; discriminate|]); destruct Q|].
  split; [vm_compute; reflexivity|]. vm_compute. repeat split; reflexivity.
Qed.

(** After a search that started over, a signal that the size is what it was scrolls
    the window to the result, which was not on screen. *)
Theorem C98_refuted : exists root sc evs v v', in_memory root /\ roomy root sc /\ two_lines (sh sc) /\ all_two_lines evs /\
  run no_regex root sc view0 evs = Waiting sc v false /\
  run no_regex root sc view0 (evs ++ [EvSize (sw sc) (sh sc)]) = Waiting sc v' false /\
  vsel v = vsel v' /\ vscroll v <> vscroll v' /\ (forall r, vsel v = Some r -> ~ In r (map (fun x => fst (fst x)) (vlines v)) /\ In r (map (fun x => fst (fst x)) (vlines v'))).
Proof.
  exists tall, (win 20 6), [key "J"; key "H"; key "J"; look "x"]. eexists _, _. split; [apply DocumentProofs.document_in_memory|].
  split; [apply roomy_win; [lia|vm_compute; reflexivity]|]. split; [unfold two_lines; cbn; lia|].
  split; [intros w hh Q; repeat (destruct Q as [Q|Q]; [discriminate Q|]); destruct Q|].
  split; [vm_compute; reflexivity|]. split; [vm_compute; reflexivity|]. cbn [vsel vscroll vlines map fst]. split; [reflexivity|]. split; [discriminate|].
  intros r [= <-]. cbn [In]. split; [intuition discriminate|intuition].
Qed.
Print Assumptions C98_refuted.

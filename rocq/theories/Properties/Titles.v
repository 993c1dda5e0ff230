(** Which window of a comparison is active: C97; colours of titles, messages and
    marks. *)
From Verif Require Import Spec.ColoursSpec Spec.SplitPage Model.Titles.
From Verif Require Import Properties.View Properties.Screen Properties.Split Properties.Compare Properties.Level Properties.Both.
From Verif Require Proofs.SplitBase Proofs.ColoursProofs.
From Coq Require Import Lia.
Open Scope Z_scope.

(** C97: the active window can be told from what is on the terminal.  False without
    colours: nothing changes when the other window becomes the active one. *)
Definition screen_of (enabled : bool) (a b : node) (o : out ending) :=
  match o with Done (Waits sc p) => Some (pact p, split_seen enabled (split_memory a b) sc (str "old") (str "new") p) | _ => None end.
Theorem C97_refuted : exists rx f a b m len w hh evs s, comparable a b m len f /\ room w hh /\ rooms evs /\
  screen_of false a b (split_run rx f len w hh a b []) = Some (0, Some s) /\ screen_of false a b (split_run rx f len w hh a b evs) = Some (1, Some s).
Proof.
  pose (s := match screen_of false (hello 1 "hello") (hello 21 "hallo") (split_run no_regex fuel width_of 40 9 (hello 1 "hello") (hello 21 "hallo") []) with Some (_, s) => s | None => None end).
  let t := eval vm_compute in s in
  match t with Some ?t =>
    exists no_regex, fuel, (hello 1 "hello"), (hello 21 "hallo"), hello_mat, width_of, 40, 9, [key "^W-W"], t
  end.
  split; [exact hello_comparable|]. split; [split; split; vm_compute; congruence|]. split; [intros x y [E|[]]; discriminate E|]. split; vm_compute; reflexivity.
Qed.
Print Assumptions C97_refuted.

(** So it is whenever nothing was found. *)
Theorem C97_never : forall h sc na nb p q, pwins p = pwins q -> Forall (fun w => wres w = []) (pwins p) ->
  split_seen false h sc na nb p = split_seen false h sc na nb q.
Proof.
  intros h sc na nb p q E F. assert (A : forall r, pwins r = pwins q -> active_res r = []).
  { intros r R. unfold active_res. rewrite R, <- E. destruct (nth_error (pwins p) _) as [w|] eqn:N; [|reflexivity]. apply nth_error_In in N. rewrite Forall_forall in F. exact (F w N). }
  unfold split_seen. rewrite (A p E), (A q eq_refl), E. reflexivity.
Qed.
Print Assumptions C97_never.

(** With colours: whenever the comparison waits, the name of the file of the active
    window, and no other, is black on green; the other is black on white. *)
Theorem C97_partial : forall rx f a b len w hh evs sc p na nb, split_run rx f len w hh a b evs = Done (Waits sc p) ->
  exists x y, split_seen true (split_memory a b) sc na nb p = Some (x, y) /\
    ((pact p = 0 /\ seen_colours (fst (fst x)) = Some (Black, Green) /\ seen_colours (fst (fst y)) = Some (Black, White)) \/
     (pact p = 1 /\ seen_colours (fst (fst x)) = Some (Black, White) /\ seen_colours (fst (fst y)) = Some (Black, Green))).
Proof.
  intros rx f a b len w hh evs sc p na nb E. destruct (proj2 (SplitBase.run_two_windows rx f len w hh a b evs) _ E) as [L A]. cbn [end_split] in L, A.
  unfold split_seen. destruct (pwins p) as [|x [|y [|]]]; try discriminate L. eexists _, _. split; [reflexivity|].
  destruct A as [-> | ->]; [left|right]; repeat split.
Qed.
Print Assumptions C97_partial.

(** Titles and marks of the documents of [C70_example], first and with the other
    window active. *)
Example C97_example :
  let look evs := match screen_of true (hello 1 "hello") (hello 21 "hallo") (split_run no_regex fuel width_of 40 9 (hello 1 "hello") (hello 21 "hallo") evs) with
                  | Some (n, Some (x, y)) => Some (n, fst (fst x), fst (fst y), snd x) | _ => None end in
  look [] = Some (0, Colours.mkSeen (str "old               ") false (Some (Black, Green)), Colours.mkSeen (str "new               ") false (Some (Black, White)), []) /\
  look [key "^W-W"] = Some (1, Colours.mkSeen (str "old               ") false (Some (Black, White)), Colours.mkSeen (str "new               ") false (Some (Black, Green)), []).
Proof. split; vm_compute; reflexivity. Qed.

(** C95, for everything else that has a colour: titles, messages and marks. *)
Theorem C95_legible_lines : forall colours w act i name text o m,
  legible (title colours w act i name) /\ legible (only_title colours w name) /\ legible (message colours w text) /\
  (mark_seen colours o = Some m -> legible m).
Proof.
  intros colours w act i name text o m. split; [unfold title; destruct colours, (i =? act); cbn; try discriminate; exact I|].
  split; [destruct colours; cbn; [discriminate|exact I]|]. split; [destruct colours; cbn; [discriminate|exact I]|].
  destruct o, colours; cbn; intros [= <-]; cbn; try discriminate; exact I.
Qed.
Print Assumptions C95_legible_lines.

(** And marks of different kinds look different. *)
Theorem C95_marks : forall colours o o', mark_seen colours o = mark_seen colours o' -> o = o'.
Proof. intros [|] [] []; cbn; intros E; try discriminate E; reflexivity. Qed.
Print Assumptions C95_marks.

Example C95_lines_example : message true 30 not_found = Colours.mkSeen (str "Pattern not found             ") false (Some (White, Red)) /\
  only_title true 10 (str "a.json") = Colours.mkSeen (str "a.json    ") false (Some (Black, Green)) /\
  mark_seen true ORem = Some (Colours.mkSeen (str "--") true (Some (Magenta, Black))) /\ mark_seen false ORem = Some (Colours.mkSeen (str "--") true None).
Proof. repeat split; vm_compute; reflexivity. Qed.

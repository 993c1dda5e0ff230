(** C85: the streams of the inputs are deleted once; C86: what a resize of the
    terminal does at each moment of a run. *)
From Coq Require Import Permutation.
From Verif Require Import Spec.LifeSpec Proofs.LifeProofs Properties.Session.
Open Scope Z_scope.

(** The lives of the streams are told along the sessions of Model/Session.v. *)
Theorem C85_same : forall e w sits order opens args,
  session_of (fst (main_life e w sits order opens args)) = fst (main_session e w sits opens args) /\
  snd (main_life e w sits order opens args) = snd (main_session e w sits opens args).
Proof. exact same_main. Qed.
Print Assumptions C85_same.

(** Whatever the run: a stream is made once, its document is used only after that
    and before the stream is deleted, and it is deleted once only. *)
Theorem C85_once : forall e w sits order, (forall l, Permutation (order l) l) ->
  forall opens args a x c, fst (main_life e w sits order opens args) = a ++ x :: c ->
  match x with
  | New k => ~ In (New k) a
  | Use ks => forall k, In k ks -> In (New k) a /\ ~ In (Delete k) a
  | Delete k => In (New k) a /\ ~ In (Delete k) a
  | _ => True
  end.
Proof. exact streams_once. Qed.
Print Assumptions C85_once.

(** What is shown, compared or written are the documents of inputs that were read,
    in use at that moment. *)
Theorem C85_displayed : forall e w sits order opens args a x c,
  fst (main_life e w sits order opens args) = a ++ Tell (Did x) :: c -> display_event x ->
  exists p b ks docs, Params_read opens args = PNext p /\ (a = b ++ [Use ks] \/ a = b ++ [Use ks; Ready]) /\
    documents e w p ks docs /\ displays p x docs.
Proof. exact displayed_used. Qed.
Print Assumptions C85_displayed.

(** When main returns, the streams deleted are those of the inputs that were read. *)
Theorem C85_partial : forall e w sits order, (forall l, Permutation (order l) l) ->
  forall opens args l status k, main_life e w sits order opens args = (l, Val status) -> In (New k) l ->
  (In (Delete k) l <-> ~ unread e w opens args k).
Proof. exact streams_deleted. Qed.
Print Assumptions C85_partial.

(** The stream of an input that is not JSON is never deleted. *)
Theorem C85_refuted : exists e w sits args l, main_life e w sits (fun l => l) (fun _ => true) args = (l, Val 0) /\ In (New 1) l /\ ~ In (Delete 1) l.
Proof.
  exists (mkEnv false), (files "[1]" "{1:2}"), returns, (map str ["-W"; "a"; "b"]%string). eexists. split; [vm_compute; reflexivity|].
  split; [cbn; tauto|]. cbn. intuition discriminate.
Qed.
Print Assumptions C85_refuted.

(** A viewer of two documents, and a comparison whose set is in the other order. *)
Example C85_example : exists v c,
  main_life (mkEnv false) (files "[1]" "[2]") returns (@rev nat) (fun _ => true) (map str ["a"; "b"]%string) =
    ([Tell Opened; New 0; Use [0%nat]; Ready; Tell (Did v); Delete 0; New 1; Use [1%nat]; Ready; Tell (Did c); Delete 1; Tell Closed], Val 0) /\
  exists d, main_life (mkEnv false) (files "[1]" "[2]") returns (@rev nat) (fun _ => true) (map str ["--diff"; "a"; "b"]%string) =
    ([New 0; New 1; Tell Opened; Use [0; 1]%nat; Ready; Tell (Did d); Tell Closed; Delete 1; Delete 0], Val 0).
Proof. do 2 eexists. split; [vm_compute; reflexivity|]. eexists. vm_compute. reflexivity. Qed.
Example C85_order_example : forall l : list nat, Permutation (rev l) l.
Proof. intros l. symmetry. apply Permutation_rev. Qed.

(** C86.  At every moment of every run the signal is without effect exactly when the
    terminal is closed. *)
Theorem C86_closed : forall e w sits order, (forall l, Permutation (order l) l) ->
  forall opens args a c, fst (main_life e w sits order opens args) = a ++ c ->
  (resize_at a = Ignored <-> mode_after (session_of a) false).
Proof. exact resize_closed. Qed.
Print Assumptions C86_closed.

(** While it is open, the redraw follows pointers that are not set, or documents
    that are deleted, exactly when no document is in view; what it does redraw is
    not deleted. *)
Theorem C86_partial : forall e w sits order, (forall l, Permutation (order l) l) ->
  forall opens args a c, fst (main_life e w sits order opens args) = a ++ c -> mode_after (session_of a) true ->
  (resize_at a = Dangling <-> ~ in_view a) /\
  (forall ks, resize_at a = Redraws ks -> forall k, In k ks -> In (New k) a /\ ~ In (Delete k) a).
Proof. exact resize_open. Qed.
Print Assumptions C86_partial.

(** A resize while the second document is read: the first, deleted, is drawn; and
    one while the comparison is computed. *)
Theorem C86_refuted : exists e w sits args a c,
  fst (main_life e w sits (fun l => l) (fun _ => true) args) = a ++ c /\ In (Delete 0) a /\ last a Ready = New 1 /\ resize_at a = Dangling.
Proof.
  exists (mkEnv false), (files "[1]" "[2]"), returns, (map str ["a"; "b"]%string).
  set (l := fst (main_life _ _ _ _ _ _)). exists (firstn 7 l), (skipn 7 l). split; [symmetry; apply firstn_skipn|].
  split; [vm_compute; tauto|]. split; vm_compute; reflexivity.
Qed.
Print Assumptions C86_refuted.
Theorem C86_compare_refuted : exists e w sits args a c,
  fst (main_life e w sits (fun l => l) (fun _ => true) args) = a ++ c /\ last a Ready = Use [0; 1]%nat /\ resize_at a = Dangling.
Proof.
  exists (mkEnv false), (files "[1]" "[2]"), returns, (map str ["--diff"; "a"; "b"]%string).
  set (l := fst (main_life _ _ _ _ _ _)). exists (firstn 4 l), (skipn 4 l). split; [symmetry; apply firstn_skipn|].
  split; vm_compute; reflexivity.
Qed.
Print Assumptions C86_compare_refuted.

(** While a document is shown, it is redrawn; after the viewer is gone, nothing is. *)
Example C86_example :
  let l := fst (main_life (mkEnv false) (files "[1]" "[2]") returns (fun l => l) (fun _ => true) (map str ["a"; "b"]%string)) in
  resize_at (firstn 5 l) = Redraws [0%nat] /\ resize_at (firstn 10 l) = Redraws [1%nat] /\ resize_at l = Ignored /\ resize_at (firstn 1 l) = Dangling.
Proof. vm_compute. auto. Qed.

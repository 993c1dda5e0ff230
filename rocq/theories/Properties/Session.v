(** C78: the terminal is given back; C79: messages are readable. *)
From Verif Require Import Spec.SessionSpec Proofs.SessionProofs.
Open Scope Z_scope.

(** Without the modes of the terminal, and when the viewers return, a session is the
    run of Model/Main.v. *)
Theorem C78_same : forall e w sits opens args, (forall docs, sits docs = Val tt) ->
  told (fst (main_session e w sits opens args)) = fst (main e w opens args) /\
  snd (main_session e w sits opens args) = snd (main e w opens args).
Proof. intros e w sits opens args S. exact (session_same e w sits S opens args). Qed.
Print Assumptions C78_same.

(** Whenever main returns, the terminal is as it was. *)
Theorem C78_partial : forall e w sits opens args l status, main_session e w sits opens args = (l, Val status) -> mode_after l false.
Proof. exact session_closed. Qed.
Print Assumptions C78_partial.

(** It is opened at most once, by the viewers only. *)
Theorem C78_once : forall e w sits opens args a c, fst (main_session e w sits opens args) = a ++ Opened :: c ->
  ~ In Opened (a ++ c) /\ exists p, viewing w opens args p \/ comparing opens args p.
Proof. exact session_once. Qed.
Print Assumptions C78_once.

(** What is shown is shown while it is open. *)
Theorem C78_shown : forall e w sits opens args a x c, fst (main_session e w sits opens args) = a ++ Did x :: c -> interactive x -> mode_after a true.
Proof. exact shown_open. Qed.
Print Assumptions C78_shown.

(** When it is left open: the program died or did not end, in the viewer while
    reading an input or showing one, in the comparison while showing or for its
    three inputs; never while the inputs of a comparison are read. *)
Theorem C78_left_open : forall e w sits opens args l o, main_session e w sits opens args = (l, o) -> mode_after l true ->
  (forall status, o <> Val status) /\
  ((exists p, viewing w opens args p /\
     ((exists i, In i (getInputs p) /\ forall v, snd (readOneFile e w p i) <> Val v) \/
      (exists f t, In (Did (EView f t)) l /\ sits [(f, t)] <> Val tt))) \/
   (exists p, comparing opens args p /\
     (length (getInputs p) = 3%nat \/ (exists docs, In (Did (ECompare docs)) l /\ sits docs <> Val tt)))).
Proof. exact session_open. Qed.
Print Assumptions C78_left_open.

(** A world with the two files a and b on a terminal. *)
Definition files (a b : String.string) : world :=
  mkWorld (fun s => match s with SFile f => if beqb f (str "a") then str a else str b | _ => [] end)
    (fun _ => Some O) true true (Some (Exited 0)) true true.
Definition returns : list (bytes * tree) -> outcome unit := fun _ => Val tt.

(** An integer that fits no type is an exception nobody catches, raised while the
    terminal is open. *)
Theorem C78_refuted : exists e w sits args l, main_session e w sits (fun _ => true) args = (l, Die Terminated) /\ mode_after l true.
Proof.
  exists (mkEnv false), (files "[1]" "[99999999999999999999]"), returns, (map str ["a"; "b"]%string). eexists. split; [vm_compute; reflexivity|].
  apply (mode_open [] [EView (str "a") (TArr [TPrim (PInt 1)])]).
Qed.
Print Assumptions C78_refuted.

Example C78_example : exists l, main_session (mkEnv false) (files "[1]" "{""k"":1,""k"":2}") returns (fun _ => true) (map str ["-W"; "a"; "b"]%string) = (l, Val 0) /\
  (exists x, l = [Opened; Did (EView (str "a") (TArr [TPrim (PInt 1)])); Did (EView (str "b") (TObj [(str "k", TPrim (PInt 2))])); Closed; Did x] /\ report x).
Proof. eexists. split; [vm_compute; reflexivity|]. eexists. split; [reflexivity|exact I]. Qed.

Example C78_left_open_example : exists l, main_session (mkEnv false) (files "[1]" "[2]") (fun _ => Die Undefined) (fun _ => true) (map str ["--diff"; "a"; "b"]%string) = (l, Die Undefined) /\
  mode_after l true /\ exists p, comparing (fun _ => true) (map str ["--diff"; "a"; "b"]%string) p.
Proof.
  eexists. split; [vm_compute; reflexivity|]. split; [apply (mode_open [] [ECompare _])|]. eexists. split; [vm_compute; reflexivity|]. split; reflexivity.
Qed.

(** C79.  The only message written while the terminal is open is the one about the
    input that could not be read, in the viewer; the terminal is then closed, or the
    program dies.  Warnings are written afterwards. *)
Theorem C79_partial : forall e w sits opens args a x c, fst (main_session e w sits opens args) = a ++ Did x :: c -> report x -> mode_after a true ->
  exists p, viewing w opens args p /\ (c = [] \/ exists c', c = Closed :: c').
Proof. exact report_open. Qed.
Print Assumptions C79_partial.

(** The message about an input that is not JSON, and about one without contents. *)
Theorem C79_refuted : exists e w sits args a x c, main_session e w sits (fun _ => true) args = (a ++ Did x :: c, Val 0) /\ report x /\ mode_after a true.
Proof.
  exists (mkEnv false), (files "{1:2}" ""), returns, (map str ["a"]%string), [Opened]. do 2 eexists. split; [vm_compute; reflexivity|].
  split; [exact I|]. apply (mode_open [] []).
Qed.
Print Assumptions C79_refuted.

Example C79_example : exists a x c, main_session (mkEnv false) (files "[1]" "") returns (fun _ => true) (map str ["a"; "b"]%string) = (a ++ Did x :: c, Val 0) /\
  x = EEof (str "b") /\ mode_after a true /\ c = [Closed].
Proof.
  exists [Opened; Did (EView (str "a") (TArr [TPrim (PInt 1)]))]. do 2 eexists. split; [vm_compute; reflexivity|]. split; [reflexivity|].
  split; [apply (mode_open [] [EView _ _])|reflexivity].
Qed.
Example C79_compare_example : exists x, main_session (mkEnv false) (files "[1]" "") returns (fun _ => true) (map str ["--diff"; "a"; "b"]%string) = ([Did x], Val 0) /\ report x.
Proof. eexists. split; [vm_compute; reflexivity|exact I]. Qed.

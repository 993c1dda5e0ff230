(** Runs of the program: C45, C48, C49, C50, C58. *)
From Verif Require Import Model.Main Spec.RunSpec Proofs.MainProofs.
Open Scope Z_scope.

(** C48, when the program returns: whatever the inputs and the failures, files
    created are removed. *)
Theorem C48_partial : forall e w opens args tr c, main e w opens args = (tr, Val c) -> removed tr.
Proof. exact main_removes. Qed.
Print Assumptions C48_partial.

(** Missing: an uncaught exception while reading the second input leaves the
    first file (here a lone surrogate with a library that rejects them); so does
    a command killed by a signal. *)
Definition args2 : list bytes := map str ["--diff-cmd"; "diff"; "{}"; ";"; "a"; "b"]%string.
Definition world2 (b : bytes) (c : child_end) : world :=
  mkWorld (fun s => match s with SFile f => if beqb f (str "a") then str "[1]" else b | _ => [] end) (fun _ => Some O) true true (Some c) true true.
Theorem C48_refuted : exists e w args tr d n b, main e w (fun _ => true) args = (tr, Die d) /\ In (ECreate n b) tr /\ ~ In (EUnlink n) tr.
Proof.
  exists (mkEnv false), (world2 (DQUOTE :: BSLASH :: str "ud800""") (Exited 0)), args2. do 4 eexists. split; [vm_compute; reflexivity|].
  split; [left; reflexivity|]. vm_compute. intuition discriminate.
Qed.
Print Assumptions C48_refuted.

Example C48_example : exists tr n1 n2, main (mkEnv false) (world2 (str "[2]") (Exited 1)) (fun _ => true) args2 = (tr, Val 0) /\
  In (ECreate n1 (str "[" ++ [LF] ++ str "    1" ++ [LF] ++ str "]" ++ [LF])) tr /\ In (ECreate n2 (str "[" ++ [LF] ++ str "    2" ++ [LF] ++ str "]" ++ [LF])) tr /\
  n1 <> n2 /\ In (EUnlink n1) tr /\ In (EUnlink n2) tr.
Proof.
  do 3 eexists. split; [vm_compute; reflexivity|]. split; [left; reflexivity|]. split; [right; left; reflexivity|]. split; [discriminate|].
  split; [vm_compute; tauto|vm_compute; tauto].
Qed.

(** C49: the program ends when temporary files can be opened and the command
    exits (or cannot be run, when the uninitialised status happens to end the
    child's loop). *)
Theorem C49_partial : forall e w opens args, command_ends w -> snd (main e w opens args) <> Hang.
Proof. exact main_ends. Qed.
Print Assumptions C49_partial.

(** Missing: a command killed by a signal. *)
Theorem C49_refuted : exists e w args, ends_as w = Some (Signaled 15) /\ snd (main e w (fun _ => true) args) = Hang.
Proof. exists (mkEnv false), (world2 (str "2") (Signaled 15)), args2. split; [reflexivity|vm_compute; reflexivity]. Qed.
Print Assumptions C49_refuted.

Example C49_example : command_ends (world2 (str "2") (Exited 1)).
Proof. split; [discriminate|]. split; [intros _ _; exists 1; reflexivity|discriminate]. Qed.

(** C50: what runStdout prints, however the run ends ... *)
Theorem C50_prints : forall e w p ds x,
  docs_until e (config p) (fun i => input_bytes w p (snd i)) (getInputs p) ds x ->
  printed (fst (runStdout e w p)) = map (fun d => display (p_compress p) (snd (fst d))) ds.
Proof. exact stdout_prints. Qed.
Print Assumptions C50_prints.

(** ... and the warnings it reports afterwards, when the run returns and each
    warning can be reported. *)
Theorem C50_warnings_partial : forall e w p ds x,
  docs_until e (config p) (fun i => input_bytes w p (snd i)) (getInputs p) ds x ->
  (forall i d, x = Some i -> snd (readOneFile e w p i) <> Die d) ->
  Forall (fun fx => reportable (snd fx)) (doc_warnings ds) ->
  exists tr tr1 tr2, runStdout e w p = (tr, Val tt) /\ tr = tr1 ++ tr2 /\
    map Some (reports tr2) = map (fun fx => option_map (fun m => (fst fx, m)) (message (ekind_of (snd fx)))) (doc_warnings ds).
Proof. exact stdout_reports. Qed.
Print Assumptions C50_warnings_partial.

(** Missing: the warning of an unknown escape has an undefined message. *)
Definition quiet (l : list (bytes * src)) : params := mkParams false false true true true false None l false None false.
Theorem C50_refuted : exists e w p ds x, docs_until e (config p) (fun i => input_bytes w p (snd i)) (getInputs p) ds x /\ x = None /\
  doc_warnings ds <> [] /\ snd (runStdout e w p) = Die Undefined.
Proof.
  exists (mkEnv false), (world2 (str """\q""") (Exited 0)), (quiet [(str "b", SFile (str "b"))]).
  eexists [(str "b", _, [_])], None. split; [|split; [reflexivity|split; [discriminate|vm_compute; reflexivity]]].
  apply (DU_doc _ _ _ (str "b", SFile (str "b"))); [|constructor]. eexists. eexists. split; [vm_compute; reflexivity|]. split; reflexivity.
Qed.
Print Assumptions C50_refuted.

Example C50_example : let w := world2 (str "{""k"":1,""k"":2}") (Exited 0) in
  let p := quiet [(str "b", SFile (str "b")); (str "c", SNull); (str "a", SFile (str "a"))] in
  exists d, docs_until (mkEnv false) (config p) (fun i => input_bytes w p (snd i)) (getInputs p) [d] (Some (str "c", SNull)) /\
    printed (fst (runStdout (mkEnv false) w p)) = [str "{""k"":2}"] /\
    Forall (fun fx => reportable (snd fx)) (doc_warnings [d]) /\
    reports (fst (runStdout (mkEnv false) w p)) = [(str "b", str "Unexpected double key k for object")].
Proof.
  cbv zeta. eexists (str "b", _, [_]). split; [|split; [vm_compute; reflexivity|split]].
  - apply (DU_doc _ _ _ (str "b", SFile (str "b"))).
    + eexists. eexists. split; [vm_compute; reflexivity|]. split; reflexivity.
    + apply DU_stop. intros t ws (root & s & E & _). revert E. vm_compute. discriminate.
  - repeat constructor; vm_compute; discriminate.
  - vm_compute. reflexivity.
Qed.

(** C58, when there is an excerpt and a message: one mark per character of the
    excerpt, the last one under the offending character. *)
Theorem C58_partial : forall f x, reportable x -> exists m ex mark, message (ekind_of x) = Some m /\
  displayException f x = ([EReport f m (hist_line (ehist x)) (hist_col (ehist x)) ex mark], Val tt) /\ ex = hist_text (ehist x) /\
  length mark = length ex /\ exists n, mark = repeat "~"%char n ++ str "^".
Proof. exact display_report. Qed.
Print Assumptions C58_partial.

(** Missing: a number alone on its line where a key is expected leaves an empty
    excerpt: the report throws, the program is terminated. *)
Theorem C58_refuted : exists e c t x, read_doc e (Some c) t = Throw x /\ displayException (str "f") x = ([], Die Terminated).
Proof.
  exists (mkEnv false), (mkCfg true false true), (str "{" ++ [LF] ++ str "1" ++ [LF] ++ str "}"). eexists. split; vm_compute; reflexivity.
Qed.
Print Assumptions C58_refuted.

(** Nor does the message name the expected token: it is undefined. *)
Theorem C58_message_refuted : exists e c t x, read_doc e (Some c) t = Throw x /\ ekind_of x = Unexpected "]" /\ message (ekind_of x) = None.
Proof. exists (mkEnv false), (mkCfg true false true), (str "[1 2]"). eexists. split; [vm_compute; reflexivity|]. split; reflexivity. Qed.
Print Assumptions C58_message_refuted.

Example C58_example : exists x, read_doc (mkEnv false) (Some (mkCfg true false true)) (str "[tru]") = Throw x /\ reportable x /\
  hist_text (ehist x) = map (fun c => Some (Some c)) (str "[tru]").
Proof. eexists. split; [vm_compute; reflexivity|]. split; [split; vm_compute; discriminate|vm_compute; reflexivity]. Qed.

(** C45, second half: two documents are compared ... *)
Theorem C45_partial : forall e w p ds,
  docs_until e (config p) (fun i => input_bytes w p (snd i)) (getInputs p) ds None -> length ds <> 3%nat ->
  In (ECompare (map fst ds)) (fst (runDiff e w p)).
Proof. exact diff_two. Qed.
Print Assumptions C45_partial.

(** ... but three are refused by an uncaught exception. *)
Theorem C45_refuted : exists e w args p, Params_read (fun _ => true) args = PNext p /\ p_diff p = true /\
  main e w (fun _ => true) args = ([], Die Terminated).
Proof.
  exists (mkEnv false), (world2 (str "[2]") (Exited 0)), (map str ["--diff"; "a"; "b"; "c"]%string). eexists.
  split; [vm_compute; reflexivity|]. split; [reflexivity|vm_compute; reflexivity].
Qed.
Print Assumptions C45_refuted.

Example C45_example : fst (main (mkEnv false) (world2 (str "[2]") (Exited 0)) (fun _ => true) (map str ["--diff"; "a"; "b"]%string)) =
  [ECompare [(str "a", TArr [TPrim (PInt 1)]); (str "b", TArr [TPrim (PInt 2)])]].
Proof. vm_compute. reflexivity. Qed.

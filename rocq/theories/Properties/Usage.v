(** The usage text and the options: C101. *)
From Verif Require Import Spec.UsageSpec.
From Verif Require Proofs.UsageProofs.

(** C101: an argument that begins with a dash is accepted iff the usage text mentions
    it.  From the text to the program: true but of -version and --helph. *)
Theorem C101_partial : forall opens p a, In a (options_in usage) -> a <> str "-version" -> a <> str "--helph" -> read_option opens p a <> PError (EInvalid a).
Proof. exact UsageProofs.documented_accepted. Qed.
Print Assumptions C101_partial.

(** These two are refused, wherever they are. *)
Theorem C101_refused : forall opens p a, a = str "-version" \/ a = str "--helph" -> read_option opens p a = PError (EInvalid a).
Proof. exact UsageProofs.wrong_rejected. Qed.
Print Assumptions C101_refused.
Theorem C101_refuted : exists a, In a (options_in usage) /\ forall opens, Params_read opens [a] = PError (EInvalid a).
Proof. exists (str "-version"). split; [vm_compute; tauto|]. intros opens. reflexivity. Qed.
Print Assumptions C101_refuted.

(** From the program to the text: true but of --help and --version ("--color[=MODE]"
    stands for --color=...). *)
Theorem C101_mentioned_partial : forall opens p a, starts (str "-") a = true -> read_option opens p a <> PError (EInvalid a) ->
  In a (options_in usage) \/ a = str "--help" \/ a = str "--version" \/ exists m, a = str "--color=" ++ m.
Proof. exact UsageProofs.accepted_documented. Qed.
Print Assumptions C101_mentioned_partial.
Theorem C101_mentioned_refuted : exists a, starts (str "-") a = true /\ (forall opens p, read_option opens p a = PStop StHelp) /\ ~ In a (options_in usage).
Proof.
  exists (str "--help"). split; [reflexivity|]. split; [intros opens []; reflexivity|]. vm_compute. intuition discriminate.
Qed.
Print Assumptions C101_mentioned_refuted.

Example C101_example : options_in usage =
  map str ["--"; "--diff"; "--compress"; "-W"; "--ascii"; "--keep-order"; "--color"; "--compress"; "--diff-cmd"; "-v"; "-version"; "-h"; "--helph"; "--diff"; "--diff-cmd"]%string /\
  read_option (fun _ => false) params0 (str "-W") = PNext (mkParams false false true true false false None [] false None false) /\
  read_option (fun _ => true) params0 (str "-x") = PError (EInvalid (str "-x")) /\
  firstn 25 (said (str "js") (str "jsonstroll") [] [] usage) = str "Usage: js [OPTIONS]" ++ LF :: str "or: j" /\
  options_in version = [].
Proof. vm_compute. repeat split; reflexivity. Qed.

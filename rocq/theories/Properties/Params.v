(** Command line: C44. *)
From Verif Require Import Model.Params Spec.CmdMeaning Proofs.ParamsProofs.

(** C44: every command line is a list of items followed by an ending, by --help
    or --version, or by an error. *)
Theorem C44_kinds : forall opens args, exists w l rest, args = w ++ rest /\ items w l /\ fine opens l /\ kinds opens l rest.
Proof. exact command_lines. Qed.
Print Assumptions C44_kinds.

(** Options have the effect told by [meaning] whatever their order, the inputs
    are the files in order and the text after "--". *)
Theorem C44_accepts : forall opens w l r e n,
  items w l -> ends r e -> fine opens l -> (length (cmds l ++ end_cmds e) <= 1)%nat -> input_names l e n ->
  (In (str "--diff") (flags l) -> (2 <= length n <= 3)%nat) ->
  exists p, Params_read opens (w ++ r) = PNext p /\ meaning l e p /\ map fst (p_inputs p) = n.
Proof. exact read_accepts. Qed.
Print Assumptions C44_accepts.

Theorem C44_stops : forall opens w l a rest, items w l -> fine opens l -> In a stop_names ->
  exists s, Params_read opens (w ++ a :: rest) = PStop s.
Proof. exact read_stops. Qed.
Print Assumptions C44_stops.

Theorem C44_rejects : forall opens w l a rest, items w l -> fine opens l -> wrong opens l a ->
  exists e, Params_read opens (w ++ a :: rest) = PError e.
Proof. exact read_rejects. Qed.
Print Assumptions C44_rejects.

(** A single colour setting is compatible with the options. *)
Theorem C44_colour : forall l b b', colour l b -> colour l b' -> b = b'.
Proof. exact colour_fun. Qed.
Print Assumptions C44_colour.

(** First half of C45: --diff is refused unless there are two or three inputs. *)
Theorem C45_refused : forall opens w l r e n,
  items w l -> ends r e -> fine opens l -> (length (cmds l ++ end_cmds e) <= 1)%nat -> input_names l e n ->
  In (str "--diff") (flags l) -> ~ (2 <= length n <= 3)%nat -> exists s, Params_read opens (w ++ r) = PStop s.
Proof. exact read_refuses. Qed.
Print Assumptions C45_refused.

(** What is missing: when a file is named ARGS, the inputs are not the files and
    the text ([m_inputs] excludes that name): the text replaces the file. *)
Theorem C44_refuted : exists args p, Params_read (fun _ => true) args = PNext p /\ In (str "ARGS") args /\
  ~ In (str "ARGS", SFile (str "ARGS")) (getInputs p).
Proof.
  exists [str "ARGS"; str "--"; str "1"]. eexists. split; [vm_compute; reflexivity|]. split; [left; reflexivity|].
  vm_compute. intros [H|[]]. discriminate.
Qed.
Print Assumptions C44_refuted.

(** A command without ";" takes every following argument: accepted. *)
Theorem C44_unterminated : forall opens w l c, items w l -> fine opens l -> cmds l = [] -> ~ In (str ";") c -> ~ In (str "--diff") (flags l) ->
  exists p, Params_read opens (w ++ str "--diff-cmd" :: c) = PNext p /\ option_map dc_argv (p_cmd p) = Some c.
Proof.
  intros opens w l c I F C N D. destruct (read_accepts opens w l (str "--diff-cmd" :: c) (EndCmd c) (files l) I) as (p & P & M & _).
  - constructor. exact N.
  - exact F.
  - rewrite C. auto.
  - constructor. discriminate.
  - tauto.
  - exists p. split; [exact P|]. rewrite (m_cmd _ _ _ M), C. reflexivity.
Qed.
Print Assumptions C44_unterminated.

Example C44_example :
  let args := map str ["--color=never"; "a.json"; "--diff-cmd"; "vimdiff"; "{}"; ";"; "-W"; "b.json"; "--color"; "--"; "[1,"; "2]"]%string in
  exists w l e, items w l /\ ends [str "--"; str "[1,"; str "2]"] e /\ args = w ++ [str "--"; str "[1,"; str "2]"] /\
    fine (fun _ => true) l /\ input_names l e (map str ["a.json"; "b.json"; "ARGS"]%string) /\
    exists p, Params_read (fun _ => true) args = PNext p /\ p_strict p = false /\ p_color p = true /\
      p_text p = Some (str "[1, 2]") /\ p_cmd p = Some (mkDiffCmd [str "vimdiff"; str "{}"] None).
Proof.
  exists (map str ["--color=never"; "a.json"; "--diff-cmd"; "vimdiff"; "{}"; ";"; "-W"; "b.json"; "--color"]%string),
    [IFlag (str "--color=never"); IFile (str "a.json"); ICmd [str "vimdiff"; str "{}"]; IFlag (str "-W"); IFile (str "b.json"); IFlag (str "--color")],
    (EndText [str "[1,"; str "2]"]).
  split; [|split; [constructor|split; [reflexivity|split; [|split]]]].
  - apply I_flag; [vm_compute; tauto|]. apply I_file; [intros t; discriminate|].
    apply (I_cmd [str "vimdiff"; str "{}"]); [vm_compute; intuition discriminate|].
    apply I_flag; [vm_compute; tauto|]. apply I_file; [intros t; discriminate|]. apply I_flag; [vm_compute; tauto|constructor].
  - split; [|split; [reflexivity|cbn; auto]]. repeat constructor; vm_compute; intuition discriminate.
  - apply IN_text. vm_compute. intuition discriminate.
  - eexists. split; [vm_compute; reflexivity|]. repeat split.
Qed.

Example C44_reject_example :
  wrong (fun _ => true) [IFile (str "a")] (str "a") /\ wrong (fun _ => true) [] (str "--color=auto") /\
  items [str "a"] [IFile (str "a")] /\ fine (fun _ => true) [IFile (str "a")].
Proof.
  split; [apply W_repeated; [intros t; discriminate|left; reflexivity]|]. split.
  { eapply W_option; [reflexivity|vm_compute; intuition discriminate..]. }
  split; [apply I_file; [intros t; discriminate|constructor]|]. split; [|split; [reflexivity|cbn; auto]]. repeat constructor. intros [].
Qed.

Example C44_stops_example : let args := map str ["-W"; "a"; "--help"; "--nonsense"]%string in
  items (map str ["-W"; "a"]%string) [IFlag (str "-W"); IFile (str "a")] /\ fine (fun _ => true) [IFlag (str "-W"); IFile (str "a")] /\ In (str "--help") stop_names /\
  exists x, Params_read (fun _ => true) args = PStop x.
Proof.
  cbn zeta. split; [apply I_flag; [vm_compute; tauto|]; apply I_file; [intros t; discriminate|constructor]|].
  split; [split; [repeat constructor; intros []|split; [reflexivity|cbn; auto]]|]. split; [left; reflexivity|]. eexists. vm_compute. reflexivity.
Qed.
Example C44_unterminated_example : let args := map str ["a"; "--diff-cmd"; "vimdiff"; "{}"; "-W"]%string in
  items [str "a"] [IFile (str "a")] /\ cmds [IFile (str "a")] = [] /\ ~ In (str ";") (map str ["vimdiff"; "{}"; "-W"]%string) /\
  exists p, Params_read (fun _ => true) args = PNext p /\ option_map dc_argv (p_cmd p) = Some (map str ["vimdiff"; "{}"; "-W"]%string) /\ p_strict p = true.
Proof.
  cbn zeta. split; [apply I_file; [intros t; discriminate|constructor]|]. split; [reflexivity|]. split; [vm_compute; intuition discriminate|].
  eexists. split; [vm_compute; reflexivity|]. split; reflexivity.
Qed.

Example C45_refused_example : exists l, items (map str ["--diff"; "a"]%string) l /\ input_names l EndNone [str "a"] /\
  In (str "--diff") (flags l) /\ ~ (2 <= length [str "a"] <= 3)%nat /\ fine (fun _ => true) l.
Proof.
  exists [IFlag (str "--diff"); IFile (str "a")]. split.
  { apply I_flag; [vm_compute; tauto|]. apply I_file; [intros t; discriminate|constructor]. }
  split; [apply (IN_files [IFlag (str "--diff"); IFile (str "a")] EndNone); discriminate|]. split; [left; reflexivity|]. split; [cbn; lia|].
  split; [repeat constructor; intros []|]. split; [reflexivity|cbn; auto].
Qed.

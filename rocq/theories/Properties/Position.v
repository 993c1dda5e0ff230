(** C13, C14, C15: line, column and excerpt of exceptions and warnings
    (src/linearHistory.cpp, src/jsonException.cpp). *)
From Verif Require Import Model.StreamConsumer Spec.Window Spec.Position Proofs.PositionProofs.
Open Scope Z_scope.

Definition c13_env := mkEnv false.
Definition c13_cfg := Some (mkCfg true false true).
Definition nl := [LF].

(** C13, full statement:
    [forall e params input x, raised e params input x -> exists pre line cur,
       read_before input x pre /\ stands pre line cur /\ hist_line (ehist x) = line mod 2 ^ 32].
    It holds of texts without carriage returns in which no line ends with a
    number, true or false, except that an error at the end of a text ending
    with a line feed may be placed on the line after it. *)
Theorem C13_partial : forall e params input x, plain_lines input -> raised e params input x ->
  exists pre line cur, read_before input x pre /\ stands pre line cur /\
    (hist_line (ehist x) = line mod 2 ^ 32 \/
     eoffset x = None /\ (exists a, input = a ++ [LF]) /\ hist_line (ehist x) = (line + 1) mod 2 ^ 32).
Proof. exact line_partial. Qed.
Print Assumptions C13_partial.

(** Missing: a number that ends its line is counted twice. *)
Theorem C13_refuted : exists e params input x pre, raised e params input x /\ read_before input x pre /\
  forall line cur, stands pre line cur -> hist_line (ehist x) = line + 1.
Proof.
  exists c13_env, c13_cfg, (str "[1," ++ nl ++ str "2" ++ nl ++ str "}"). eexists _, _.
  split; [left; vm_compute; reflexivity|]. split; [vm_compute; symmetry; apply (app_nil_r _)|].
  intros line cur S. apply stands_here in S. destruct S as [-> _]. vm_compute. reflexivity.
Qed.
Print Assumptions C13_refuted.

(** So does a carriage return. *)
Theorem C13_crlf_refuted : exists e params input x pre, raised e params input x /\ read_before input x pre /\
  forall line cur, stands pre line cur -> hist_line (ehist x) = line + 1.
Proof.
  exists c13_env, c13_cfg, (str "[" ++ [CR; LF] ++ str "}"). eexists _, _.
  split; [left; vm_compute; reflexivity|]. split; [vm_compute; symmetry; apply (app_nil_r _)|].
  intros line cur S. apply stands_here in S. destruct S as [-> _]. vm_compute. reflexivity.
Qed.
Print Assumptions C13_crlf_refuted.

Definition two_lines := str "{ ""a"": [true, 1 ]," ++ nl ++ nl ++ str "  ""b"": nul?, ""c"": 2 }".
Example C13_example : plain_lines two_lines /\ exists x, raised c13_env c13_cfg two_lines x /\ hist_line (ehist x) = 3.
Proof. split; [apply plain_linesb_ok; vm_compute; reflexivity|]. eexists. split; [left; vm_compute; reflexivity|reflexivity]. Qed.

(** C14, full statement:
    [forall e params input x, raised e params input x -> exists pre line cur,
       read_before input x pre /\ stands pre line cur /\ hist_col (ehist x) = Some (length cur mod 2 ^ 32)].
    It holds from the second line on, of the texts of C13 in which moreover no
    null and no \u escape is broken by a line feed, unless the text is at its end. *)
Theorem C14_partial : forall e params input x, plain_lines input -> whole_words input ->
  raised e params input x -> eoffset x <> None ->
  exists pre line cur, read_before input x pre /\ stands pre line cur /\
    (line <> 1 -> hist_col (ehist x) = Some (Z.of_nat (length cur) mod 2 ^ 32)).
Proof.
  intros e params input x P W R E. destruct (place_partial e params input x P W R E) as (pre & line & cur & B & S & C & _).
  exists pre, line, cur. auto.
Qed.
Print Assumptions C14_partial.

(** Missing: on the first line the count was never initialised (the constructor
    of WrappedBuffer leaves it out); the column is indeterminate. *)
Theorem C14_refuted : exists e params input x, plain_lines input /\ whole_words input /\ raised e params input x /\
  eoffset x <> None /\ hist_col (ehist x) = None.
Proof.
  exists c13_env, c13_cfg, (str "[1 2]"). eexists. split; [apply plain_linesb_ok; reflexivity|].
  split; [apply whole_wordsb_ok; reflexivity|]. split; [left; vm_compute; reflexivity|]. split; [discriminate|reflexivity].
Qed.
Print Assumptions C14_refuted.

Example C14_example : plain_lines two_lines /\ whole_words two_lines /\ exists x, raised c13_env c13_cfg two_lines x /\
  eoffset x <> None /\ hist_line (ehist x) = 3 /\ hist_col (ehist x) = Some 11.
Proof.
  split; [apply plain_linesb_ok; vm_compute; reflexivity|]. split; [apply whole_wordsb_ok; vm_compute; reflexivity|].
  eexists. split; [left; vm_compute; reflexivity|]. split; [discriminate|]. split; reflexivity.
Qed.

(** C15, full statement: [forall e params input x, raised e params input x -> exists pre line cur,
       read_before input x pre /\ stands pre line cur /\
       hist_text (ehist x) = map (fun c => Some (Some c)) (lastn 45 cur)].
    On the texts of C14, not at the end of the text: the last 45 bytes of the
    line, or the last 44 (directly after a pop_back). *)
Theorem C15_partial : forall e params input x, plain_lines input -> whole_words input ->
  raised e params input x -> eoffset x <> None ->
  exists pre line cur k, read_before input x pre /\ stands pre line cur /\ (44 <= k <= 45)%nat /\
    hist_text (ehist x) = map (fun c => Some (Some c)) (lastn k cur).
Proof.
  intros e params input x P W R E. destruct (place_partial e params input x P W R E) as (pre & line & cur & B & S & _ & k & K & T).
  exists pre, line, cur, k. auto.
Qed.
Print Assumptions C15_partial.

(** Missing: a number at the end of its line is taken out of the excerpt
    together with the line feed ... *)
Theorem C15_refuted : exists e params input x pre, raised e params input x /\ read_before input x pre /\
  forall line cur, stands pre line cur -> cur <> [] /\ hist_text (ehist x) = [].
Proof.
  exists c13_env, c13_cfg, (str "{" ++ nl ++ str "1" ++ nl ++ str "}"). eexists _, (str "{" ++ nl ++ str "1").
  split; [left; vm_compute; reflexivity|]. split; [vm_compute; reflexivity|].
  intros line cur S. apply stands_here in S. destruct S as [_ ->]. vm_compute. split; [discriminate|reflexivity].
Qed.
Print Assumptions C15_refuted.

(** ... and at the end of the text the excerpt ends with a byte 255 that was
    never read. *)
Theorem C15_eof_refuted : exists e params input x, plain_lines input /\ whole_words input /\ raised e params input x /\
  hist_text (ehist x) = map (fun c => Some (Some c)) (input ++ [EOFCHAR]).
Proof.
  exists c13_env, c13_cfg, (str "[ 1 "). eexists. split; [apply plain_linesb_ok; reflexivity|].
  split; [apply whole_wordsb_ok; reflexivity|]. split; [left; vm_compute; reflexivity|reflexivity].
Qed.
Print Assumptions C15_eof_refuted.

Definition long_line := str "[ ""a long enough string that scrolls"", true, null , 12345 6789 ]".
Example C15_example : plain_lines long_line /\ whole_words long_line /\ exists x, raised c13_env c13_cfg long_line x /\
  eoffset x <> None /\ hist_text (ehist x) = map (fun c => Some (Some c)) (str "tring that scrolls"", true, null , 12345 6789").
Proof.
  split; [apply plain_linesb_ok; vm_compute; reflexivity|]. split; [apply whole_wordsb_ok; vm_compute; reflexivity|].
  eexists. split; [left; vm_compute; reflexivity|]. split; [discriminate|]. vm_compute. reflexivity.
Qed.

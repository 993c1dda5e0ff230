(** Key sequences and widths of texts: C51, C54. *)
From Verif Require Import Spec.KeySpec.
From Verif Require Proofs.KeySeqProofs.
Open Scope Z_scope.

(** C51, full statement: C51_partial with "control key" for "key whose name
    starts with '^'", and no key without name; false (C51_refuted: the key '^'
    itself is taken for a prefix; C51_null_refuted: a key without name is a null
    pointer dereference).  Proved: for every naming, reading ends with the first
    key whose name does not start with '^', and answers all names joined by '-';
    answers -1 of wgetch change nothing; until then it waits. *)
Theorem C51_partial : forall keyname before names k name after,
  Forall2 (named keyname) (pressed before) names -> (forall m, In m names -> prefix_name m) ->
  k <> -1 -> named keyname k name -> ~ prefix_name name ->
  read keyname (before ++ k :: after) = ReadKey (dashed (names ++ [name])) after.
Proof. exact KeySeqProofs.read_key. Qed.
Print Assumptions C51_partial.

Theorem C51_waits : forall keyname input names,
  Forall2 (named keyname) (pressed input) names -> (forall m, In m names -> prefix_name m) ->
  read keyname input = NeedsMore (dashed names).
Proof. exact KeySeqProofs.read_waits. Qed.
Print Assumptions C51_waits.

Theorem C51_refuted : exists c input, ~ control c /\ read ascii_name (c :: input) <> ReadKey (str "^") input /\
  read ascii_name [c; 113] = ReadKey (str "^-Q") [].
Proof. exists 94, [113]. split; [intros [[_ H]|H]; discriminate H|]. split; [vm_compute; discriminate|reflexivity]. Qed.
Print Assumptions C51_refuted.

Theorem C51_null_refuted : forall keyname before names k after,
  Forall2 (named keyname) (pressed before) names -> (forall m, In m names -> prefix_name m) ->
  k <> -1 -> keyname (toupper k) = None -> read keyname (before ++ k :: after) = NullName.
Proof. exact KeySeqProofs.read_null. Qed.
Print Assumptions C51_null_refuted.

(** Two timeouts, Ctrl-W, a timeout, w. *)
Example C51_example :
  Forall2 (named ascii_name) (pressed [-1; -1; 23; -1]) [str "^W"] /\
  read ascii_name ([-1; -1; 23; -1] ++ 119 :: [106; -1]) = ReadKey (str "^W-W") [106; -1] /\
  read ascii_name [-1; 23; -1] = NeedsMore (str "^W").
Proof. split; [constructor; [reflexivity|constructor]|]. split; reflexivity. Qed.

(** C54, full statement: [lazystrlen mb 0 (concat cs) = Width (length cs)] for
    every list [cs] of characters; false (C54_refuted: every non-empty text of
    one-byte characters, such as ASCII, writes one element after the end of the
    buffer; C54_invalid_refuted: a text that is invalid in the locale reads
    uninitialised memory).  Proved: for the other texts of characters; and a
    length computed before is answered again. *)
Theorem C54_partial : forall mb cs,
  Forall (character mb) cs -> Exists (fun c => (1 < length c)%nat) cs ->
  lazystrlen mb 0 (concat cs) = Width (length cs).
Proof. exact KeySeqProofs.lazy_chars. Qed.
Print Assumptions C54_partial.

(** What follows a null byte is not displayed. *)
Theorem C54_null_byte : forall mb cs rest,
  Forall (character mb) cs -> lazystrlen mb 0 (concat cs ++ NUL :: rest) = Width (length cs).
Proof. exact KeySeqProofs.lazy_nul. Qed.
Print Assumptions C54_null_byte.
Example C54_null_byte_example : lazystrlen utf8_locale 0 (concat [str "a"; str "b"] ++ NUL :: str "cde") = Width 2 /\ Forall (character utf8_locale) [str "a"; str "b"].
Proof. split; [vm_compute; reflexivity|]. repeat constructor; try (intros s; reflexivity); eexists _, _; (split; [reflexivity|discriminate]). Qed.

Theorem C54_refuted : forall mb cs,
  Forall (character mb) cs -> cs <> [] -> Forall (fun c => length c = 1%nat) cs ->
  lazystrlen mb 0 (concat cs) = OutOfBounds.
Proof. exact KeySeqProofs.lazy_bytes. Qed.
Print Assumptions C54_refuted.

Theorem C54_invalid_refuted : forall mb cs a rest,
  Forall (character mb) cs -> a <> NUL -> mb (a :: rest) = None ->
  lazystrlen mb 0 (concat cs ++ a :: rest) = Uninitialised.
Proof. exact KeySeqProofs.lazy_invalid. Qed.
Print Assumptions C54_invalid_refuted.

(** strlen() (called nowhere) answers nothing defined before lazystrlen() has
    been called, but for texts that are empty or start with a null byte. *)
Theorem C54_strlen_refuted : forall mb a s n, a <> NUL -> strlen mb 0 (a :: s) <> Width n.
Proof. exact KeySeqProofs.strlen_never. Qed.
Print Assumptions C54_strlen_refuted.

(** a, e acute, euro sign in UTF-8; then ASCII only; then a lone lead byte. *)
Example C54_example :
  let cs := [str "a"; [chr 195; chr 169]; [chr 226; chr 130; chr 172]] in
  Forall (character utf8_locale) cs /\ Exists (fun c => (1 < length c)%nat) cs /\ length cs = 3%nat /\
  lazystrlen utf8_locale 0 (concat cs) = Width 3 /\ lazystrlen utf8_locale 3 (concat cs) = Width 3 /\
  lazystrlen utf8_locale 0 (str "ab") = OutOfBounds /\
  utf8_locale [chr 195; chr 65] = None /\ lazystrlen utf8_locale 0 [chr 97; chr 195; chr 65] = Uninitialised.
Proof.
  cbn zeta. split.
  - repeat constructor; try (intros s; reflexivity); eexists _, _; (split; [reflexivity|discriminate]).
  - split; [right; left; cbn; auto|]. repeat split.
Qed.

(** Well-formed texts: C01, C06 (order of entries), C10 (escapes with --ascii),
    C11, C12. *)
From Verif Require Import Model.StreamConsumer Spec.JsonGrammar Proofs.UnicodeProofs Proofs.GrammarProps.
Open Scope Z_scope.

(** C01.  Full statement: for every text of the RFC grammar,
      jval (jstring rfc_ctrl rfc_uni) t v -> distinct_keys v -> ws w0 -> boundary rest ->
    reading w0 ++ t ++ rest gives v (entries sorted unless --keep-order).
    It is false because of control escapes (C01_refuted).  Proved: the same for
    texts without escapes of control characters in their strings. *)
Theorem C01_partial : forall e p w0 t v rest,
  ignoreUnicode p = false ->
  jval (jstring no_ctrl rfc_uni) t v -> distinct_keys v -> ws w0 -> boundary rest ->
  exists root s', read_doc e (Some p) (w0 ++ t ++ rest) = Ok (Some root, s') /\ inp s' = rest /\ warns s' = [] /\
    if sortObjects p then reordered (erase root) v /\ all_objects (StronglySorted byte_lt) (erase root)
    else erase root = v.
Proof. exact read_rfc. Qed.
Print Assumptions C01_partial.

(** C01 for all texts of the grammar, given what the program makes of escapes:
    those of control characters stay as they are spelled. *)
Theorem C01_escapes_kept : forall e p w0 t v rest,
  jval (jstring kept_ctrl (if ignoreUnicode p then kept_uni else rfc_uni)) t v -> distinct_keys v -> ws w0 -> boundary rest ->
  exists root s', read_doc e (Some p) (w0 ++ t ++ rest) = Ok (Some root, s') /\ inp s' = rest /\ warns s' = [] /\
    if sortObjects p then reordered (erase root) v /\ all_objects (StronglySorted byte_lt) (erase root)
    else erase root = v.
Proof. exact read_kept_escapes. Qed.
Print Assumptions C01_escapes_kept.

Example C01_escapes_kept_example :
  jval (jstring kept_ctrl kept_uni) (str "[""\n\u00e9""]") (TArr [TPrim (PStr (str "\n\u00e9"))]) /\
  distinct_keys (TArr [TPrim (PStr (str "\n\u00e9"))]) /\ ws [" "%char] /\ boundary [] /\
  exists root s', read_doc (mkEnv true) (Some (mkCfg true true true)) (str " [""\n\u00e9""]") = Ok (Some root, s') /\
    erase root = TArr [TPrim (PStr (str "\n\u00e9"))].
Proof.
  split; [|split; [repeat constructor|split; [repeat constructor|split; [intros c r; discriminate|]]]].
  - apply (J_arr _ (str """\n\u00e9""")). apply (E_one _ [] (str """\n\u00e9""") []); try constructor.
    apply (J_str _ (str "\n\u00e9") (str "\n\u00e9")).
    apply (JS_cons _ _ (str "\n") (str "\n") (str "\u00e9") (str "\u00e9")); [apply JC_ctrl; [cbv; auto|constructor]|].
    apply (JS_cons _ _ (str "\u00e9") (str "\u00e9") [] []); [|constructor]. apply JC_uni with (h := str "00e9"). split; [|reflexivity].
    exists 233. apply (CU _ _ _ _ 0 0 14 9); [apply HD_dec|apply HD_dec|apply HD_low|apply HD_dec]; cbv; try reflexivity; split; discriminate.
  - eexists _, _. split; vm_compute; reflexivity.
Qed.

(** A line feed escape is not read as a line feed. *)
Theorem C01_refuted : exists t v,
  jval (jstring rfc_ctrl rfc_uni) t v /\ distinct_keys v /\
  exists root s', read_doc (mkEnv false) (Some (mkCfg true false true)) t = Ok (Some root, s') /\ erase root <> v.
Proof.
  exists (str """\n"""), (TPrim (PStr [LF])). split; [|split; [constructor|]].
  - apply (J_str _ (str "\n") [LF]). apply (JS_cons _ _ (str "\n") [LF] [] []); [|constructor].
    apply JC_ctrl; [cbv; auto|apply RC_n].
  - eexists _, _. split; [vm_compute; reflexivity|]. vm_compute. discriminate.
Qed.
Print Assumptions C01_refuted.

Definition t1 := str "{""b"" : [1,-2.5,null],
 ""a"":{},""\u00e9\/"":true}".
Definition v1 := TObj [(str "b", TArr [TPrim (PInt 1); TPrim (PDbl (decimal_to_double true 25 1)); TPrim PNull]);
                       (str "a", TObj []); ([chr 195; chr 169; "/"%char], TPrim (PBool true))].
Ltac chr_ := first [apply JC_plain; vm_compute; congruence | apply JC_esc; auto; fail].
Example C01_example : jval (jstring no_ctrl rfc_uni) t1 v1 /\ distinct_keys v1 /\ ws [LF; " "%char] /\ boundary [LF].
Proof.
  assert (W1 : ws [" "%char]) by (repeat constructor).
  assert (W2 : ws [LF; " "%char]) by (repeat constructor; vm_compute; tauto).
  assert (W0 : ws []) by constructor.
  split; [|split; [|split; [exact W2|intros c r [= <- _]; vm_compute; intuition congruence]]].
  - apply (J_obj _ (str """b"" : [1,-2.5,null],
 ""a"":{},""\u00e9\/"":true")).
    apply (M_more _ [] (str "b") (str "b") [" "%char] [" "%char] (str "[1,-2.5,null]") _ []); auto.
    { apply (JS_cons _ _ (str "b") (str "b") [] []); [chr_|constructor]. }
    { apply (J_arr _ (str "1,-2.5,null")).
      apply (E_more _ [] (str "1") []); auto.
      { apply (J_int _ false (str "1")); [|apply (IP_int 1); vm_compute; split; congruence].
        split; [split; [discriminate|repeat constructor; vm_compute; congruence]|intros c r [= <- <-]; reflexivity]. }
      apply (E_more _ [] (str "-2.5") []); auto.
      { apply (J_dbl _ true (str "2") (str "5")).
        - split; [split; [discriminate|repeat constructor; vm_compute; congruence]|intros c r [= <- <-]; reflexivity].
        - split; [discriminate|repeat constructor; vm_compute; congruence]. }
      apply (E_one _ [] (str "null") []); auto. apply J_null. }
    apply (M_more _ [LF; " "%char] (str "a") (str "a") [] [] (str "{}") _ []); auto.
    { apply (JS_cons _ _ (str "a") (str "a") [] []); [chr_|constructor]. }
    { apply (J_obj0 _ []). exact W0. }
    apply (M_one _ [] (str "\u00e9\/") [chr 195; chr 169; "/"%char] [] [] (str "true") _ []); auto; [|apply J_true].
    apply (JS_cons _ _ (str "\u00e9") [chr 195; chr 169] (str "\/") (str "/")).
    + apply (JC_uni _ _ (str "00e9")). exists 233. split; [|split].
      * apply (CU "0" "0" "e" "9" 0 0 14 9); [apply HD_dec|apply HD_dec|apply HD_low|apply HD_dec]; vm_compute; intuition congruence.
      * vm_compute. intuition congruence.
      * apply (U2 _ _ 3 41); vm_compute; intuition congruence.
    + apply (JS_cons _ _ (str "\/") (str "/") [] []); [|constructor]. apply JC_esc. auto.
  - constructor.
    + repeat constructor; cbn; intuition discriminate.
    + repeat constructor.
Qed.

(** C06: with --keep-order, entries are in the order of the text; a key given
    several times (accepted with -W) counts where it is given last. *)
Theorem C06_input_order : forall e p w0 t v rest,
  sortObjects p = false ->
  jval (jstring kept_ctrl (conf_uni e p)) t v -> (strict p = true -> distinct_keys v) -> ws w0 -> boundary rest ->
  exists root s', read_doc e (Some p) (w0 ++ t ++ rest) = Ok (Some root, s') /\ erase root = last_keys v /\
    inp s' = rest /\ (distinct_keys v -> warns s' = []).
Proof. exact read_kept_order. Qed.
Print Assumptions C06_input_order.

Example C06_order_example : 
  let v := TObj [(str "b", TPrim PNull); (str "a", TPrim (PBool true)); (str "b", TPrim (PBool false))] in
  jval (jstring kept_ctrl (conf_uni (mkEnv true) (mkCfg false false false))) (str "{""b"":null,""a"":true,""b"":false}") v /\
  last_keys v = TObj [(str "a", TPrim (PBool true)); (str "b", TPrim (PBool false))].
Proof.
  assert (W0 : ws []) by constructor.
  split; [|reflexivity]. apply (J_obj _ (str """b"":null,""a"":true,""b"":false")).
  apply (M_more _ [] (str "b") (str "b") [] [] (str "null") _ []); auto; [|apply J_null|].
  { apply (JS_cons _ _ (str "b") (str "b") [] []); [chr_|constructor]. }
  apply (M_more _ [] (str "a") (str "a") [] [] (str "true") _ []); auto; [|apply J_true|].
  { apply (JS_cons _ _ (str "a") (str "a") [] []); [chr_|constructor]. }
  apply (M_one _ [] (str "b") (str "b") [] [] (str "false") _ []); auto; [|apply J_false].
  apply (JS_cons _ _ (str "b") (str "b") [] []); [chr_|constructor].
Qed.

(** C10, third part: with --ascii every unicode escape of a string of the
    grammar is in the value as it is spelled. *)
Theorem C10_ascii_verbatim : forall e p w0 t v rest,
  ignoreUnicode p = true ->
  jval (jstring kept_ctrl kept_uni) t v -> distinct_keys v -> ws w0 -> boundary rest ->
  exists root s', read_doc e (Some p) (w0 ++ t ++ rest) = Ok (Some root, s') /\ inp s' = rest /\ warns s' = [] /\
    if sortObjects p then reordered (erase root) v /\ all_objects (StronglySorted byte_lt) (erase root)
    else erase root = v.
Proof. exact read_ascii_verbatim. Qed.
Print Assumptions C10_ascii_verbatim.

Example C10_verbatim_example : jval (jstring kept_ctrl kept_uni) (str """\uD83d""") (TPrim (PStr (str "\uD83d"))).
Proof.
  apply (J_str _ (str "\uD83d")). apply (JS_cons _ _ (str "\uD83d") (str "\uD83d") [] []); [|constructor].
  apply (JC_uni _ _ (str "D83d")). split; [|reflexivity]. exists 55357.
  apply (CU "D" "8" "3" "d" 13 8 3 13); [apply HD_up|apply HD_dec|apply HD_dec|apply HD_low]; vm_compute; intuition congruence.
Qed.

(** C11: what appendUnicode does with four characters.  The bytes it appends
    are the UTF-8 encoding of the code unit; the only other outcomes are an
    error for the first character that is not a hexadecimal digit, and an
    exception for surrogates when the library refuses them. *)
Theorem C11_unicode_escape : forall e h, length h = 4%nat ->
  match appendUnicode e h with
  | UniOk bs => exists u, code_unit h u /\ utf8 bs u
  | UniRange => encodes_surrogates e = false /\ exists u, code_unit h u /\ surrogate u
  | UniInvalid c => exists p q, h = p ++ c :: q /\ (~ exists v, hex_digit c v) /\ Forall (fun c => exists v, hex_digit c v) p
  end.
Proof. exact appendUnicode_spec. Qed.
Print Assumptions C11_unicode_escape.

(** C11: the encoding is determined by the code unit, and conversely. *)
Theorem C11_decodes_back : forall b1 b2 u v, utf8 b1 u -> utf8 b2 v -> (b1 = b2 <-> u = v).
Proof. exact utf8_bijective. Qed.
Print Assumptions C11_decodes_back.

(** C11: every four hexadecimal digits are accepted, surrogates apart. *)
Theorem C11_accepts : forall e h u, code_unit h u -> encodes_surrogates e = true \/ ~ surrogate u ->
  exists bs, appendUnicode e h = UniOk bs /\ utf8 bs u.
Proof. exact appendUnicode_ok. Qed.
Print Assumptions C11_accepts.

Example C11_example : appendUnicode (mkEnv false) (str "20aC") = UniOk [chr 226; chr 130; chr 172] /\
  code_unit (str "20aC") 8364 /\ ~ surrogate 8364 /\ utf8 [chr 226; chr 130; chr 172] 8364 /\
  appendUnicode (mkEnv false) (str "20g0") = UniInvalid "g" /\ appendUnicode (mkEnv false) (str "d800") = UniRange.
Proof.
  split; [reflexivity|]. split; [|split; [vm_compute; intuition congruence|split; [|split; reflexivity]]].
  - apply (CU "2" "0" "a" "C" 2 0 10 12); [apply HD_dec|apply HD_dec|apply HD_low|apply HD_up]; vm_compute; intuition congruence.
  - apply (U3 _ _ _ 2 2 44); vm_compute; intuition congruence.
Qed.

(** C12: an integer literal is read as that integer (int, else long), or ends
    the program when it does not fit 64 bits. *)
Theorem C12_integer_read : forall e params w0 neg l rest,
  digits l -> ws w0 -> boundary rest ->
  let z := signed neg (dec_value l) in
  (exists x m s', int_prim z x /\ read_doc e params (w0 ++ minus neg ++ l ++ rest) = Ok (Some (NPrim m x), s') /\
     inp s' = rest /\ warns s' = []) \/
  (~ (- 2 ^ 63 <= z < 2 ^ 63) /\ read_doc e params (w0 ++ minus neg ++ l ++ rest) = Abort StdOutOfRange).
Proof. exact read_int. Qed.
Print Assumptions C12_integer_read.

(** C12: stringify() prints the canonical decimal notation. *)
Theorem C12_integer_printed : forall z, exists neg l,
  dec_Z z = minus neg ++ l /\ int_digits l /\ signed neg (dec_value l) = z /\ (neg = true -> z <> 0).
Proof. exact dec_Z_spec. Qed.
Print Assumptions C12_integer_printed.

(** C12, "larger literals are reported as an error", is false: the exception is
    not a JsonException and nobody catches it. *)
Theorem C12_overflow_refuted : exists input, (forall c, In c input -> dec_digit c) /\
  read_doc (mkEnv false) (Some (mkCfg true false true)) input = Abort StdOutOfRange.
Proof.
  exists (str "9223372036854775808"). split; [|vm_compute; reflexivity].
  intros c I. cbn in I. repeat (destruct I as [<-|I]; [vm_compute; split; congruence|]). destruct I.
Qed.
Print Assumptions C12_overflow_refuted.

Example C12_example : digits (str "0042949672960") /\ signed true (dec_value (str "0042949672960")) = -42949672960 /\
  int_prim (-42949672960) (PLong (-42949672960)) /\ dec_Z (-42949672960) = str "-42949672960".
Proof.
  split; [split; [discriminate|repeat constructor; vm_compute; congruence]|]. split; [reflexivity|].
  split; [apply IP_long; vm_compute; intuition congruence|reflexivity].
Qed.

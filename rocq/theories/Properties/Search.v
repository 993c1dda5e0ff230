(** Search patterns: C29-C33. *)
From Verif Require Import Model.SearchPattern Model.Unicode Spec.SearchSpec Spec.SearchTypes Spec.EscapeSpec
  Proofs.SearchProofs Proofs.ExtractProofs.
Open Scope Z_scope.

(** C29.  Full statement: without /w, /e and type flags a pattern matches a text
    iff it occurs in it (or is it, with /f), tabs counting as blanks and, with
    /i, case ignored.  It is false for non-ASCII patterns with /i and for empty
    texts (C29_refuted).  Proved otherwise, for an initialised typeFlag (see
    C31). *)
Theorem C29_partial : forall rx input p fl ic whole s t,
  typed input p fl -> last_type fl None -> ~ In "w"%char fl -> ~ In "e"%char fl ->
  (ic = true <-> In "i"%char fl) -> (whole = true <-> In "f"%char fl) ->
  match_ rx (SearchPattern 0 input) s t = true <->
  s <> [] /\ matchable ic p /\ (if whole then seen ic s = fold ic p else occurs (fold ic p) (seen ic s)).
Proof. exact search_plain. Qed.
Print Assumptions C29_partial.

Example C29_example : typed (str "  a\/B c/i") (str "a/B c") (str "i") /\ last_type (str "i") None /\
  match_ (fun _ _ _ => false) (SearchPattern 0 (str "  a\/B c/i")) (str "xA/b" ++ TAB :: str "Cy") EEntry = true /\
  match_ (fun _ _ _ => false) (SearchPattern 0 (str "  a\/B c/if")) (str "xA/b" ++ TAB :: str "Cy") EEntry = false.
Proof.
  split; [|split; [|vm_compute; auto]].
  - apply (Ty_flags (str "  ") (str "a\/B c") (str "a/B c") (str "i")).
    + repeat constructor; left; reflexivity.
    + cbn. repeat (constructor; try discriminate).
    + cbn. intuition discriminate.
    + intros c t [= <- _] [B|B]; discriminate.
    + cbn. intuition discriminate.
  - constructor. cbn. intros c [<-|[]]. intuition discriminate.
Qed.

Theorem C29_refuted :
  (exists input p fl s t, typed input p fl /\ In "i"%char fl /\ ~ In "w"%char fl /\ ~ In "e"%char fl /\ ~ In "f"%char fl /\
     last_type fl None /\ occurs (map tolower p) (seen true s) /\ s <> [] /\
     forall rx, match_ rx (SearchPattern 0 input) s t = false) /\
  (exists input s t, typed input [] [] /\ occurs [] (seen false s) /\
     forall rx, match_ rx (SearchPattern 0 input) s t = false).
Proof.
  split.
  - exists (chr 195 :: chr 169 :: str "/i"), [chr 195; chr 169], (str "i"), [chr 195; chr 169], EEntry.
    split; [apply (Ty_flags [] [chr 195; chr 169] [chr 195; chr 169] (str "i"))|].
    + constructor.
    + repeat (constructor; try discriminate).
    + cbn. intuition discriminate.
    + intros c t [= <- _] [B|B]; discriminate.
    + cbn. intuition discriminate.
    + repeat (split; [cbn; intuition discriminate|]). split; [constructor; cbn; intros c [<-|[]]; intuition discriminate|].
      split; [exists [], []; vm_compute; reflexivity|]. split; [discriminate|]. intros rx. vm_compute. reflexivity.
  - exists [], [], EEntry. split; [apply (Ty_plain [] [] [] []); auto; [constructor|intros c t E; discriminate]|].
    split; [exists [], []; reflexivity|]. intros rx. vm_compute. reflexivity.
Qed.
Print Assumptions C29_refuted.

(** C30.  Full statement: with /w a pattern matches iff word_in holds.  False:
    a word at one end of a longer text is not found (C30_refuted).  Proved: what
    is found is a word, and it is found iff it is the whole text or stands
    between two blanks. *)
Theorem C30_partial : forall rx input p fl ic s t,
  typed input p fl -> last_type fl None -> In "w"%char fl -> ~ In "e"%char fl -> ~ In "f"%char fl ->
  (ic = true <-> In "i"%char fl) ->
  match_ rx (SearchPattern 0 input) s t = true <->
  s <> [] /\ matchable ic p /\ (seen ic s = fold ic p \/ occurs (" "%char :: fold ic p ++ [" "%char]) (seen ic s)).
Proof. exact search_word. Qed.
Print Assumptions C30_partial.

Theorem C30_sound_partial : forall rx input p fl ic s t,
  typed input p fl -> last_type fl None -> In "w"%char fl -> ~ In "e"%char fl -> ~ In "f"%char fl ->
  (ic = true <-> In "i"%char fl) ->
  match_ rx (SearchPattern 0 input) s t = true -> word_in (fold ic p) (seen ic s).
Proof. exact search_word_sound. Qed.
Print Assumptions C30_sound_partial.

Lemma typed_aw : typed (str "a/w") (str "a") (str "w") /\ last_type (str "w") None.
Proof.
  split.
  - apply (Ty_flags [] (str "a") (str "a") (str "w")).
    + constructor.
    + repeat (constructor; try discriminate).
    + cbn. intuition discriminate.
    + intros c t [= <- _] [B|B]; discriminate.
    + cbn. intuition discriminate.
  - constructor. cbn. intros c [<-|[]]. intuition discriminate.
Qed.

Example C30_example : typed (str "a/w") (str "a") (str "w") /\ last_type (str "w") None /\
  match_ (fun _ _ _ => false) (SearchPattern 0 (str "a/w")) (str "b a c") EEntry = true /\
  match_ (fun _ _ _ => false) (SearchPattern 0 (str "a/w")) (str "b ab c") EEntry = false.
Proof. split; [apply typed_aw|]. split; [apply typed_aw|]. vm_compute. auto. Qed.

Theorem C30_refuted : exists input p fl s t, typed input p fl /\ last_type fl None /\ In "w"%char fl /\
  ~ In "e"%char fl /\ ~ In "f"%char fl /\ ~ In "i"%char fl /\ word_in p (seen false s) /\
  forall rx, match_ rx (SearchPattern 0 input) s t = false.
Proof.
  exists (str "a/w"), (str "a"), (str "w"), (str "a b"), EEntry.
  split; [apply typed_aw|]. split; [apply typed_aw|]. split; [left; reflexivity|].
  repeat (split; [cbn; intuition discriminate|]).
  split; [|intros rx; vm_compute; reflexivity].
  exists [], (str " b"). split; [reflexivity|]. split; [auto|]. right. exists (str "b"). reflexivity.
Qed.
Print Assumptions C30_refuted.

(** C31: with a type flag (the last one counts) only elements of that type
    match, whatever the uninitialised member held. *)
Theorem C31_typed : forall rx junk input p fl c s t,
  typed input p fl -> last_type fl (Some c) ->
  (match_ rx (SearchPattern junk input) s t = true -> of_type c t) /\
  (forall junk' t', of_type c t -> of_type c t' ->
     match_ rx (SearchPattern junk input) s t = match_ rx (SearchPattern junk' input) s t').
Proof. exact search_type. Qed.
Print Assumptions C31_typed.

(** C31: a type flag only restricts. *)
Theorem C31_restricts : forall rx junk input p fl c s t input' fl',
  typed input p fl -> last_type fl (Some c) -> typed input' p fl' -> last_type fl' None ->
  (forall d, ~ In d ["b"; "n"; "s"; "o"]%char -> (In d fl <-> In d fl')) ->
  of_type c t -> match_ rx (SearchPattern junk input) s t = match_ rx (SearchPattern 0 input') s t.
Proof. exact search_type_only. Qed.
Print Assumptions C31_restricts.

(** C31, second half.  Full statement: without a type flag the type of the
    element is irrelevant, whatever [junk] (the uninitialised typeFlag).  False
    (C31_refuted); proved when [junk] is no type code. *)
Theorem C31_untyped_partial : forall rx junk input p fl s t t', typed input p fl -> last_type fl None ->
  ~ 1 <= junk <= 4 -> match_ rx (SearchPattern junk input) s t = match_ rx (SearchPattern junk input) s t'.
Proof. exact search_untyped. Qed.
Print Assumptions C31_untyped_partial.

Lemma typed_a : typed (str "a") (str "a") [].
Proof.
  apply (Ty_plain [] (str "a") (str "a") []); auto.
  - repeat (constructor; try discriminate).
  - cbn. intuition discriminate.
  - intros c t [= <- _] [B|B]; discriminate.
Qed.

Example C31_example : typed (str "a/bs") (str "a") (str "bs") /\ last_type (str "bs") (Some "s"%char) /\
  of_type "s" (EPrim (PStr (str "cat"))) /\ ~ of_type "s" EEntry /\
  match_ (fun _ _ _ => false) (SearchPattern 7 (str "a/bs")) (str "cat") (EPrim (PStr (str "cat"))) = true /\
  match_ (fun _ _ _ => false) (SearchPattern 7 (str "a/bs")) (str "cat") EEntry = false /\
  match_ (fun _ _ _ => false) (SearchPattern 7 (str "a")) (str "cat") EEntry = true.
Proof.
  split; [|split; [|split; [constructor|split; [inversion 1|vm_compute; auto]]]].
  - apply (Ty_flags [] (str "a") (str "a") (str "bs")).
    + constructor.
    + repeat (constructor; try discriminate).
    + cbn. intuition discriminate.
    + intros c t [= <- _] [B|B]; discriminate.
    + cbn. intuition discriminate.
  - apply (LT_some (str "b") "s" []); [cbn; tauto|intros d []].
Qed.

Theorem C31_refuted : exists junk input p s t t', typed input p [] /\
  forall rx, match_ rx (SearchPattern junk input) s t = true /\ match_ rx (SearchPattern junk input) s t' = false.
Proof.
  exists 1, (str "a"), (str "a"), (str "a"), (EPrim (PBool true)), EEntry. split; [apply typed_a|].
  intros rx. vm_compute. auto.
Qed.
Print Assumptions C31_refuted.

(** C32: every input without NUL is blanks, a spelled text and perhaps flags,
    and is read as such. *)
Theorem C32_syntax : forall junk input p fl ic, typed input p fl -> (ic = true <-> In "i"%char fl) ->
  let sp := SearchPattern junk input in
  pat sp = fold ic p /\ (fcase sp = true <-> In "i"%char fl) /\ (fword sp = true <-> In "w"%char fl) /\
  (fstr sp = true <-> In "f"%char fl) /\ (fregex sp = true <-> In "e"%char fl).
Proof. exact typed_read. Qed.
Print Assumptions C32_syntax.

(** C32: with /e the text is the regular expression given to std::regex_search
    ([rx]), ignoring case iff /i is given (then in lower case). *)
Theorem C32_regex : forall rx input p fl ic s t,
  typed input p fl -> last_type fl None -> In "e"%char fl -> (ic = true <-> In "i"%char fl) ->
  match_ rx (SearchPattern 0 input) s t = rx (fold ic p) ic s.
Proof. exact search_regex. Qed.
Print Assumptions C32_regex.

Theorem C32_all_inputs : forall input, ~ In NUL input -> exists p fl, typed input p fl.
Proof. exact typed_total. Qed.
Print Assumptions C32_all_inputs.

(** C32, last clause.  Full statement: every text without NUL is the pattern of
    some input.  False of texts with a leading blank and of a lone backslash
    (C32_refuted).  Proved for texts without backslash and leading blank: escape
    the slashes. *)
Theorem C32_spelling_partial : forall p, ~ In BSLASH p -> ~ In NUL p -> no_blank_first p ->
  exists input, typed input p [] /\ forall junk, pat (SearchPattern junk input) = p.
Proof. exact spelling. Qed.
Print Assumptions C32_spelling_partial.

Theorem C32_refuted :
  (forall junk input t, pat (SearchPattern junk input) <> " "%char :: t) /\
  (forall junk input, pat (SearchPattern junk input) <> [BSLASH]).
Proof. split; [exact pattern_first|exact pattern_no_bslash]. Qed.
Print Assumptions C32_refuted.

Example C32_example : typed (str "  a\/B c/i") (str "a/B c") (str "i") /\
  pat (SearchPattern 0 (str "  a\/B c/i")) = str "a/b c" /\ ~ In BSLASH (str "a/B c") /\ no_blank_first (str "a/B c") /\
  pat (SearchPattern 0 (str "a\tb\")) = str "a\tb".
Proof.
  split; [apply C29_example|]. split; [reflexivity|]. split; [cbn; intuition discriminate|].
  split; [intros c t [= <- _] [B|B]; discriminate|reflexivity].
Qed.

Example C32_regex_example : typed (str "a.B/ie") (str "a.B") (str "ie") /\ last_type (str "ie") None /\
  match_ (fun q i s => beqb q (str "a.b") && i && beqb s (str "AxB")) (SearchPattern 0 (str "a.B/ie")) (str "AxB") EEntry = true.
Proof.
  split; [|split; [|reflexivity]].
  - apply (Ty_flags [] (str "a.B") (str "a.B") (str "ie")).
    + constructor.
    + repeat (constructor; try discriminate).
    + cbn. intuition discriminate.
    + intros c t [= <- _] [B|B]; discriminate.
    + cbn. intuition discriminate.
  - constructor. cbn. intros c [<-|[<-|[]]]; intuition discriminate.
Qed.

(** C33.  Full statement: extractUnicode e s = XOk r exactly when
    replaced (encodable e) no_byte s r.  False: an escape swallows the byte that
    follows it, and at the end of the text the terminator (C33_refuted).
    Proved: exactly that is what happens, and texts without escapes are
    unchanged. *)
Theorem C33_partial : forall e s r, extractUnicode e s = XOk r <-> replaced (encodable e) one_byte s r.
Proof. exact extract_iff. Qed.
Print Assumptions C33_partial.

Theorem C33_unchanged_partial : forall e s, no_escape s -> extractUnicode e s = XOk s.
Proof. exact extract_plain. Qed.
Print Assumptions C33_unchanged_partial.

Theorem C33_refuted :
  (exists e s r, replaced (encodable e) no_byte s r /\ exists r', extractUnicode e s = XOk r' /\ r' <> r) /\
  (forall e s h u bs, code_unit h u -> encodable e u -> utf8 bs u -> ~ In BSLASH s ->
     extractUnicode e (s ++ BSLASH :: "u"%char :: h) = XUB).
Proof.
  split.
  - exists (mkEnv false), (BSLASH :: str "u0041bc"), (str "Abc"). split.
    + apply (R_esc _ _ (str "0041") 65 (str "A") [] (str "bc") (str "bc")).
      * apply (CU "0" "0" "4" "1" 0 0 4 1); apply HD_dec; vm_compute; intuition congruence.
      * right. unfold surrogate. lia.
      * apply (U1 "A"). vm_compute. reflexivity.
      * reflexivity.
      * constructor; [intros (h & r & _ & E); discriminate|]. constructor; [intros (h & r & _ & E); discriminate|]. constructor.
    + exists (str "Ac"). split; [vm_compute; reflexivity|discriminate].
  - exact extract_past.
Qed.
Print Assumptions C33_refuted.

Example C33_example :
  extractUnicode (mkEnv false) (str "x" ++ BSLASH :: str "u00e9 yz") = XOk (str "x" ++ [chr 195; chr 169] ++ str "yz") /\
  no_escape (BSLASH :: str "u00") /\ extractUnicode (mkEnv false) (BSLASH :: str "u00") = XOk (BSLASH :: str "u00").
Proof.
  split; [vm_compute; reflexivity|]. split; [|vm_compute; reflexivity].
  intros a b E (h & r & L & Q). subst b. apply (f_equal (@length ascii)) in E. rewrite app_length in E. cbn [length] in E.
  rewrite app_length, L in E. cbn in E. lia.
Qed.

(** The search prompt: C69. *)
From Verif Require Import Spec.PromptSpec Spec.EscapeSpec Properties.View.
From Verif Require Import Proofs.ExtractProofs.
From Verif Require Proofs.PromptProofs.
From Coq Require Import Lia.
Open Scope Z_scope.

(** C69.  Full statement: typing a text at the prompt and Enter searches for that
    text, Backspace takes back the last character, Escape gives up.  False: Enter
    and Escape read uninitialised memory when nothing is typed, the bytes of a
    non-ASCII character are taken for characters, and an escape at the end of the
    text reads past it.  KEY_BACKSPACE (263), which wgetch answers for the key once
    keypad is on (curseOutput.cpp:305) and the terminal announces what the key
    sends, is appended like a character (C69_refuted).  Proved for
    printable ASCII texts. *)
Theorem C69_text_partial : forall e (ignoring utf8 : bool) junk s k rest t, printable s -> s <> [] -> enter k ->
  (if ignoring then t = s else replaced (encodable e) one_byte s t) ->
  inputSearch e ignoring utf8 junk (keys_of s ++ k :: rest) [] = Answer (Some (SearchPattern junk t)) rest.
Proof. exact PromptProofs.ask_text. Qed.
Print Assumptions C69_text_partial.

Theorem C69_escape_partial : forall e ignoring utf8 junk s k rest, printable s -> s <> [] -> no_escape s -> escape k ->
  inputSearch e ignoring utf8 junk (keys_of s ++ k :: rest) [] = Answer None rest.
Proof. exact PromptProofs.ask_cancel. Qed.
Print Assumptions C69_escape_partial.

(** What is searched for whatever the keys, where the locale is of UTF-8: each key is
    taken for the character of its number, hence each byte of a character beyond ASCII
    for a character of its own. *)
Theorem C69_keys : forall e ignoring junk l k rest, Forall wkey l -> Forall character l -> l <> [] -> ~ In 92 l -> enter k ->
  exists s, encoded l s /\ inputSearch e ignoring true junk (l ++ k :: rest) [] = Answer (Some (SearchPattern junk s)) rest.
Proof. exact PromptProofs.ask_keys. Qed.
Print Assumptions C69_keys.

(** When the prompt reads memory that nobody wrote: nothing typed, or in the locale "C" a
    key that is no ASCII character. *)
Theorem C69_unset : forall e ignoring utf8 junk l k rest, Forall wkey l -> Forall character l -> ~ In 92 l -> enter k \/ escape k ->
  inputSearch e ignoring utf8 junk (l ++ k :: rest) [] = Uninitialised <-> l = [] \/ utf8 = false /\ Exists (fun c => 128 <= c) l.
Proof. exact PromptProofs.ask_unset. Qed.
Print Assumptions C69_unset.

(** "a", the two bytes of an e with an acute accent, KEY_F(1), Enter, then "q". *)
Example C69_keys_example : let l := [97; 195; 169; 265] in
  Forall wkey l /\ Forall character l /\ ~ In 92 l /\
  (exists s, encoded l s /\ length s = 7%nat /\ inputSearch (mkEnv true) false true 0 (l ++ [10; 113]) [] = Answer (Some (SearchPattern 0 s)) [113]) /\
  inputSearch (mkEnv true) true false 0 (l ++ [27; 113]) [] = Uninitialised.
Proof.
  cbn zeta. split; [unfold wkey; repeat constructor; lia|]. split; [unfold character, enter, escape, backspace; repeat constructor; lia|].
  split; [cbn; lia|]. split; [|vm_compute; reflexivity].
  exists (map chr [97; 195; 131; 194; 169; 196; 137]). split; [|split; vm_compute; reflexivity].
  exists (map (map chr) [[97]; [195; 131]; [194; 169]; [196; 137]]). split; [|reflexivity].
  assert (U : forall a b x y, 0 <= x < 32 -> uchar a = 192 + x -> 0 <= y < 64 -> uchar b = 128 + y -> 128 <= 64 * x + y -> utf8 [a; b] (64 * x + y)).
  { intros. constructor; auto. split; auto. }
  repeat constructor.
  - apply (U _ _ 3 3); vm_compute; intuition discriminate.
  - apply (U _ _ 2 41); vm_compute; intuition discriminate.
  - apply (U _ _ 4 9); vm_compute; intuition discriminate.
Qed.

(** Backspace, for all keys. *)
Theorem C69_backspace : forall e ignoring utf8 junk pre k bs post, character k -> backspace bs ->
  Forall (fun k => ~ enter k /\ ~ escape k) pre ->
  inputSearch e ignoring utf8 junk (pre ++ k :: bs :: post) [] = inputSearch e ignoring utf8 junk (pre ++ post) [].
Proof. intros e ig u junk pre k bs post K B F. exact (PromptProofs.ask_undo e ig u junk pre k bs post K B F []). Qed.
Print Assumptions C69_backspace.

Theorem C69_backspace_empty : forall e ignoring utf8 junk bs post, backspace bs ->
  inputSearch e ignoring utf8 junk (bs :: post) [] = inputSearch e ignoring utf8 junk post [].
Proof. exact PromptProofs.ask_undo_nothing. Qed.
Print Assumptions C69_backspace_empty.

(** From the keys to the results in the view of one document: exactly the rows of
    the scalars and keys that contain the text typed, tabs counting as blanks. *)
Theorem C69_search_partial : forall rx root e ignoring utf8 s k rest sc v, in_memory root -> plain_text s -> enter k ->
  exists p, inputSearch e ignoring utf8 0 (keys_of s ++ k :: rest) [] = Answer (Some p) rest /\
    forall o v', initSearch root rx (Some p) sc v = Some (o, v') ->
      exists f : Z * item -> bool, vres v' = map fst (filter f (items (nid root) root)) /\
        forall x, f x = true <-> item_text (snd x) <> [] /\ occurs s (seen false (item_text (snd x))).
Proof. exact PromptProofs.ask_search. Qed.
Print Assumptions C69_search_partial.

Theorem C69_refuted :
  (forall e ignoring utf8 junk k rest, enter k \/ escape k -> inputSearch e ignoring utf8 junk (k :: rest) [] = Uninitialised) /\
  (exists s, s = [chr 195; chr 169] /\ forall e junk, exists p,
     inputSearch e false true junk (keys_of s ++ [10]) [] = Answer (Some p) [] /\ pat p = [chr 195; chr 131; chr 194; chr 169]) /\
  (exists s, s = str "x" ++ BSLASH :: str "u0041" /\
     forall e utf8 junk, inputSearch e false utf8 junk (keys_of s ++ [10]) [] = Uninitialised) /\
  (forall e junk, exists p, inputSearch e false true junk (keys_of (str "a") ++ [263; 10]) [] = Answer (Some p) [] /\ pat p <> []).
Proof.
  split; [|split; [|split]].
  - intros e ig u junk k rest [[-> | ->] | ->]; reflexivity.
  - eexists. split; [reflexivity|]. intros e junk. eexists. split; vm_compute; reflexivity.
  - eexists. split; [reflexivity|]. intros e u junk. vm_compute. reflexivity.
  - intros e junk. eexists. split; [vm_compute; reflexivity|vm_compute; discriminate].
Qed.
Print Assumptions C69_refuted.

(** "abx", Backspace, Enter, then "q"; and "x" searched in {"a": [1, "x"], "b": {"x": 2}, "c": "x"}. *)
Example C69_example : let e := mkEnv true in
  inputSearch e false true 0 (keys_of (str "abx") ++ [127; 10; 113]) [] = Answer (Some (SearchPattern 0 (str "ab"))) [113] /\
  inputSearch e false true 0 (keys_of (str "ab") ++ [27; 113]) [] = Answer None [113] /\
  plain_text (str "x") /\ in_memory doc /\
  (exists p o v', inputSearch e false true 0 (keys_of (str "x") ++ [13]) [] = Answer (Some p) [] /\
    initSearch doc no_regex (Some p) (win 20 6) (set_sel view0 (Some 1)) = Some (o, v') /\ vres v' = [5; 8; 10]).
Proof.
  split; [vm_compute; reflexivity|]. split; [vm_compute; reflexivity|]. split; [|split; [apply DocumentProofs.document_in_memory|]].
  - split; [repeat constructor; vm_compute; discriminate|]. split; [discriminate|]. split; [intros c t [= <- _] [B|B]; discriminate|].
    split; cbn; intuition discriminate.
  - eexists _, _, _. split; [vm_compute; reflexivity|]. split; vm_compute; reflexivity.
Qed.

(** The search prompt. *)
From Verif Require Export Spec.PromptSpec Spec.EscapeSpec.
From Verif Require Import Proofs.ExtractProofs Proofs.SearchProofs Proofs.DocumentProofs.
From Coq Require Import Lia ZifyBool.
Open Scope Z_scope.

Section Prompt.
  Variable (e : env) (ig u : bool) (junk : Z).
  Notation ask := (inputSearch e ig u junk).

  Lemma ask_char k t b : character k -> ask (k :: t) b = ask t (b ++ [k]).
  Proof.
    unfold character, enter, escape, backspace. intros (A & B & C). cbn [inputSearch].
    destruct ((k =? 10) || (k =? 13)) eqn:E1; [lia|]. destruct ((k =? 8) || (k =? 127)) eqn:E2; [lia|]. destruct (k =? 27) eqn:E3; [lia|]. reflexivity.
  Qed.
  Lemma ask_back k t b : backspace k -> ask (k :: t) b = ask t (removelast b).
  Proof.
    unfold backspace. intros A. cbn [inputSearch]. destruct ((k =? 10) || (k =? 13)) eqn:E1; [lia|]. destruct ((k =? 8) || (k =? 127)) eqn:E2; [reflexivity|lia].
  Qed.
  Lemma ask_enter k t b : enter k -> ask (k :: t) b = answer e ig u junk b false t.
  Proof. unfold enter. intros A. cbn [inputSearch]. destruct ((k =? 10) || (k =? 13)) eqn:E1; [reflexivity|lia]. Qed.
  Lemma ask_escape k t b : escape k -> ask (k :: t) b = answer e ig u junk b true t.
  Proof. unfold escape. intros ->. reflexivity. Qed.

  Lemma ask_chars l : Forall character l -> forall t b, ask (l ++ t) b = ask t (b ++ l).
  Proof.
    induction 1 as [|k l K F IH]; intros t b; cbn [app]; [rewrite app_nil_r; reflexivity|]. rewrite ask_char, IH, <- app_assoc by exact K. reflexivity.
  Qed.

  (** Backspace takes back the character before it. *)
  Lemma ask_undo pre k bs post : character k -> backspace bs -> Forall (fun k => ~ enter k /\ ~ escape k) pre -> forall b,
    ask (pre ++ k :: bs :: post) b = ask (pre ++ post) b.
  Proof.
    intros K B. induction 1 as [|x pre (X1 & X2) F IH]; intros b; cbn [app].
    - rewrite ask_char, ask_back, removelast_last by assumption. reflexivity.
    - destruct (Z.eq_dec x 8) as [X|X]; [rewrite !ask_back by (left; exact X); apply IH|].
      destruct (Z.eq_dec x 127) as [Y|Y]; [rewrite !ask_back by (right; exact Y); apply IH|].
      assert (C : character x). { split; [exact X1|]. split; [exact X2|]. intros [Q|Q]; contradiction. }
      rewrite !ask_char by exact C. apply IH.
  Qed.
  Lemma ask_undo_nothing bs post : backspace bs -> ask (bs :: post) [] = ask post [].
  Proof. intros B. rewrite ask_back by exact B. reflexivity. Qed.
End Prompt.

Lemma wc_printable u s : Forall (fun c => 32 <= uchar c <= 126) s -> wc_text u (keys_of s) = Some s.
Proof.
  induction 1 as [|c s C F IH]; [reflexivity|]. cbn [keys_of map wc_text]. change (map uchar s) with (keys_of s). destruct (uchar c =? 0) eqn:E; [lia|].
  unfold wc_bytes. assert (Q : (0 <=? uchar c) && (uchar c <? 128) = true) by lia. rewrite Q, IH. cbn [app]. do 2 f_equal.
  unfold chr, uchar. unfold uchar in C. rewrite Z.mod_small by lia. rewrite N2Z.id. apply ascii_N_embedding.
Qed.
Lemma printable_chars s : printable s -> Forall character (keys_of s).
Proof.
  induction 1 as [|c s C F IH]; cbn [keys_of map]; constructor; [|exact IH]. unfold character, enter, escape, backspace. lia.
Qed.

Lemma ask_text e (ig : bool) u junk s k rest t : printable s -> s <> [] -> enter k -> (if ig then t = s else replaced (encodable e) one_byte s t) ->
  inputSearch e ig u junk (keys_of s ++ k :: rest) [] = Answer (Some (SearchPattern junk t)) rest.
Proof.
  intros P N K T. rewrite ask_chars, ask_enter by (try exact K; apply printable_chars, P). cbn [app]. unfold answer, wcstombs.
  assert (W := wc_printable u s P). destruct (keys_of s) as [|z l] eqn:Q; [destruct s; [contradiction|discriminate Q]|]. rewrite W.
  destruct ig; [subst t; reflexivity|]. apply extract_iff in T. rewrite T. reflexivity.
Qed.

Lemma ask_cancel e ig u junk s k rest : printable s -> s <> [] -> no_escape s -> escape k ->
  inputSearch e ig u junk (keys_of s ++ k :: rest) [] = Answer None rest.
Proof.
  intros P N NE K. rewrite ask_chars, ask_escape by (try exact K; apply printable_chars, P). cbn [app]. unfold answer, wcstombs.
  assert (W := wc_printable u s P). destruct (keys_of s) as [|z l] eqn:Q; [destruct s; [contradiction|discriminate Q]|]. rewrite W.
  destruct ig; [reflexivity|]. rewrite extract_plain by exact NE. reflexivity.
Qed.

(** Keys that are no ASCII characters. *)
Lemma uchar_chr' z : 0 <= z < 256 -> uchar (chr z) = z.
Proof. intros H. unfold uchar, chr. rewrite Z.mod_small by lia. rewrite N_ascii_embedding by lia. lia. Qed.
Lemma wc_utf8 c : wkey c -> exists b, wc_bytes true c = Some b /\ utf8 b c.
Proof.
  unfold wkey, wc_bytes. intros K. destruct ((0 <=? c) && (c <? 128)) eqn:E.
  - eexists. split; [reflexivity|]. rewrite <- (uchar_chr' c) at 2 by lia. constructor. rewrite uchar_chr'; lia.
  - assert (Q : true && (128 <=? c) && (c <? 2048) = true) by lia. rewrite Q. eexists. split; [reflexivity|].
    rewrite (Z.div_mod c 64) at 3 by lia.
    assert (D : 2 <= c / 64 < 8). { split; [apply Z.div_le_lower_bound; lia|apply Z.div_lt_upper_bound; lia]. }
    assert (M := Z.mod_pos_bound c 64 ltac:(lia)). assert (DM := Z.div_mod c 64 ltac:(lia)).
    constructor; [lia|rewrite uchar_chr'; lia|split; [lia|rewrite uchar_chr'; lia]|lia].
Qed.
Lemma wc_encoded l : Forall wkey l -> exists s, wc_text true l = Some s /\ encoded l s.
Proof.
  induction 1 as [|c l K F (s & W & parts & F2 & ->)]; [exists []; split; [reflexivity|exists []; split; [constructor|reflexivity]]|].
  destruct (wc_utf8 c K) as (b & B & U). exists (b ++ concat parts). split.
  - cbn [wc_text]. unfold wkey in K. destruct (c =? 0) eqn:E; [lia|]. rewrite B, W. reflexivity.
  - exists (b :: parts). split; [constructor; assumption|reflexivity].
Qed.
Lemma wc_ascii l : Forall wkey l -> wc_text false l = None <-> Exists (fun c => 128 <= c) l.
Proof.
  induction 1 as [|c l K F IH]; [split; [discriminate|intros E; inversion E]|]. cbn [wc_text]. unfold wkey in K. destruct (c =? 0) eqn:E; [lia|].
  rewrite Exists_cons. unfold wc_bytes. cbn [andb]. destruct ((0 <=? c) && (c <? 128)) eqn:Q.
  - destruct (wc_text false l); (split; [intros H|intros H]).
    + discriminate.
    + destruct H as [H|H]; [lia|]. apply IH in H. discriminate.
    + right. apply IH. reflexivity.
    + reflexivity.
  - split; [intros _; left; lia|reflexivity].
Qed.
Lemma wc_no_escape u l s : Forall wkey l -> ~ In 92 l -> wc_text u l = Some s -> ~ In BSLASH s.
Proof.
  intros F. revert s. induction F as [|c l K F IH]; intros s N W; [injection W as <-; intros []|].
  cbn [wc_text] in W. unfold wkey in K. destruct (c =? 0) eqn:E; [lia|].
  destruct (wc_bytes u c) as [b|] eqn:B; [|discriminate]. destruct (wc_text u l) as [t|]; [|discriminate]. injection W as <-.
  rewrite in_app_iff. intros [I|I]; [|revert I; apply IH; [intros J; apply N; right; exact J|reflexivity]].
  assert (X : c <> 92) by (intros ->; apply N; left; reflexivity). unfold wc_bytes in B.
  destruct ((0 <=? c) && (c <? 128)) eqn:Q.
  - injection B as <-. destruct I as [I|[]]. apply (f_equal uchar) in I. rewrite uchar_chr' in I by lia. apply X. rewrite I. reflexivity.
  - destruct (u && (128 <=? c) && (c <? 2048)); [|discriminate]. assert (B' : b = [chr (192 + c / 64); chr (128 + c mod 64)]) by congruence. clear B N IH E. subst b.
    assert (D : 2 <= c / 64 < 8). { split; [apply Z.div_le_lower_bound; lia|apply Z.div_lt_upper_bound; lia]. }
    assert (M := Z.mod_pos_bound c 64 ltac:(lia)).
    destruct I as [I|[I|[]]]; apply (f_equal uchar) in I; change (uchar BSLASH) with 92 in I; rewrite uchar_chr' in I by lia; lia.
Qed.

Lemma plain_typed s : plain_text s -> typed s s [].
Proof.
  intros (P & N & B & S & E). assert (Q := Ty_plain [] s s [] ltac:(constructor)). cbn [app] in Q. rewrite app_nil_r in Q. apply Q; [| |exact B|left; reflexivity].
  - clear - S E. induction s as [|c s IH]; constructor; try (intros ->; cbn in *; tauto). apply IH; cbn in *; tauto.
  - intros I. unfold printable in P. rewrite Forall_forall in P. specialize (P _ I). cbn in P. lia.
Qed.
Lemma plain_no_escape s : ~ In BSLASH s -> no_escape s.
Proof. intros N a b -> (h & rest & _ & ->). apply N, in_or_app. right. left. reflexivity. Qed.

Lemma ask_keys e ig junk l k rest : Forall wkey l -> Forall character l -> l <> [] -> ~ In 92 l -> enter k ->
  exists s, encoded l s /\ inputSearch e ig true junk (l ++ k :: rest) [] = Answer (Some (SearchPattern junk s)) rest.
Proof.
  intros F C N NE K. destruct (wc_encoded l F) as (s & W & E). exists s. split; [exact E|].
  rewrite ask_chars, ask_enter by assumption. cbn [app]. unfold answer, wcstombs. destruct l as [|z l'] eqn:Q; [contradiction|]. rewrite <- Q in *. rewrite W.
  destruct ig; [reflexivity|]. rewrite extract_plain by (apply plain_no_escape, (wc_no_escape true l); assumption). reflexivity.
Qed.
Lemma ask_unset e ig u junk l k rest : Forall wkey l -> Forall character l -> ~ In 92 l -> enter k \/ escape k ->
  inputSearch e ig u junk (l ++ k :: rest) [] = Uninitialised <-> l = [] \/ u = false /\ Exists (fun c => 128 <= c) l.
Proof.
  intros F C NE K.
  assert (A : exists ab, inputSearch e ig u junk (l ++ k :: rest) [] = answer e ig u junk l ab rest).
  { rewrite ask_chars by exact C. destruct K as [K|K]; [rewrite ask_enter by exact K|rewrite ask_escape by exact K]; eexists; reflexivity. }
  destruct A as (ab & ->). unfold answer, wcstombs. destruct l as [|z l'] eqn:Q; [split; [left; reflexivity|reflexivity]|]. rewrite <- Q in *. assert (NN : l <> []) by (rewrite Q; discriminate). clear Q.
  assert (G : forall s, wc_text u l = Some s -> match (if ig then XOk s else extractUnicode e s) with XOk s => Answer (if ab then None else Some (SearchPattern junk s)) rest | XAbort => Uncaught | _ => Uninitialised end <> Uninitialised).
  { intros s W. destruct ig; [discriminate|]. rewrite extract_plain by (apply plain_no_escape, (wc_no_escape u l); assumption). discriminate. }
  destruct u.
  - destruct (wc_encoded l F) as (s & W & _). specialize (G s W). rewrite W. split; [intros X; contradiction|intros [X|[X _]]; [contradiction|discriminate]].
  - assert (WA := wc_ascii l F). destruct (wc_text false l) as [s|] eqn:W.
    + specialize (G s eq_refl). split; [intros X; contradiction|]. intros [X|[_ X]]; [contradiction|apply WA in X; discriminate].
    + split; [intros _; right; split; [reflexivity|apply WA; reflexivity]|reflexivity].
Qed.

(** From keys to results. *)
Lemma ask_search rx root e ig u s k rest sc v : in_memory root -> plain_text s -> enter k ->
  exists p, inputSearch e ig u 0 (keys_of s ++ k :: rest) [] = Answer (Some p) rest /\
    forall o v', initSearch root rx (Some p) sc v = Some (o, v') ->
      exists f : Z * item -> bool, vres v' = map fst (filter f (items (nid root) root)) /\
        forall x, f x = true <-> item_text (snd x) <> [] /\ occurs s (seen false (item_text (snd x))).
Proof.
  intros M PT K. assert (T := plain_typed s PT). destruct PT as (P & N & B & S & E). exists (SearchPattern 0 s). split.
  - apply ask_text; [exact P|exact N|exact K|]. destruct ig; [reflexivity|]. apply extract_iff, extract_plain, plain_no_escape, E.
  - intros o v' I. eexists. split.
    + refine (search_results rx root M (SearchPattern 0 s) sc v o v' _ I).
      destruct (isEmpty (SearchPattern 0 s)) eqn:Q; [|reflexivity]. exfalso. unfold isEmpty in Q.
      assert (PE : pat (SearchPattern 0 s) = s). { apply (typed_read 0 s s [] false T). split; [discriminate|intros []]. }
      rewrite PE in Q. destruct s; [contradiction|discriminate Q].
    + intros [r x]. cbn [snd]. assert (PL := fun t ty => search_plain rx s s [] false false t ty T ltac:(constructor; intros c []) ltac:(intros []) ltac:(intros []) ltac:(split; [discriminate|intros []]) ltac:(split; [discriminate|intros []])).
      destruct x as [q|kk]; cbn [item_text]; rewrite PL; unfold matchable, fold; (split; [intros (A & _ & C); auto|intros (A & C); split; [exact A|split; [discriminate|exact C]]]).
Qed.

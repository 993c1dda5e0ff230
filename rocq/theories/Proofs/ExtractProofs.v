(** extractUnicode. *)
From Verif Require Export Model.Unicode Spec.EscapeSpec Proofs.UnicodeProofs.
Open Scope Z_scope.

Definition encodable (e : env) (u : Z) : Prop := encodes_surrogates e = true \/ ~ surrogate u.

Lemma escape_first_dec s : (exists a b c d rest, s = BSLASH :: "u"%char :: a :: b :: c :: d :: rest) \/ ~ escape_first s.
Proof.
  destruct s as [|x [|y [|a [|b [|c [|d rest]]]]]];
    try (right; intros (h & r & L & E); destruct h as [|? [|? [|? [|? [|? ?]]]]]; discriminate).
  destruct (Ascii.eqb x BSLASH) eqn:E1; [|right; intros (h & r & L & E); injection E as -> _; apply Ascii.eqb_neq in E1; congruence].
  destruct (Ascii.eqb y "u") eqn:E2; [|right; intros (h & r & L & E); injection E as _ -> _; apply Ascii.eqb_neq in E2; congruence].
  apply Ascii.eqb_eq in E1, E2. subst. left. eauto 6.
Qed.

Lemma loop_plain f e c t acc : ~ escape_first (c :: t) ->
  extractUnicode_loop (S f) e (c :: t) acc = extractUnicode_loop f e t (acc ++ [c]).
Proof.
  intros N. cbn [extractUnicode_loop]. destruct t as [|u [|a [|b [|c' [|d rest]]]]]; try reflexivity.
  destruct (Ascii.eqb c BSLASH && Ascii.eqb u "u") eqn:E; [|reflexivity].
  exfalso. apply N. apply andb_true_iff in E. destruct E as [E1 E2]. apply Ascii.eqb_eq in E1, E2. subst.
  exists [a; b; c'; d], rest. auto.
Qed.

Lemma loop_escape f e a b c d rest acc :
  extractUnicode_loop (S f) e (BSLASH :: "u"%char :: a :: b :: c :: d :: rest) acc =
  match appendUnicode e [a; b; c; d] with
  | UniOk bs => match rest with [] => XUB | _ :: rest' => extractUnicode_loop f e rest' (acc ++ bs) end
  | _ => XAbort
  end.
Proof. reflexivity. Qed.

Lemma append_ok_iff e h bs : length h = 4%nat ->
  appendUnicode e h = UniOk bs <-> exists u, code_unit h u /\ encodable e u /\ utf8 bs u.
Proof.
  intros L. split.
  - intros E. unfold appendUnicode in E. destruct (hexshort_four h L) as [(u & C)|(p & c & q & _ & _ & _ & X)]; [|rewrite X in E; discriminate].
    destruct (hexshort_ok h u C) as [X R]. rewrite X in E. destruct (utf8_bytes e u) as [b|] eqn:U; [|discriminate]. injection E as ->.
    exists u. split; [exact C|]. split; [|eapply utf8_bytes_ok; eauto].
    unfold encodable, surrogate, utf8_bytes in *. destruct (encodes_surrogates e); [auto|]. right. intros S. cbn [negb] in U. rewrite andb_true_r in U.
    destruct (u <? 128) eqn:A; [lia|]. destruct (u <? 2048) eqn:B; [lia|].
    destruct ((55296 <=? u) && (u <=? 57343)) eqn:D; [discriminate|]. lia.
  - intros (u & C & N & U). unfold appendUnicode. destruct (hexshort_ok h u C) as [-> R].
    destruct (utf8_bytes_some e u N) as (b & E). rewrite E. f_equal. eapply utf8_inj; [|exact U]. eapply utf8_bytes_ok; eauto.
Qed.

Lemma loop_sound e f : forall s acc r, extractUnicode_loop f e s acc = XOk r ->
  exists r', r = acc ++ r' /\ replaced (encodable e) one_byte s r'.
Proof.
  induction f as [|f IH]; intros s acc r H; [discriminate|].
  destruct s as [|c t].
  { cbn in H. injection H as <-. exists []. rewrite app_nil_r. split; [reflexivity|constructor]. }
  destruct (escape_first_dec (c :: t)) as [(a & b & c' & d & rest & E)|N].
  - rewrite E in *. rewrite loop_escape in H. destruct (appendUnicode e [a; b; c'; d]) as [bs| |] eqn:A; [|discriminate..].
    destruct rest as [|k rest]; [discriminate|]. apply IH in H. destruct H as (r' & -> & R).
    exists (bs ++ r'). rewrite app_assoc. split; [reflexivity|].
    apply append_ok_iff in A; [|reflexivity]. destruct A as (u & C & N & U).
    exact (R_esc (encodable e) one_byte [a; b; c'; d] u bs [k] rest r' C N U eq_refl R).
  - rewrite loop_plain in H by exact N. apply IH in H. destruct H as (r' & -> & R). exists (c :: r').
    rewrite <- app_assoc. split; [reflexivity|]. constructor; assumption.
Qed.

Lemma loop_complete e s r : replaced (encodable e) one_byte s r -> forall f acc, (length s < f)%nat ->
  extractUnicode_loop f e s acc = XOk (acc ++ r).
Proof.
  induction 1 as [|c s r N R IH|h u bs k s r C N U K R IH]; intros f acc L; destruct f as [|f]; try lia.
  - cbn. rewrite app_nil_r. reflexivity.
  - cbn [length] in L. rewrite loop_plain by exact N. rewrite IH by lia. rewrite <- app_assoc. reflexivity.
  - pose proof (code_unit_length _ _ C) as Lh. destruct h as [|a [|b [|c [|d [|? ?]]]]]; try discriminate.
    destruct k as [|k [|? ?]]; try discriminate. cbn [app length] in *. rewrite loop_escape.
    rewrite (proj2 (append_ok_iff e [a; b; c; d] bs eq_refl)) by eauto. rewrite IH by lia. rewrite <- app_assoc. reflexivity.
Qed.

Lemma extract_iff e s r : extractUnicode e s = XOk r <-> replaced (encodable e) one_byte s r.
Proof.
  split.
  - intros H. apply loop_sound in H. destruct H as (r' & -> & R). exact R.
  - intros R. unfold extractUnicode. rewrite (loop_complete e s r R) by lia. reflexivity.
Qed.

Lemma extract_plain e s : no_escape s -> extractUnicode e s = XOk s.
Proof.
  intros N. apply extract_iff. induction s as [|c s IH]; constructor.
  - apply (N []). reflexivity.
  - apply IH. intros a b ->. apply (N (c :: a)). reflexivity.
Qed.

(** The fuel suffices. *)
Lemma extract_fuel e s : extractUnicode e s <> XFuel.
Proof.
  unfold extractUnicode. assert (K : forall f s acc, (length s < f)%nat -> extractUnicode_loop f e s acc <> XFuel); [|apply K; lia].
  clear s. induction f as [|f IH]; intros s acc L; [lia|]. destruct s as [|c t]; [discriminate|].
  destruct (escape_first_dec (c :: t)) as [(a & b & c' & d & rest & E)|N].
  - rewrite E in *. rewrite loop_escape. destruct (appendUnicode e [a; b; c'; d]); try discriminate.
    destruct rest as [|k rest]; [discriminate|]. apply IH. cbn [length] in L. lia.
  - rewrite loop_plain by exact N. apply IH. cbn [length] in L. lia.
Qed.

(** An escape at the end of a text that is otherwise fine is read past the end. *)
Lemma extract_past e s h u bs : code_unit h u -> encodable e u -> utf8 bs u ->
  ~ In BSLASH s -> extractUnicode e (s ++ BSLASH :: "u"%char :: h) = XUB.
Proof.
  intros C N U NB. unfold extractUnicode. rewrite app_length. cbn [length]. rewrite (code_unit_length _ _ C).
  assert (K : forall f acc, (length s + 2 <= f)%nat -> extractUnicode_loop f e (s ++ BSLASH :: "u"%char :: h) acc = XUB); [|apply K; lia].
  induction s as [|c s IH]; intros f acc L; destruct f as [|f]; cbn [length] in L; try lia; cbn [app].
  - pose proof (code_unit_length _ _ C) as Lh. destruct h as [|a [|b [|c [|d [|? ?]]]]]; try discriminate.
    rewrite loop_escape. rewrite (proj2 (append_ok_iff e [a; b; c; d] bs eq_refl)) by eauto. reflexivity.
  - rewrite loop_plain.
    + apply IH; [|lia]. intros I. apply NB. right. exact I.
    + intros (h' & rest & _ & E). injection E as E _. apply NB. left. congruence.
Qed.

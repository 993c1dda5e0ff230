(** C03: harmless texts never crash the reader. *)
From Verif Require Export Proofs.GrammarTree Spec.CrashPatterns.
Open Scope Z_scope.

Definition all_harmless (l : bytes) : Prop := forall a b, l = a ++ b -> harmless_at b.
Definition no_dot (l : bytes) : Prop := forall r, l <> "."%char :: r.

Lemma all_harmless_at l : all_harmless l -> harmless_at l.
Proof. intros H. apply (H [] l). reflexivity. Qed.
Lemma all_harmless_app a b : all_harmless (a ++ b) -> all_harmless b.
Proof. intros H x y E. apply (H (a ++ x) y). rewrite <- app_assoc, E. reflexivity. Qed.
Lemma all_harmless_tl c l : all_harmless (c :: l) -> all_harmless l.
Proof. apply (all_harmless_app [c]). Qed.
Lemma after_nondigit c l : all_harmless (c :: l) -> is_digit c = false -> no_dot l.
Proof.
  intros H N r ->. apply all_harmless_at in H. pose proof (ha_dot _ H c r eq_refl) as D.
  apply dec_digit_is in D. congruence.
Qed.

(** Reader at harmless text. *)
Definition calm (s : st) : Prop := ready s /\ all_harmless (inp s).
Definition at_token (s : st) : Prop := calm s /\ no_dot (inp s).

(** Only a JsonException (or the model's fuel). *)
Definition civil (f : fail) : Prop := match f with FThrow _ | FFuel => True | _ => False end.

Lemma calm_get c t h w n s : calm s -> inp s = c :: t -> hist_ok h -> calm (mkSt t true h w n).
Proof.
  intros [_ H] E O. split; [split; [exact O|left; reflexivity]|]. cbn [inp]. rewrite E in H. eapply all_harmless_tl, H.
Qed.

Lemma harmless_nil : all_harmless [].
Proof.
  intros a b E. symmetry in E. apply app_eq_nil in E. destruct E as [-> ->].
  split; intros; try discriminate. symmetry in H. apply app_eq_nil in H. destruct H as [-> _]. cbn. lia.
Qed.

Lemma calm_eof h w n : hist_ok h -> calm (mkSt [] false h w n).
Proof. intros O. split; [split; [exact O|right; reflexivity]|exact harmless_nil]. Qed.

Section Crash.
  Variable e : env.
  Variable p : cfg.
  Let params := Some p.

  Lemma no_dot_nil : no_dot [].
  Proof. intros r E. discriminate. Qed.

  Lemma hex_terminated h u r : code_unit h u -> terminated (h ++ r) -> terminated r.
  Proof.
    intros U. assert (F : Forall (fun c => c <> DQUOTE /\ c <> BSLASH) h).
    { assert (K : forall c v, hex_digit c v -> c <> DQUOTE /\ c <> BSLASH).
      { intros c v H. destruct (hex_plain c v H) as (A & B & _). split; intros ->; discriminate. }
      destruct U. repeat constructor; eapply K; eauto. }
    clear U. induction F as [|c h [N1 N2] F IH]; cbn [app]; [auto|]. intros T. apply IH.
    inversion T; subst; congruence || assumption.
  Qed.

  Lemma terminated_chr c r : terminated (c :: r) -> c <> DQUOTE -> c <> BSLASH -> terminated r.
  Proof. intros T N1 N2. inversion T; subst; congruence. Qed.
  Lemma terminated_esc c r : terminated (BSLASH :: c :: r) -> terminated r.
  Proof.
    intros T. remember (BSLASH :: c :: r) as l eqn:E. destruct T as [r'|c' r' T|c' r' N1 N2 T].
    - injection E as E. discriminate.
    - injection E as <- <-. exact T.
    - injection E as -> _. congruence.
  Qed.
  Lemma terminated_bs : ~ terminated [BSLASH].
  Proof.
    intros T. remember [BSLASH] as l eqn:E. destruct T as [r'|c' r' T|c' r' N1 N2 T].
    - injection E as E. discriminate.
    - discriminate.
    - injection E as -> _. congruence.
  Qed.

  Lemma escape_calm c buf s : calm s -> all_harmless (BSLASH :: c :: inp s) -> good s = true \/ c <> "u"%char ->
    wp (consumeEscapedChar e params c buf)
      (fun r s' => calm s' /\ good s' = good s /\ exists b, r = Some b /\
         (terminated (inp s) -> terminated (inp s'))) civil s.
  Proof.
    intros C A G. unfold consumeEscapedChar.
    destruct (Ascii.eqb c BSLASH || Ascii.eqb c DQUOTE || Ascii.eqb c "/"); [apply wp_ret; eauto 6|].
    destruct (Ascii.eqb c "u") eqn:EU.
    - apply Ascii.eqb_eq in EU. subst c. destruct G as [G|G]; [|congruence].
      cbn [params]. destruct (ignoreUnicode p); [apply wp_ret; eauto 6|].
      destruct (ha_uni _ (all_harmless_at _ A) _ eq_refl) as (h & r & E & L & NL & NS).
      assert (H : at_ (warns s) (h ++ r) s) by (split; [exact E|split; [apply C|reflexivity]]).
      rewrite <- L at 1. eapply wp_sread; [exact H|destruct h; [discriminate L|discriminate]|].
      intros s1 H1 G1. eapply wp_hputs; [exact H1|exact NL|lia|lia|]. intros s2 H2 G2.
      rewrite L. change (4 =? 4)%nat with true. cbn [negb].
      assert (C2 : calm s2).
      { destruct H2 as (EI & R & _). split; [exact R|]. rewrite EI. destruct C as [_ C]. rewrite E in C.
        eapply all_harmless_app, C. }
      pose proof (appendUnicode_spec e h L) as S.
      destruct (appendUnicode e h) as [bs|x|].
      + apply wp_ret. split; [exact C2|]. split; [congruence|]. eexists. split; [reflexivity|].
        destruct S as (u & U & _). destruct H2 as (-> & _). rewrite E. eapply hex_terminated, U.
      + exact I.
      + destruct S as (_ & u & U & SU). exfalso. exact (NS u U SU).
    - destruct (Ascii.eqb c "b" || Ascii.eqb c "f" || Ascii.eqb c "r" || Ascii.eqb c "n" || Ascii.eqb c "t");
        [apply wp_ret; eauto 6|].
      destruct (match params with Some p => strict p | None => false end); [exact I|].
      apply wp_warn, wp_ret. split; [exact C|]. eauto.
  Qed.

  Lemma string_calm f : forall parent escaped buf s, calm s -> (escaped = true -> all_harmless (BSLASH :: inp s)) ->
    wp (string_loop e params f parent escaped buf)
      (fun t s' => at_token s' /\ (forall c, t <> TTok [c]) /\
        (good s = true -> terminated (if escaped then BSLASH :: inp s else inp s) -> exists n, t = TElem n)) civil s.
  Proof.
    induction f as [|f IH]; intros parent escaped buf s C AE; [exact I|].
    cbn [string_loop]. apply wp_bind, wp_is_good.
    destruct (good s) eqn:G; cbn [negb].
    2:{ apply wp_ret. split; [|split; discriminate]. split; [exact C|]. destruct C as [[_ [Q|Q]] _]; [congruence|]. rewrite Q. apply no_dot_nil. }
    apply wp_getput; [apply C|exact G| |].
    - intros c t h EI _ EH. set (s1 := mkSt t true h (warns s) (nextid s)).
      assert (C1 : calm s1) by (eapply calm_get; eauto). rewrite EI.
      assert (CA : all_harmless (c :: t)) by (rewrite <- EI; apply C).
      destruct escaped; cbn [negb].
      + apply wp_bind. eapply wp_mono; [apply escape_calm; [exact C1| |left; reflexivity]| |auto].
        { cbn [inp s1]. rewrite <- EI. auto. }
        intros r s2 (C2 & G2 & b & -> & T2). eapply wp_mono; [apply IH; [exact C2|discriminate]| |auto].
        intros tk s3 (A3 & N3 & T3). split; [exact A3|split; [exact N3|]]. intros _ T. apply T3; [exact G2|]. apply T2. apply terminated_esc in T. exact T.
      + destruct (Ascii.eqb c DQUOTE) eqn:EQ.
        * apply Ascii.eqb_eq in EQ. subst c. apply wp_bind, wp_new_prim, wp_ret. split; [|split; [discriminate|eauto]].
          split; [exact C1|]. apply (after_nondigit DQUOTE t CA). reflexivity.
        * destruct (Ascii.eqb c BSLASH) eqn:EB.
          -- apply Ascii.eqb_eq in EB. subst c. eapply wp_mono; [apply IH; [exact C1|intros _; exact CA]| |auto].
             intros tk s3 (A3 & N3 & T3). split; [exact A3|split; [exact N3|]]. intros _ T. apply T3; [reflexivity|exact T].
          -- eapply wp_mono; [apply IH; [exact C1|discriminate]| |auto].
             intros tk s3 (A3 & N3 & T3). split; [exact A3|split; [exact N3|]]. intros _ T. apply T3; [reflexivity|].
             apply Ascii.eqb_neq in EQ, EB. exact (terminated_chr c t T EQ EB).
    - intros h EI _ EH. set (s1 := mkSt [] false h (warns s) (nextid s)).
      assert (C1 : calm s1) by (apply calm_eof, EH). rewrite EI.
      destruct escaped; cbn [negb].
      + apply wp_bind. unfold consumeEscapedChar.
        change (Ascii.eqb EOFCHAR BSLASH || Ascii.eqb EOFCHAR DQUOTE || Ascii.eqb EOFCHAR "/") with false.
        change (Ascii.eqb EOFCHAR "u") with false.
        change (Ascii.eqb EOFCHAR "b" || Ascii.eqb EOFCHAR "f" || Ascii.eqb EOFCHAR "r" || Ascii.eqb EOFCHAR "n" || Ascii.eqb EOFCHAR "t") with false.
        cbv iota. destruct (match params with Some p => strict p | None => false end); [exact I|].
        apply wp_warn, wp_ret. eapply wp_mono; [apply IH; [exact C1|discriminate]| |auto].
        intros tk s3 (A3 & N3 & _). split; [exact A3|split; [exact N3|]]. intros _ T. exfalso. exact (terminated_bs T).
      + change (Ascii.eqb EOFCHAR DQUOTE) with false. change (Ascii.eqb EOFCHAR BSLASH) with false. cbv iota.
        eapply wp_mono; [apply IH; [exact C1|discriminate]| |auto].
        intros tk s3 (A3 & N3 & _). split; [exact A3|split; [exact N3|]]. intros _ T. inversion T.
  Qed.

  Lemma ignore_nondigit c : ignoreChar c = true -> is_digit c = false.
  Proof.
    unfold ignoreChar, is_digit. pose proof (uchar_range c) as UR. intros H.
    destruct (Ascii.eqb c LF) eqn:E; [apply Ascii.eqb_eq in E; subst; reflexivity|].
    unfold schar in H. destruct (uchar c <? 128) eqn:E1; lia.
  Qed.

  Lemma letter_nondigit c : bool_letter (tolower c) = true -> is_digit c = false.
  Proof.
    intros H. destruct (is_digit c) eqn:D; [|reflexivity]. exfalso. unfold is_digit in D.
    assert (T : tolower c = c) by (unfold tolower; destruct ((65 <=? uchar c) && (uchar c <=? 90)) eqn:E; [lia|reflexivity]).
    rewrite T in H. unfold bool_letter in H. apply existsb_exists in H. destruct H as (x & I & Q). apply Ascii.eqb_eq in Q. subst x.
    repeat (destruct I as [<-|I]; [discriminate D|]). destruct I.
  Qed.

  Lemma bool_calm f : forall parent first rd buf raw s, at_token s -> good s = true ->
    wp (bool_loop params f parent first rd buf raw) (fun t s' => at_token s' /\ exists n, t = TElem n) civil s.
  Proof.
    induction f as [|f IH]; intros parent first rd buf raw s [C ND] G; [exact I|].
    cbn [bool_loop]. apply wp_bind, wp_is_good. rewrite G. cbn [negb]. apply wp_getput; [apply C|exact G| |].
    - intros c t h EI _ EH. set (s1 := mkSt t true h (warns s) (nextid s)).
      assert (C1 : calm s1) by (eapply calm_get; eauto).
      assert (CA : all_harmless (c :: t)) by (rewrite <- EI; apply C). cbv zeta.
      destruct (bool_letter (tolower c)) eqn:BL.
      { destruct (_ || _); [exact I|]. apply IH; [|reflexivity]. split; [exact C1|]. eapply after_nondigit; [exact CA|apply letter_nondigit, BL]. }
      destruct (negb _ && negb _); [exact I|]. apply wp_bind.
      assert (D : wp (if negb (beqb buf raw) then deref_strict params else ret false) (fun _ s' => s' = s1) civil s1).
      { destruct (negb (beqb buf raw)); apply wp_ret; reflexivity. }
      eapply wp_mono; [exact D| |auto]. intros bad s' ->. cbv beta. destruct bad; [exact I|].
      destruct (beqb buf (str "true") || beqb buf (str "false")).
      + assert (K : forall w, at_token (mkSt (c :: t) true (hist_pop h) w (nextid s + 1))).
        { intros w. split; [split; [split; [apply hist_pop_ok, EH|left; reflexivity]|exact CA]|]. cbn [inp]. rewrite <- EI. exact ND. }
        destruct (negb (beqb buf raw)).
        * apply wp_warn. apply wp_hpop_sunget. apply wp_bind, wp_new_prim, wp_ret. split; [apply K|eauto].
        * apply wp_bind, wp_ret. apply wp_hpop_sunget. apply wp_bind, wp_new_prim, wp_ret. split; [apply K|eauto].
      + destruct (ignoreChar c) eqn:IC; [|exact I]. apply IH; [|reflexivity]. split; [exact C1|].
        eapply after_nondigit; [exact CA|apply ignore_nondigit, IC].
    - intros h EI _ EH. set (s1 := mkSt [] false h (warns s) (nextid s)). cbv zeta.
      change (bool_letter (tolower EOFCHAR)) with false. cbv iota.
      destruct (negb (beqb buf (str "true")) && negb (beqb buf (str "false"))) eqn:EB; [exact I|]. apply wp_bind.
      assert (D : wp (if negb (beqb buf raw) then deref_strict params else ret false) (fun _ s' => s' = s1) civil s1).
      { destruct (negb (beqb buf raw)); apply wp_ret; reflexivity. }
      eapply wp_mono; [exact D| |auto]. intros bad s' ->. cbv beta. destruct bad; [exact I|].
      replace (beqb buf (str "true") || beqb buf (str "false")) with true
        by (destruct (beqb buf (str "true")), (beqb buf (str "false")); discriminate || reflexivity).
      assert (K : forall w, at_token (mkSt [] false (hist_pop h) w (nextid s + 1))).
      { intros w. split; [apply calm_eof, hist_pop_ok, EH|apply no_dot_nil]. }
      destruct (negb (beqb buf raw)).
      * apply wp_warn. apply wp_hpop_sunget. apply wp_bind, wp_new_prim, wp_ret. split; [apply K|eauto].
      * apply wp_bind, wp_ret. apply wp_hpop_sunget. apply wp_bind, wp_new_prim, wp_ret. split; [apply K|eauto].
  Qed.

  (** ** Numbers *)
  Lemma dec_value_bound l : Forall dec_digit l -> 0 <= dec_value l < 10 ^ Z.of_nat (length l).
  Proof.
    assert (K : forall l, Forall dec_digit l -> forall a, 0 <= a ->
      0 <= fold_left (fun a c => 10 * a + (uchar c - 48)) l a < (a + 1) * 10 ^ Z.of_nat (length l)).
    { induction 1 as [|c l' D F IH]; intros a A; cbn [fold_left length]; [change (10 ^ Z.of_nat 0) with 1; lia|].
      rewrite Nat2Z.inj_succ, Z.pow_succ_r by lia. unfold dec_digit in D.
      specialize (IH (10 * a + (uchar c - 48)) ltac:(lia)).
      assert (0 < 10 ^ Z.of_nat (length l')) by (apply Z.pow_pos_nonneg; lia). nia. }
    intros F. specialize (K l F 0 ltac:(lia)). unfold dec_value. lia.
  Qed.

  Lemma short_int neg l : digits l -> (length l <= 18)%nat -> exists x, int_prim (signed neg (dec_value l)) x.
  Proof.
    intros [N F] L. pose proof (dec_value_bound l F) as B.
    assert (10 ^ Z.of_nat (length l) <= 10 ^ 18) by (apply Z.pow_le_mono_r; lia).
    change (10 ^ 18) with 1000000000000000000 in *. set (z := signed neg (dec_value l)).
    assert (R : - 2 ^ 63 <= z < 2 ^ 63) by (unfold z, signed; change (2 ^ 63) with 9223372036854775808; destruct neg; lia).
    destruct (Z_le_dec (- 2 ^ 31) z) as [A|A]; [destruct (Z_lt_dec z (2 ^ 31)) as [A'|A']|].
    - exists (PInt z). constructor. lia.
    - exists (PLong z). constructor; lia.
    - exists (PLong z). constructor; lia.
  Qed.

  Definition num_inv (dbl : bool) (buf : bytes) (rest : bytes) : Prop :=
    if dbl then forall l r, rest = l ++ "."%char :: r -> ~ Forall dec_digit l
    else exists neg l, buf = minus neg ++ l /\ Forall dec_digit l /\
      (l = [] -> exists d r, rest = d :: r /\ dec_digit d) /\
      (forall d r, rest = d ++ r -> Forall dec_digit d -> (length l + length d <= 18)%nat).

  Lemma number_calm f : forall parent dbl buf s, calm s -> good s = true -> num_inv dbl buf (inp s) ->
    wp (number_loop f parent dbl buf) (fun t s' => at_token s' /\ exists n, t = TElem n) civil s.
  Proof.
    induction f as [|f IH]; intros parent dbl buf s C G NI; [exact I|].
    cbn [number_loop]. apply wp_bind, wp_is_good. rewrite G. cbn [negb].
    assert (FIN : forall s1, at_token s1 -> (forall c r, inp s = c :: r -> ~ dec_digit c) ->
      wp (x <- (if dbl then ret (PDbl (atof buf)) else integer_prim buf) ;; n <- new_prim parent x ;; ret (TElem n))
        (fun t s' => at_token s' /\ exists n, t = TElem n) civil s1).
    { intros s1 A1 ND. apply wp_bind. destruct dbl.
      - apply wp_ret, wp_bind, wp_new_prim, wp_ret. split; [exact A1|eauto].
      - destruct NI as (neg & l & -> & F & NE & SH).
        assert (D : digits l).
        { split; [|exact F]. intros EL. destruct (NE EL) as (d & r & E & Dd). exact (ND d r E Dd). }
        destruct (short_int neg l D) as (x & IP).
        { specialize (SH [] (inp s) eq_refl (Forall_nil _)). cbn in SH. lia. }
        unfold wp at 1. rewrite (integer_prim_spec neg l x D IP). apply wp_bind, wp_new_prim, wp_ret. split; [exact A1|eauto]. }
    apply wp_getput; [apply C|exact G| |].
    - intros c t h EI _ EH. set (s1 := mkSt t true h (warns s) (nextid s)).
      assert (C1 : calm s1) by (eapply calm_get; eauto).
      assert (CA : all_harmless (c :: t)) by (rewrite <- EI; apply C).
      destruct (is_digit c) eqn:DC.
      { apply IH; [exact C1|reflexivity|]. cbn [inp s1]. rewrite EI in NI. destruct dbl; cbn [num_inv] in *.
        - intros l r -> F. apply (NI (c :: l) r eq_refl). constructor; [apply dec_digit_is, DC|exact F].
        - destruct NI as (neg & l & -> & F & NE & SH). exists neg, (l ++ [c]). split; [symmetry; apply app_assoc|].
          split; [apply Forall_app; split; [exact F|repeat constructor; apply dec_digit_is, DC]|]. split.
          + intros E. destruct l; discriminate.
          + intros d r -> Fd. specialize (SH (c :: d) r eq_refl ltac:(constructor; [apply dec_digit_is, DC|exact Fd])).
            rewrite app_length. cbn [length] in *. lia. }
      destruct (Ascii.eqb c "." && negb dbl) eqn:ED.
      { apply andb_prop in ED. destruct ED as [E1 E2]. apply Ascii.eqb_eq in E1. subst c.
        apply IH; [exact C1|reflexivity|]. cbn [num_inv inp s1]. intros l r ->.
        exact (ha_dots _ (all_harmless_at _ CA) l r eq_refl). }
      apply wp_hpop_sunget. apply FIN.
      + split; [split; [split; [apply hist_pop_ok, EH|left; reflexivity]|exact CA]|]. cbn [inp s1 good].
        intros r [= -> ->]. change (Ascii.eqb "." ".") with true in ED. destruct dbl; [|discriminate ED].
        cbn [num_inv] in NI. apply (NI [] r EI). constructor.
      + intros c' r E. rewrite EI in E. injection E as <- <-. intros D. apply dec_digit_is in D. congruence.
    - intros h EI _ EH.
      change (is_digit EOFCHAR) with false. change (Ascii.eqb EOFCHAR "." && negb dbl) with false. cbv iota.
      apply wp_hpop_sunget. apply FIN.
      + split; [apply calm_eof, hist_pop_ok, EH|apply no_dot_nil].
      + intros c r E. congruence.
  Qed.

  (** ** null *)
  Lemma tolower_l x : tolower x = "l"%char -> is_digit x = false.
  Proof.
    intros H. destruct (is_digit x) eqn:D; [|reflexivity]. unfold is_digit in D. unfold tolower in H.
    destruct ((65 <=? uchar x) && (uchar x <=? 90)) eqn:E; [lia|]. subst x. discriminate D.
  Qed.

  Lemma null_calm parent c s : calm s -> good s = true -> ~ In LF (firstn 3 (inp s)) ->
    wp (consumeNull params parent c)
      (fun t s' => at_token s' /\ (forall c, t <> TTok [c]) /\ ((3 <= length (inp s))%nat -> exists n, t = TElem n)) civil s.
  Proof.
    intros C G NL. unfold consumeNull. apply wp_bind. unfold wp at 1, sread. rewrite G.
    apply wp_bind. unfold wp at 1, hputs. cbn [his].
    set (mem := (firstn 3 (inp s) ++ repeat NUL (3 - length (firstn 3 (inp s)))) ++ [NUL]).
    assert (NM : ~ In LF mem).
    { unfold mem. rewrite !in_app_iff. intros [[Q|Q]|Q]; [exact (NL Q)| |].
      - apply repeat_spec in Q. discriminate.
      - destruct Q as [Q|[]]. discriminate. }
    assert (LM : length mem = 4%nat).
    { unfold mem. rewrite !app_length, repeat_length, firstn_length. cbn [length]. lia. }
    destruct (hist_puts_clean (his s) mem 3 (proj1 (proj1 C)) NM ltac:(lia) ltac:(lia)) as (h' & -> & EH).
    assert (CC : forall w n, calm (mkSt (skipn 3 (inp s)) (3 <=? length (inp s))%nat h' w n)).
    { intros w n. split; [split; [exact EH|]|].
      - cbn [good inp]. destruct (3 <=? length (inp s))%nat eqn:E4; [left; reflexivity|right].
        apply skipn_all2. apply Nat.leb_gt in E4. lia.
      - cbn [inp]. apply (all_harmless_app (firstn 3 (inp s))). rewrite firstn_skipn. apply C. }
    apply wp_bind, wp_is_good. cbn [good set_his].
    destruct (3 <=? length (inp s))%nat eqn:L3; cbn [negb].
    2:{ apply Nat.leb_gt in L3. apply wp_ret. split; [|split; [discriminate|lia]]. split; [exact (CC _ _)|]. cbn [inp set_his].
        rewrite skipn_all2 by lia. apply no_dot_nil. }
    destruct (inp s) as [|x0 [|x1 [|x2 rest]]] eqn:EI; try (cbn in L3; discriminate L3).
    cbn [firstn length Nat.sub repeat app map].
    match goal with |- context [beqb ?a (str "null")] => destruct (beqb a (str "null")) eqn:EB end; [|exact I].
    assert (ND : no_dot rest).
    { apply beqb_eq in EB. injection EB as _ _ E2. apply (after_nondigit x2); [|apply tolower_l, E2].
      apply (all_harmless_app [x0; x1]). cbn [app]. rewrite <- EI. apply C. }
    apply wp_bind.
    match goal with |- wp _ _ _ ?s1 => set (s1' := s1) end.
    match goal with |- wp ?m _ _ _ => assert (D : wp m (fun _ s' => s' = s1') civil s1') end.
    { match goal with |- context [if ?b then _ else _] => destruct b end; [apply wp_ret; reflexivity|reflexivity]. }
    eapply wp_mono; [exact D| |auto]. intros ok s' ->. cbv beta. destruct ok; [|exact I].
    match goal with |- context [if ?b then warn _ else _] => destruct b end.
    - apply wp_warn. apply wp_bind, wp_new_prim, wp_ret. split; [|split; [discriminate|eauto]]. split; [exact (CC _ _)|exact ND].
    - apply wp_bind, wp_ret. apply wp_bind, wp_new_prim, wp_ret. split; [|split; [discriminate|eauto]]. split; [exact (CC _ _)|exact ND].
  Qed.

  (** ** Tokens *)
  Definition is_value (t : tok) : Prop :=
    match t with TElem _ => True | TTok b => b = str "{" \/ b = str "[" end.

  Definition token_post (vf : Prop) (t : tok) (s' : st) : Prop :=
    at_token s' /\ (vf -> is_value t) /\ (t = TTok (str ":") -> value_follows (inp s')).

  Lemma ignore_iff c : ignoreChar c = true <-> ignorable c.
  Proof.
    unfold ignoreChar, ignorable. pose proof (uchar_range c).
    assert (E : Ascii.eqb c LF = true -> uchar c = 10) by (intros Q; apply Ascii.eqb_eq in Q; subst; reflexivity).
    unfold schar. destruct (uchar c <? 128) eqn:E1; destruct (Ascii.eqb c LF); try lia; split; intros; lia.
  Qed.

  Lemma vf_cons c t : value_follows (c :: t) -> ignorable c /\ value_follows t \/
    ~ ignorable c /\ ~ In c [","; ":"; "]"; "}"]%char /\ (c = DQUOTE -> terminated t) /\
    (c = "n"%char \/ c = "N"%char -> (3 <= length t)%nat).
  Proof.
    intros (ign & x & r' & E & F & NI & NP & T & L). destruct ign as [|y ign]; cbn [app] in E; injection E as -> ->.
    - right. tauto.
    - left. inversion_clear F. split; [assumption|]. exists ign, x, r'. tauto.
  Qed.

  Lemma vf_nil : ~ value_follows [].
  Proof. intros (ign & x & r' & E & _). destruct ign; discriminate. Qed.

  Lemma token_calm f : forall parent s, at_token s ->
    wp (token_loop e params f parent) (token_post (value_follows (inp s))) civil s.
  Proof.
    induction f as [|f IH]; intros parent s [C ND]; [exact I|].
    cbn [token_loop]. apply wp_bind, wp_is_good.
    destruct (good s) eqn:G; cbn [negb].
    2:{ apply wp_ret. destruct C as [[O [Q|Q]] A]; [congruence|]. rewrite Q. split; [|split].
        - split; [split; [split; [exact O|right; exact Q]|exact A]|]. rewrite Q. apply no_dot_nil.
        - intros V. exfalso. exact (vf_nil V).
        - discriminate. }
    apply wp_getput; [apply C|exact G| |].
    - intros c t h EI _ EH. set (s1 := mkSt t true h (warns s) (nextid s)).
      assert (C1 : calm s1) by (eapply calm_get; eauto).
      assert (CA : all_harmless (c :: t)) by (rewrite <- EI; apply C). rewrite EI.
      destruct (Ascii.eqb c DQUOTE) eqn:EQ.
      { apply Ascii.eqb_eq in EQ. unfold consumeString.
        eapply wp_mono; [apply (string_calm (loop_fuel s1) parent false [] s1 C1); discriminate| |auto].
        intros tk s2 (A2 & N2 & T2). split; [exact A2|]. split.
        - intros V. apply vf_cons in V. destruct V as [[V _]|(_ & _ & V & _)].
          + subst c. destruct V as [V|V]; vm_compute in V; congruence.
          + destruct (T2 eq_refl (V EQ)) as (n & ->). exact I.
        - intros E. exfalso. exact (N2 ":"%char E). }
      destruct (existsb (Ascii.eqb c) ["t"%char; "f"%char; "T"%char; "F"%char]) eqn:EX.
      { unfold consumeBool. 
        assert (DC : is_digit c = false).
        { apply existsb_exists in EX. destruct EX as (x & Ix & Q). apply Ascii.eqb_eq in Q. subst x.
          repeat (destruct Ix as [<-|Ix]; [reflexivity|]). destruct Ix. }
        eapply wp_mono; [apply (bool_calm (loop_fuel s1)); [split; [exact C1|exact (after_nondigit c t CA DC)]|reflexivity]| |auto].
        intros tk s2 [A2 (n & ->)]. split; [exact A2|]. split; [exact (fun _ => I)|discriminate]. }
      destruct (Ascii.eqb c "n" || Ascii.eqb c "N") eqn:EN.
      { assert (EN' : c = "n"%char \/ c = "N"%char).
        { apply orb_prop in EN. destruct EN as [EN|EN]; apply Ascii.eqb_eq in EN; auto. }
        eapply wp_mono; [apply null_calm; [exact C1|reflexivity|]| |auto].
        { exact (ha_null _ (all_harmless_at _ CA) c t eq_refl EN'). }
        intros tk s2 (A2 & N2 & T2). split; [exact A2|]. split.
        - intros V. apply vf_cons in V. destruct V as [[V _]|(_ & _ & _ & V)].
          + destruct EN' as [-> | ->]; destruct V as [V|V]; vm_compute in V; congruence.
          + destruct (T2 (V EN')) as (n & ->). exact I.
        - intros E. exfalso. exact (N2 ":"%char E). }
      destruct (is_digit c || Ascii.eqb c "." || Ascii.eqb c "-") eqn:ENUM.
      { unfold consumeNumber.
        assert (K : num_inv false [c] t).
        { destruct (Ascii.eqb c ".") eqn:ED.
          { apply Ascii.eqb_eq in ED. subst c. exfalso. exact (ND t EI). }
          cbn [num_inv]. destruct (is_digit c) eqn:DC.
          - exists false, [c]. split; [reflexivity|]. split; [repeat constructor; apply dec_digit_is, DC|]. split; [discriminate|].
            intros d r -> F. apply (ha_long _ (all_harmless_at _ CA) (c :: d) r eq_refl).
            constructor; [apply dec_digit_is, DC|exact F].
          - cbn [orb] in ENUM. apply Ascii.eqb_eq in ENUM. subst c.
            exists true, []. split; [reflexivity|]. split; [constructor|]. split.
            + intros _. exact (ha_minus _ (all_harmless_at _ CA) t eq_refl).
            + intros d r E F. apply (ha_long _ (all_harmless_at _ (all_harmless_tl _ _ CA)) d r E F). }
        eapply wp_mono; [apply (number_calm (loop_fuel s1) parent _ _ s1 C1 eq_refl K)| |auto].
        intros tk s2 [A2 (n & ->)]. split; [exact A2|]. split; [exact (fun _ => I)|discriminate]. }
      destruct (is_token c) eqn:ET.
      { assert (IT : In c ["{"; "}"; "["; "]"; ":"; ","]%char).
        { unfold is_token in ET. apply existsb_exists in ET. destruct ET as (x & Ix & Q). apply Ascii.eqb_eq in Q. subst x.
          cbn [In str list_ascii_of_string] in *. tauto. }
        assert (DC : is_digit c = false) by (apply orb_false_elim in ENUM; destruct ENUM as [ENUM _]; apply orb_false_elim in ENUM; apply ENUM).
        apply wp_ret. split; [split; [exact C1|exact (after_nondigit c t CA DC)]|]. split.
        - intros V. apply vf_cons in V. destruct V as [[V _]|(_ & V & _)].
          + apply ignore_iff in V. repeat (destruct IT as [<-|IT]; [discriminate V|]). destruct IT.
          + cbn [is_value]. repeat (destruct IT as [<-|IT]; [first [left; reflexivity | right; reflexivity | exfalso; apply V; cbn; tauto]|]). destruct IT.
        - intros [= ->]. exact (ha_colon _ (all_harmless_at _ CA) t eq_refl). }
      destruct (negb (ignoreChar c)) eqn:EIG; [exact I|].
      apply negb_false_iff in EIG.
      eapply wp_mono; [apply IH; split; [exact C1|exact (after_nondigit c t CA (ignore_nondigit c EIG))]| |auto].
      intros tk s2 (A2 & V2 & K2). split; [exact A2|]. split; [|exact K2]. intros V. apply V2. cbn [inp s1].
      apply vf_cons in V. destruct V as [[_ V]|(V & _)]; [exact V|]. exfalso. apply V, ignore_iff, EIG.
    - intros h EI _ EH. rewrite EI. cbn -[token_loop ignoreChar].
      change (ignoreChar EOFCHAR) with true. cbv iota. cbn [negb].
      eapply wp_mono; [apply IH; split; [apply calm_eof, EH|apply no_dot_nil]| |auto].
      intros tk s2 (A2 & _ & K2). split; [exact A2|]. split; [|exact K2]. intros V. exfalso. exact (vf_nil V).
  Qed.

  Lemma consumeToken_calm parent s : at_token s ->
    wp (consumeToken e params parent) (token_post (value_follows (inp s))) civil s.
  Proof. apply token_calm. Qed.

  (** ** Values *)
  Definition quiet {A} (m : M A) : Prop := forall s, at_token s -> wp m (fun _ s' => at_token s') civil s.

  Lemma quiet_token parent : quiet (consumeToken e params parent).
  Proof. intros s A. eapply wp_mono; [apply consumeToken_calm, A|intros t s' (H & _); exact H|auto]. Qed.

  Lemma next_calm ro ra parent s : at_token s -> (forall q, quiet (ro q)) -> (forall q, quiet (ra q)) ->
    wp (readNext_with e params ro ra parent)
      (fun r s' => at_token s' /\ (value_follows (inp s) -> r <> None)) civil s.
  Proof.
    intros A HO HA. unfold readNext_with. apply wp_bind. eapply wp_mono; [apply consumeToken_calm, A| |auto].
    intros t s1 (A1 & V & _). destruct t as [n|b]; cycle 1.
    - destruct (beqb b (str "{")) eqn:E1.
      { apply wp_bind. eapply wp_mono; [apply HO, A1| |auto]. intros n s2 A2. apply wp_ret. split; [exact A2|discriminate]. }
      destruct (beqb b (str "[")) eqn:E2.
      { apply wp_bind. eapply wp_mono; [apply HA, A1| |auto]. intros n s2 A2. apply wp_ret. split; [exact A2|discriminate]. }
      apply wp_ret. split; [exact A1|]. intros VF. exfalso. destruct (V VF) as [-> | ->]; discriminate.
    - apply wp_ret. split; [exact A1|discriminate].
  Qed.

  Lemma array_with_calm lp parent : (forall q t, quiet (lp q t)) -> quiet (readArray_with e params lp parent).
  Proof.
    intros H s A. unfold readArray_with. apply wp_bind. eapply wp_mono; [apply quiet_token, A| |auto].
    intros t s1 A1. destruct t as [n|b]; [apply H, A1|].
    destruct (beqb b (str "]")); [|apply H, A1]. apply wp_bind, wp_fresh, wp_ret. exact A1.
  Qed.

  Lemma open_calm parent result key : forall s, at_token s ->
    wp (open_object params parent result key) (fun _ s' => at_token s' /\ inp s' = inp s) civil s.
  Proof.
    intros s A. unfold open_object. destruct result as [[m l]|].
    - destruct (obj_contains _ _ _); [|apply wp_ret; auto].
      destruct (strict_keys params); [exact I|]. apply wp_warn, wp_ret. auto.
    - apply wp_bind, wp_fresh, wp_ret. auto.
  Qed.

  Lemma loops_calm f :
    (forall parent result, quiet (object_loop e params f parent result)) /\
    (forall parent result t, quiet (array_loop e params f parent result t)).
  Proof.
    induction f as [|f [IHo IHa]]; [split; intros; intros s A; exact I|]. split.
    - intros parent result s A. unfold params. rewrite object_loop_S. fold params. apply wp_bind. eapply wp_mono; [apply quiet_token, A| |auto].
      intros t s1 A1. destruct t as [n|b]; cycle 1.
      { destruct (_ && _); [|exact I]. apply wp_bind, wp_fresh, wp_ret. exact A1. }
      destruct n as [m x|m l|m l]; try exact I. destruct x as [key| | | | |]; try exact I.
      apply wp_bind. eapply wp_mono; [apply consumeToken_calm, A1| |auto].
      intros t2 s2 (A2 & _ & K2). destruct t2 as [n2|b]; [exact I|].
      destruct (beqb b (str ":")) eqn:EB; [|exact I]. apply beqb_eq in EB. subst b. specialize (K2 eq_refl).
      apply wp_bind. eapply wp_mono; [apply open_calm, A2| |auto]. intros r s3 [A3 E3].
      apply wp_bind. eapply wp_mono; [apply next_calm; [exact A3|intros q; apply IHo|intros q; apply array_with_calm; intros q' t; apply IHa]| |auto].
      intros child s4 [A4 V4]. destruct child as [v|]; [|exfalso; apply V4; [rewrite E3; exact K2|reflexivity]].
      apply wp_bind, wp_fresh. cbv zeta. apply wp_bind. eapply wp_mono; [apply quiet_token; exact A4| |auto].
      intros t3 s5 A5. destruct t3 as [n3|b]; [apply wp_ret; exact A5|].
      destruct (beqb b (str "}")); [apply wp_ret; exact A5|]. apply IHo, A5.
    - intros parent result t s A. unfold params. rewrite array_loop_S. fold params. apply wp_bind.
      assert (K : wp (match t with
                 | TElem n => ret n
                 | TTok b =>
                     if beqb b (str "[") then readArray_with e params (fun p t => array_loop e params f p None t) None
                     else if beqb b (str "{") then object_loop e params f None None
                     else throw NotJson
                 end) (fun _ s' => at_token s') civil s).
      { destruct t as [n|b]; [apply wp_ret; exact A|].
        destruct (beqb b (str "[")); [apply array_with_calm; [intros; apply IHa|exact A]|].
        destruct (beqb b (str "{")); [apply IHo, A|exact I]. }
      eapply wp_mono; [exact K| |auto]. clear K. intros child s1 A1. cbv beta. apply wp_bind.
      assert (K : wp (match result with
             | Some r => ret r
             | None => i <- fresh ;; ret (mkMeta i parent, [])
             end) (fun _ s' => at_token s') civil s1).
      { destruct result; [apply wp_ret; exact A1|apply wp_bind, wp_fresh, wp_ret; exact A1]. }
      eapply wp_mono; [exact K| |auto]. clear K. intros r s2 A2. cbv beta zeta. apply wp_bind.
      eapply wp_mono; [apply quiet_token, A2| |auto]. intros t2 s3 A3. destruct t2 as [n|b]; [exact I|].
      destruct (beqb b (str "]")); [apply wp_ret; exact A3|]. destruct (negb (beqb b (str ","))); [exact I|].
      apply wp_bind. eapply wp_mono; [apply quiet_token, A3| |auto]. intros t3 s4 A4. apply IHa, A4.
  Qed.

  Lemma read_calm input : harmless input ->
    wp (readNext e params (S (S (length input))) None) (fun _ _ => True) civil (init_st input).
  Proof.
    intros [H ND]. eapply wp_mono; [apply next_calm| |auto].
    - split; [split; [split; [exact hist_init_ok|left; reflexivity]|exact H]|exact ND].
    - intros q. apply loops_calm.
    - intros q. apply array_with_calm. intros. apply loops_calm.
    - auto.
  Qed.
End Crash.

Lemma read_harmless e p input : harmless input ->
  match read_doc e (Some p) input with Ok _ | Throw _ => True | _ => False end.
Proof.
  intros H. pose proof (read_calm e p input H) as W. pose proof (read_doc_terminates e (Some p) input) as T.
  unfold read_doc, wp in *. destruct (readNext e (Some p) _ None (init_st input)) as [[r s]|x|x|x|]; try exact I; try exact W.
  apply T. reflexivity.
Qed.

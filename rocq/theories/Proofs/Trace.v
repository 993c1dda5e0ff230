(** What every exception and warning of the reader carries: an invariant of the
    history, indexed by the bytes consumed. *)
From Verif Require Export Proofs.GrammarTree Spec.Position.
Open Scope Z_scope.

(** Last byte of a number or of a boolean. *)
Definition ends_word (c : ascii) : bool :=
  is_digit c || Ascii.eqb c "." || Ascii.eqb c "-" || Ascii.eqb (tolower c) "e".

Section Trace.
  Variable e : env.
  Variable params : option cfg.
  Variable input : bytes.
  (** History after the bytes consumed, stream good; history, stream failed. *)
  Variable I : bytes -> hist -> Prop.
  Variable J : hist -> Prop.
  Hypothesis I_start : I [] hist_init.
  Hypothesis I_ok : forall pre h, I pre h -> hist_ok h.
  Hypothesis I_put : forall pre c t h h', input = pre ++ c :: t -> I pre h -> hist_put h c = Some h' -> I (pre ++ [c]) h'.
  Hypothesis I_pop : forall pre x c t h h', input = (pre ++ [x]) ++ c :: t -> ends_word x = true -> I (pre ++ [x]) h ->
    hist_put h c = Some h' -> I (pre ++ [x]) (hist_pop h').
  Hypothesis I_eof : forall h h', I input h -> hist_put h EOFCHAR = Some h' -> J h' /\ J (hist_pop h').
  Hypothesis I_four : forall pre four t h h', input = (pre ++ [BSLASH; "u"%char]) ++ four ++ t -> length four = 4%nat ->
    I (pre ++ [BSLASH; "u"%char]) h -> hist_puts h four 4 = Some h' -> I ((pre ++ [BSLASH; "u"%char]) ++ four) h'.
  Hypothesis I_four_short : forall pre four h h', input = pre ++ four -> (length four < 4)%nat -> I pre h ->
    hist_puts h four (length four) = Some h' -> J h'.
  Hypothesis I_null : forall pre c three t h h', input = (pre ++ [c]) ++ three ++ t -> c = "n"%char \/ c = "N"%char ->
    length three = 3%nat -> I (pre ++ [c]) h ->
    hist_puts h (three ++ [NUL]) 3 = Some h' -> I ((pre ++ [c]) ++ three) h'.
  Hypothesis I_null_short : forall pre three h h', input = pre ++ three -> (length three < 3)%nat -> I pre h ->
    hist_puts h ((three ++ repeat NUL (3 - length three)) ++ [NUL]) 3 = Some h' -> J h'.

  Definition told (x : exn) : Prop :=
    match eoffset x with
    | Some rest => exists pre, input = pre ++ rest /\ I pre (ehist x)
    | None => J (ehist x)
    end.
  Definition fails (f : fail) : Prop := match f with FThrow x => told x | _ => True end.

  (** Reader after [pre]; reader at the end of input; any of both. *)
  Definition at_pre (pre : bytes) (s : st) : Prop :=
    good s = true /\ input = pre ++ inp s /\ I pre (his s) /\ Forall told (warns s).
  Definition dead (s : st) : Prop := good s = false /\ J (his s) /\ Forall told (warns s).
  Definition on (s : st) : Prop := (exists pre, at_pre pre s) \/ dead s.

  Lemma at_on pre s : at_pre pre s -> on s.
  Proof. intros H. left. eauto. Qed.

  Lemma on_told k s : on s -> told (mkExn k (his s) (tell s)).
  Proof.
    unfold told, tell. cbn [eoffset ehist]. intros [(pre & G & E & H & _)|(G & H & _)]; rewrite G; eauto.
  Qed.

  Lemma on_throw {A} k (Q : A -> st -> Prop) s : on s -> wp (throw k) Q fails s.
  Proof. intros O. apply wp_throw. apply on_told, O. Qed.

  Lemma on_warned k s : on s -> Forall told (warns s ++ [mkExn k (his s) (tell s)]).
  Proof.
    intros O. apply Forall_app. split; [destruct O as [(pre & _ & _ & _ & F)|(_ & _ & F)]; exact F|].
    constructor; [apply on_told, O|constructor].
  Qed.

  Lemma at_warn {A} k pre (K : unit -> M A) Q s : at_pre pre s ->
    (forall s', at_pre pre s' -> inp s' = inp s -> his s' = his s -> wp (K tt) Q fails s') -> wp (u <- warn k ;; K u) Q fails s.
  Proof.
    intros O H. apply wp_warn. apply H; [|reflexivity|reflexivity]. destruct O as (G & E & HI & F). split; [exact G|split; [exact E|split; [exact HI|]]].
    apply on_warned. left. exists pre. split; auto.
  Qed.

  Lemma dead_warn {A} k (K : unit -> M A) Q s : dead s ->
    (forall s', dead s' -> his s' = his s -> inp s' = inp s -> wp (K tt) Q fails s') -> wp (u <- warn k ;; K u) Q fails s.
  Proof.
    intros O H. apply wp_warn. apply H; [|reflexivity|reflexivity]. destruct O as (G & HI & F). split; [exact G|split; [exact HI|]].
    apply on_warned. right. split; auto.
  Qed.

  Lemma on_warn {A} k (K : unit -> M A) Q s : on s ->
    (forall s', on s' -> wp (K tt) Q fails s') -> wp (u <- warn k ;; K u) Q fails s.
  Proof.
    intros [(pre & O)|O] H; [eapply at_warn|eapply dead_warn]; eauto.
    - intros. apply H. eapply at_on; eauto.
    - intros. apply H. right. assumption.
  Qed.

  (** One iteration's prologue. *)
  Lemma at_getput {A} (k : ascii -> M A) Q pre s : at_pre pre s ->
    (forall c t s', inp s = c :: t -> at_pre (pre ++ [c]) s' -> inp s' = t -> hist_put (his s) c = Some (his s') ->
       wp (k c) Q fails s') ->
    (forall s', inp s = [] -> dead s' -> J (hist_pop (his s')) -> wp (k EOFCHAR) Q fails s') ->
    wp (c <- sget ;; hput c ;;; k c) Q fails s.
  Proof.
    intros (G & E & HI & F) H1 H2. apply wp_getput; [eapply I_ok, HI|exact G| |].
    - intros c t h EI EP _. apply (H1 c t); [exact EI| |reflexivity|exact EP].
      rewrite EI in E. split; [reflexivity|]. split; [cbn [inp]; rewrite E, <- app_assoc; reflexivity|]. split; [|exact F].
      cbn [his]. eapply I_put; eauto.
    - intros h EI EP _. rewrite EI, app_nil_r in E. subst pre. destruct (I_eof _ _ HI EP) as [J1 J2].
      apply H2; [exact EI| |exact J2]. split; [reflexivity|]. split; [exact J1|exact F].
  Qed.

  Lemma new_prim_on {A} parent p (K : node -> M A) Q s : on s ->
    (forall n s', on s' -> wp (K n) Q fails s') -> wp (n <- new_prim parent p ;; K n) Q fails s.
  Proof. intros O H. apply wp_bind, wp_new_prim. apply H. exact O. Qed.

  Lemma fresh_on {A} (K : Z -> M A) Q s : on s ->
    (forall i s', on s' -> wp (K i) Q fails s') -> wp (i <- fresh ;; K i) Q fails s.
  Proof. intros O H. apply wp_bind, wp_fresh. apply H. exact O. Qed.

  Definition stays {A} (m : M A) : Prop := forall s, on s -> wp m (fun _ s' => on s') fails s.

  (** ** Strings *)
  Lemma escape_trace c buf s pre : at_pre (pre ++ [BSLASH; c]) s ->
    wp (consumeEscapedChar e params c buf) (fun r s' => (exists b pre', r = Some b /\ at_pre pre' s') \/ r = None /\ on s') fails s.
  Proof.
    intros O. unfold consumeEscapedChar.
    destruct (Ascii.eqb c BSLASH || Ascii.eqb c DQUOTE || Ascii.eqb c "/"); [apply wp_ret; eauto|].
    destruct (Ascii.eqb c "u") eqn:EU.
    - apply Ascii.eqb_eq in EU. subst c.
      destruct (match params with Some p => ignoreUnicode p | None => false end); [apply wp_ret; eauto|].
      destruct O as (G & E & HI & F). set (pu := pre ++ [BSLASH; "u"%char]) in *. apply wp_bind. unfold wp at 1, sread. rewrite G.
      apply wp_bind. unfold wp at 1, hputs. cbn [his].
      destruct (hist_puts (his s) (firstn 4 (inp s)) (length (firstn 4 (inp s)))) as [h|] eqn:EH; [|exact Logic.I].
      unfold set_his. cbn [inp good warns nextid].
      destruct (4 <=? length (inp s))%nat eqn:L4.
      + apply Nat.leb_le in L4. assert (LF4 : length (firstn 4 (inp s)) = 4%nat) by (rewrite firstn_length; lia).
        rewrite LF4 in *. change (4 =? 4)%nat with true. cbn [negb].
        assert (E' : input = (pu ++ firstn 4 (inp s)) ++ skipn 4 (inp s)) by (rewrite <- app_assoc, firstn_skipn; exact E).
        assert (O' : at_pre (pu ++ firstn 4 (inp s)) (mkSt (skipn 4 (inp s)) true h (warns s) (nextid s))).
        { split; [reflexivity|]. split; [exact E'|]. split; [|exact F]. eapply (I_four pre); eauto. rewrite E', <- app_assoc. reflexivity. }
        destruct (appendUnicode e (firstn 4 (inp s))); [apply wp_ret; eauto| |exact Logic.I].
        apply on_throw. eapply at_on, O'.
      + apply Nat.leb_gt in L4. assert (EF : firstn 4 (inp s) = inp s) by (apply firstn_all2; lia).
        rewrite EF in *. replace (length (inp s) =? 4)%nat with false by (symmetry; apply Nat.eqb_neq; lia). cbn [negb].
        apply wp_ret. right. split; [reflexivity|]. right. split; [reflexivity|]. split; [|exact F].
        eapply (I_four_short pu (inp s)); eauto.
    - destruct (Ascii.eqb c "b" || Ascii.eqb c "f" || Ascii.eqb c "r" || Ascii.eqb c "n" || Ascii.eqb c "t");
        [apply wp_ret; eauto|].
      destruct (match params with Some p => strict p | None => false end); [apply on_throw; eapply at_on, O|].
      eapply at_warn; [exact O|]. intros s' O' _ _. apply wp_ret. eauto.
  Qed.

  Lemma string_trace f : forall parent escaped buf s, on s ->
    (escaped = true -> good s = true -> exists pre, at_pre (pre ++ [BSLASH]) s) ->
    wp (string_loop e params f parent escaped buf) (fun _ s' => on s') fails s.
  Proof.
    induction f as [|f IH]; intros parent escaped buf s O OE; [exact Logic.I|].
    cbn [string_loop]. apply wp_bind, wp_is_good.
    destruct (good s) eqn:G; cbn [negb]; [|apply wp_ret; exact O].
    destruct O as [(pre & O)|(G' & _)]; [|congruence].
    destruct escaped.
    - clear pre O. destruct (OE eq_refl eq_refl) as (pre & O). eapply at_getput; [exact O| |].
      + intros c t s1 EI O1 _ _. cbn [negb].
        rewrite <- app_assoc in O1. apply wp_bind. eapply wp_mono; [eapply escape_trace, O1| |auto].
        intros r s2 [(b & pre' & -> & O2)|[-> O2]]; [apply IH; [eapply at_on, O2|discriminate]|apply wp_ret; exact O2].
      + intros s1 EI D _. cbn [negb]. apply wp_bind. unfold consumeEscapedChar.
        change (Ascii.eqb EOFCHAR BSLASH || Ascii.eqb EOFCHAR DQUOTE || Ascii.eqb EOFCHAR "/") with false.
        change (Ascii.eqb EOFCHAR "u") with false.
        change (Ascii.eqb EOFCHAR "b" || Ascii.eqb EOFCHAR "f" || Ascii.eqb EOFCHAR "r" || Ascii.eqb EOFCHAR "n" || Ascii.eqb EOFCHAR "t") with false.
        cbv iota. destruct (match params with Some p => strict p | None => false end); [apply on_throw; right; exact D|].
        eapply dead_warn; [exact D|]. intros s2 D2 _ _. apply wp_ret. apply IH; [right; exact D2|discriminate].
    - eapply at_getput; [exact O| |].
      + intros c t s1 EI O1 _ _. cbn [negb].
        destruct (Ascii.eqb c DQUOTE); [apply new_prim_on; [eapply at_on, O1|]; intros; apply wp_ret; assumption|].
        destruct (Ascii.eqb c BSLASH) eqn:EB; (apply IH; [eapply at_on, O1|]); [|discriminate].
        apply Ascii.eqb_eq in EB. subst c. eauto.
      + intros s1 EI D _. cbn [negb].
        change (Ascii.eqb EOFCHAR DQUOTE) with false. change (Ascii.eqb EOFCHAR BSLASH) with false. cbv iota.
        apply IH; [right; exact D|discriminate].
  Qed.

  (** ** Booleans *)
  Lemma deref_trace b s : on s -> wp (if b : bool then deref_strict params else ret false) (fun _ s' => s' = s) fails s.
  Proof. intros O. destruct b; [|reflexivity]. unfold deref_strict. destruct params; exact Logic.I || reflexivity. Qed.

  Lemma last_e b : b = str "true" \/ b = str "false" -> exists b0, b = b0 ++ str "e".
  Proof. intros [-> | ->]; [exists (str "tru")|exists (str "fals")]; reflexivity. Qed.

  Lemma tolower_idem_e x : tolower x = "e"%char -> ends_word x = true.
  Proof. intros E. unfold ends_word. rewrite E. rewrite !orb_true_r. reflexivity. Qed.

  Lemma bool_trace f : forall parent first rd buf raw x pre s, at_pre (pre ++ [x]) s -> 
    wp (bool_loop params f parent first rd (buf ++ [tolower x]) raw) (fun _ s' => on s') fails s.
  Proof.
    induction f as [|f IH]; intros parent first rd buf raw x pre s O; [exact Logic.I|].
    cbn [bool_loop]. apply wp_bind, wp_is_good. rewrite (proj1 O). cbn [negb].
    eapply at_getput; [exact O| |].
    - intros c t s1 EI O1 ET EP. cbv zeta. destruct (bool_letter (tolower c)).
      { destruct (_ || _); [apply on_throw; eapply at_on, O1|]. apply IH with (pre := pre ++ [x]). exact O1. }
      destruct (negb (beqb (buf ++ [tolower x]) (str "true")) && negb (beqb (buf ++ [tolower x]) (str "false"))) eqn:EB;
        [apply on_throw; eapply at_on, O1|].
      apply wp_bind. eapply wp_mono; [apply deref_trace; eapply at_on, O1| |auto]. intros bad s' ->. cbv beta.
      destruct bad; [apply on_throw; eapply at_on, O1|].
      replace (beqb (buf ++ [tolower x]) (str "true") || beqb (buf ++ [tolower x]) (str "false")) with true
        by (destruct (beqb (buf ++ [tolower x]) (str "true")), (beqb (buf ++ [tolower x]) (str "false")); discriminate || reflexivity).
      assert (EW : ends_word x = true).
      { apply tolower_idem_e. assert (B : buf ++ [tolower x] = str "true" \/ buf ++ [tolower x] = str "false").
        { destruct (beqb (buf ++ [tolower x]) (str "true")) eqn:B1; [left; apply beqb_eq, B1|].
          destruct (beqb (buf ++ [tolower x]) (str "false")) eqn:B2; [right; apply beqb_eq, B2|discriminate EB]. }
        apply last_e in B. destruct B as (b0 & B). apply app_inj_tail in B. apply B. }
      assert (K : forall s2, at_pre ((pre ++ [x]) ++ [c]) s2 -> inp s2 = t -> his s2 = his s1 ->
        wp (hpop ;;; (u <- sunget c ;; n <- new_prim parent (PBool (beqb (buf ++ [tolower x]) (str "true"))) ;; ret (TElem n))) (fun _ s' => on s') fails s2).
      { intros s2 (G2 & E2 & H2 & F2) I2 HH. apply (wp_hpop_sunget c (fun _ => _)). rewrite G2.
        apply new_prim_on; [|intros; apply wp_ret; assumption]. left. exists (pre ++ [x]). split; [reflexivity|].
        cbn [inp]. split; [rewrite E2, <- app_assoc; reflexivity|]. split; [|exact F2]. cbn [his].
        rewrite HH. eapply I_pop; [rewrite E2, I2, <- app_assoc; reflexivity|exact EW|apply O|exact EP]. }
      match goal with |- context [if ?b then warn _ else _] => destruct b end.
      + eapply at_warn; [exact O1|]. intros s2 O2 I2 HH. apply K; [exact O2|rewrite I2; exact ET|exact HH].
      + apply wp_bind, wp_ret. apply K; [exact O1|exact ET|reflexivity].
    - intros s1 EI D JP. cbv zeta. change (bool_letter (tolower EOFCHAR)) with false. cbv iota.
      destruct (negb _ && negb _); [apply on_throw; right; exact D|].
      apply wp_bind. eapply wp_mono; [apply deref_trace; right; exact D| |auto]. intros bad s' ->. cbv beta.
      destruct bad; [apply on_throw; right; exact D|].
      destruct (_ || _).
      + assert (K : forall s2, dead s2 -> his s2 = his s1 -> inp s2 = inp s1 ->
          wp (hpop ;;; (u <- sunget EOFCHAR ;; n <- new_prim parent (PBool (beqb (buf ++ [tolower x]) (str "true"))) ;; ret (TElem n))) (fun _ s' => on s') fails s2).
        { intros s2 (G2 & H2 & F2) HH _. apply (wp_hpop_sunget EOFCHAR (fun _ => _)). rewrite G2.
          apply new_prim_on; [|intros; apply wp_ret; assumption]. right. split; [reflexivity|]. cbn [his]. rewrite HH. split; [exact JP|exact F2]. }
        match goal with |- context [if ?b then warn _ else _] => destruct b end.
        * eapply dead_warn; [exact D|]. intros s2 D2 HH II. apply K; assumption.
        * apply wp_bind, wp_ret. apply K; [exact D|reflexivity|reflexivity].
      + change (ignoreChar EOFCHAR) with true. cbv iota. destruct f; [exact Logic.I|].
        cbn [bool_loop]. apply wp_bind, wp_is_good. rewrite (proj1 D). cbn [negb]. apply wp_ret. right. exact D.
  Qed.

  (** ** Numbers *)
  Lemma number_trace f : forall parent dbl buf x pre s, at_pre (pre ++ [x]) s -> ends_word x = true ->
    wp (number_loop f parent dbl buf) (fun _ s' => on s') fails s.
  Proof.
    induction f as [|f IH]; intros parent dbl buf x pre s O EW; [exact Logic.I|].
    cbn [number_loop]. apply wp_bind, wp_is_good. rewrite (proj1 O). cbn [negb].
    assert (FIN : forall s1, on s1 -> wp (p <- (if dbl then ret (PDbl (atof buf)) else integer_prim buf) ;;
            n <- new_prim parent p ;; ret (TElem n)) (fun _ s' => on s') fails s1).
    { intros s1 O1. apply wp_bind.
      assert (K : forall p, wp (n <- new_prim parent p ;; ret (TElem n)) (fun _ s' => on s') fails s1).
      { intros p. apply new_prim_on; [exact O1|]. intros. apply wp_ret. assumption. }
      destruct dbl; [apply wp_ret, K|]. unfold integer_prim.
      destruct (stoi buf); [apply wp_ret, K|exact Logic.I|]. destruct (stol buf); [apply wp_ret, K|exact Logic.I|exact Logic.I]. }
    eapply at_getput; [exact O| |].
    - intros c t s1 EI O1 ET EP.
      destruct (is_digit c) eqn:DC.
      { eapply (IH parent _ _ c); [exact O1|]. unfold ends_word. rewrite DC. reflexivity. }
      destruct (Ascii.eqb c "." && negb dbl) eqn:ED.
      { apply andb_prop in ED. destruct ED as [ED _]. apply Ascii.eqb_eq in ED. subst c.
        eapply (IH parent _ _ "."%char); [exact O1|reflexivity]. }
      apply wp_hpop_sunget. apply FIN. destruct O1 as (G1 & E1 & H1 & F1). rewrite G1. left. exists (pre ++ [x]).
      split; [reflexivity|]. cbn [inp]. split; [rewrite E1, <- app_assoc; reflexivity|]. split; [|exact F1]. cbn [his].
      eapply I_pop; [rewrite E1, ET, <- app_assoc; reflexivity|exact EW|apply O|exact EP].
    - intros s1 EI D JP.
      change (is_digit EOFCHAR) with false. change (Ascii.eqb EOFCHAR "." && negb dbl) with false. cbv iota.
      apply wp_hpop_sunget. apply FIN. destruct D as (G1 & H1 & F1). rewrite G1. right. split; [reflexivity|]. split; [exact JP|exact F1].
  Qed.

  (** ** null *)
  Lemma null_trace parent c pre s : at_pre (pre ++ [c]) s -> c = "n"%char \/ c = "N"%char ->
    wp (consumeNull params parent c) (fun _ s' => on s') fails s.
  Proof.
    intros (G & E & HI & F) EC. unfold consumeNull. apply wp_bind. unfold wp at 1, sread. rewrite G.
    apply wp_bind. unfold wp at 1, hputs. cbn [his].
    match goal with |- context [hist_puts ?h ?m ?n] => destruct (hist_puts h m n) as [h'|] eqn:EH end; [|exact Logic.I].
    unfold set_his. cbn [inp good warns nextid]. apply wp_bind, wp_is_good. cbn [good].
    destruct (3 <=? length (inp s))%nat eqn:L3; cbn [negb].
    2:{ apply Nat.leb_gt in L3. apply wp_ret. right. split; [reflexivity|]. split; [|exact F]. cbn [his].
        rewrite (firstn_all2 (inp s)) in EH by lia. eapply I_null_short; [exact E|exact L3|exact HI|exact EH]. }
    apply Nat.leb_le in L3. assert (L : length (firstn 3 (inp s)) = 3%nat) by (rewrite firstn_length; lia).
    rewrite L in *. change (repeat NUL (3 - 3)) with (@nil ascii) in *. rewrite !app_nil_r in *.
    set (s1 := mkSt (skipn 3 (inp s)) true h' (warns s) (nextid s)).
    assert (O1 : on s1).
    { left. exists ((pre ++ [c]) ++ firstn 3 (inp s)). split; [reflexivity|].
      split; [cbn [inp s1]; rewrite <- !app_assoc, firstn_skipn, app_assoc; exact E|]. split; [|exact F].
      eapply (I_null pre c (firstn 3 (inp s)) (skipn 3 (inp s))); eauto. rewrite firstn_skipn. exact E. }
    match goal with |- context [beqb ?a (str "null")] => destruct (beqb a (str "null")) end; [|apply on_throw, O1].
    apply wp_bind.
    match goal with |- wp ?m _ _ _ => assert (D : wp m (fun _ s' => s' = s1) fails s1) end.
    { match goal with |- context [if ?b then _ else _] => destruct b end; [reflexivity|].
      unfold deref_strict. destruct params; exact Logic.I || reflexivity. }
    eapply wp_mono; [exact D| |auto]. intros ok s' ->. cbv beta. destruct ok; [|apply on_throw, O1].
    match goal with |- context [if ?b then warn _ else _] => destruct b end.
    - apply on_warn; [exact O1|]. intros. apply new_prim_on; [assumption|]. intros. apply wp_ret. assumption.
    - apply wp_bind, wp_ret. apply new_prim_on; [exact O1|]. intros. apply wp_ret. assumption.
  Qed.

  (** ** Tokens *)
  Lemma token_trace f : forall parent, stays (token_loop e params f parent).
  Proof.
    induction f as [|f IH]; intros parent s O; [exact Logic.I|].
    cbn [token_loop]. apply wp_bind, wp_is_good.
    destruct (good s) eqn:G; cbn [negb]; [|apply wp_ret; exact O].
    destruct O as [(pre & O)|(G' & _)]; [|congruence].
    eapply at_getput; [exact O| |].
    - intros c t s1 EI O1 _ _.
      destruct (Ascii.eqb c DQUOTE); [apply string_trace; [eapply at_on, O1|discriminate]|].
      destruct (existsb _ _); [apply (bool_trace _ _ _ _ []) with (pre := pre); exact O1|].
      destruct (Ascii.eqb c "n" || Ascii.eqb c "N") eqn:EN.
      { eapply null_trace; [exact O1|]. apply orb_prop in EN. destruct EN as [EN|EN]; apply Ascii.eqb_eq in EN; auto. }
      destruct (is_digit c || Ascii.eqb c "." || Ascii.eqb c "-") eqn:ENUM.
      { eapply number_trace; [exact O1|]. unfold ends_word. rewrite ENUM. reflexivity. }
      destruct (is_token c); [apply wp_ret; eapply at_on, O1|].
      destruct (negb (ignoreChar c)); [apply on_throw; eapply at_on, O1|]. apply IH. eapply at_on, O1.
    - intros s1 EI D _. cbn -[token_loop ignoreChar]. change (ignoreChar EOFCHAR) with true. cbv iota. cbn [negb].
      apply IH. right. exact D.
  Qed.

  Lemma consumeToken_trace parent : stays (consumeToken e params parent).
  Proof. intros s. apply token_trace. Qed.

  Lemma array_with_trace lp parent : (forall q t, stays (lp q t)) -> stays (readArray_with e params lp parent).
  Proof.
    intros H s O. unfold readArray_with. apply wp_bind. eapply wp_mono; [apply consumeToken_trace, O| |auto].
    intros t s1 O1. destruct t as [n|b]; [apply H, O1|].
    destruct (beqb b (str "]")); [|apply H, O1]. apply fresh_on; [exact O1|]. intros. apply wp_ret. assumption.
  Qed.

  Lemma next_trace ro ra parent : (forall q, stays (ro q)) -> (forall q, stays (ra q)) ->
    stays (readNext_with e params ro ra parent).
  Proof.
    intros HO HA s O. unfold readNext_with. apply wp_bind. eapply wp_mono; [apply consumeToken_trace, O| |auto].
    intros t s1 O1. destruct t as [n|b]; [apply wp_ret, O1|].
    destruct (beqb b (str "{")); [apply wp_bind; eapply wp_mono; [apply HO, O1|intros; apply wp_ret; assumption|auto]|].
    destruct (beqb b (str "[")); [apply wp_bind; eapply wp_mono; [apply HA, O1|intros; apply wp_ret; assumption|auto]|].
    apply wp_ret, O1.
  Qed.

  Lemma open_trace parent result key : stays (open_object params parent result key).
  Proof.
    intros s O. unfold open_object. destruct result as [[m l]|].
    - destruct (obj_contains _ _ _); [|apply wp_ret; exact O].
      destruct (strict_keys params); [apply on_throw, O|]. apply on_warn; [exact O|]. intros. apply wp_ret. assumption.
    - apply fresh_on; [exact O|]. intros. apply wp_ret. assumption.
  Qed.

  (** Unfolding of the loops. *)
  Lemma array_unfold f q res t : array_loop e params (S f) q res t =
    (child <- match t with
              | TElem n => ret n
              | TTok b =>
                  if beqb b (str "[") then readArray_with e params (fun p t => array_loop e params f p None t) None
                  else if beqb b (str "{") then object_loop e params f None None
                  else throw NotJson
              end ;;
     r <- match res with
          | Some r => ret r
          | None => i <- fresh ;; ret (mkMeta i q, [])
          end ;;
     let l := snd r ++ [set_parent (mid (fst r)) child] in
     t2 <- consumeToken e params (Some (mid (fst r))) ;;
     match t2 with
     | TElem _ => throw (Unexpected "]")
     | TTok b =>
         if beqb b (str "]") then ret (NArr (fst r) l)
         else if negb (beqb b (str ",")) then throw (Unexpected "]")
         else
           t3 <- consumeToken e params (Some (mid (fst r))) ;;
           array_loop e params f q (Some (fst r, l)) t3
     end).
  Proof. reflexivity. Qed.

  Lemma object_unfold f q res : object_loop e params (S f) q res =
    (t <- consumeToken e params (result_id res) ;;
     match t with
     | TTok b =>
         if beqb b (str "}") && match res with None => true | Some _ => false end
         then i <- fresh ;; ret (NObj (mkMeta i q) [])
         else throw NotAKey
     | TElem (NPrim _ (PStr key)) =>
         t2 <- consumeToken e params q ;;
         if match t2 with TTok b => beqb b (str ":") | TElem _ => false end then
           r <- open_object params q res key ;;
           child <- readNext_with e params (fun p => object_loop e params f p None)
                      (readArray_with e params (fun p t => array_loop e params f p None t))
                      (Some (mid (fst r))) ;;
           match child with
           | None => ubM NullDeref
           | Some v =>
               i <- fresh ;;
               let entry := (mkMeta i (Some (mid (fst r))), key, set_parent i v) in
               let l := obj_push entry_key (sorts params) entry (snd r) in
               t3 <- consumeToken e params (Some (mid (fst r))) ;;
               match t3 with
               | TTok b => if beqb b (str "}") then ret (NObj (fst r) l)
                           else object_loop e params f q (Some (fst r, l))
               | TElem _ => ret (NObj (fst r) l)
               end
           end
         else throw (Unexpected ":")
     | TElem _ => throw NotAKey
     end).
  Proof. reflexivity. Qed.

  Lemma loops_trace f :
    (forall parent result, stays (object_loop e params f parent result)) /\
    (forall parent result t, stays (array_loop e params f parent result t)).
  Proof.
    induction f as [|f [IHo IHa]]; [split; intros; intros s O; exact Logic.I|]. split.
    - intros parent result s O. rewrite object_unfold. apply wp_bind. eapply wp_mono; [apply consumeToken_trace, O| |auto].
      intros t s1 O1. destruct t as [n|b]; cycle 1.
      { destruct (_ && _); [|apply on_throw, O1]. apply fresh_on; [exact O1|]. intros. apply wp_ret. assumption. }
      destruct n as [m x|m l|m l]; try (apply on_throw, O1). destruct x as [key| | | | |]; try (apply on_throw, O1).
      apply wp_bind. eapply wp_mono; [apply consumeToken_trace, O1| |auto].
      intros t2 s2 O2. match goal with |- context [if ?b then _ else _] => destruct b end; [|apply on_throw, O2].
      apply wp_bind. eapply wp_mono; [apply open_trace, O2| |auto]. intros r s3 O3.
      apply wp_bind. eapply wp_mono; [apply next_trace; [intros q; apply IHo|intros q; apply array_with_trace; intros q' t'; apply IHa|exact O3]| |auto].
      intros child s4 O4. destruct child as [v|]; [|exact Logic.I].
      apply fresh_on; [exact O4|]. intros i s5 O5. cbv zeta. apply wp_bind. eapply wp_mono; [apply consumeToken_trace, O5| |auto].
      intros t3 s6 O6. destruct t3 as [n3|b]; [apply wp_ret; exact O6|].
      destruct (beqb b (str "}")); [apply wp_ret; exact O6|]. apply IHo, O6.
    - intros parent result t s O. rewrite array_unfold. apply wp_bind.
      assert (K : wp (match t with
                 | TElem n => ret n
                 | TTok b =>
                     if beqb b (str "[") then readArray_with e params (fun p t => array_loop e params f p None t) None
                     else if beqb b (str "{") then object_loop e params f None None
                     else throw NotJson
                 end) (fun _ s' => on s') fails s).
      { destruct t as [n|b]; [apply wp_ret; exact O|].
        destruct (beqb b (str "[")); [apply array_with_trace; [intros; apply IHa|exact O]|].
        destruct (beqb b (str "{")); [apply IHo, O|apply on_throw, O]. }
      eapply wp_mono; [exact K| |auto]. clear K. intros child s1 O1. cbv beta. apply wp_bind.
      assert (K : wp (match result with
             | Some r => ret r
             | None => i <- fresh ;; ret (mkMeta i parent, [])
             end) (fun _ s' => on s') fails s1).
      { destruct result; [apply wp_ret; exact O1|apply wp_bind, wp_fresh, wp_ret; exact O1]. }
      eapply wp_mono; [exact K| |auto]. clear K. intros r s2 O2. cbv beta zeta. apply wp_bind.
      eapply wp_mono; [apply consumeToken_trace, O2| |auto]. intros t2 s3 O3. destruct t2 as [n|b]; [apply on_throw, O3|].
      destruct (beqb b (str "]")); [apply wp_ret; exact O3|]. destruct (negb (beqb b (str ","))); [apply on_throw, O3|].
      apply wp_bind. eapply wp_mono; [apply consumeToken_trace, O3| |auto]. intros t3 s4 O4. apply IHa, O4.
  Qed.

  (** Every exception and every warning of the reader. *)
  Lemma read_trace x : raised e params input x -> told x.
  Proof.
    assert (W : wp (readNext e params (S (S (length input))) None) (fun _ s' => on s') fails (init_st input)).
    { apply next_trace.
      - intros q. apply loops_trace.
      - intros q. apply array_with_trace. intros. apply loops_trace.
      - left. exists []. split; [reflexivity|]. split; [reflexivity|]. split; [exact I_start|constructor]. }
    unfold wp in W. unfold raised, read_doc. destruct (readNext e params _ None (init_st input)) as [[r s]|y|y|y|].
    - intros [H|(root & s' & H & IN)]; [discriminate|]. injection H as -> ->.
      assert (F : Forall told (warns s')) by (destruct W as [(pre & _ & _ & _ & F)|(_ & _ & F)]; exact F).
      rewrite Forall_forall in F. apply F, IN.
    - intros [H|(root & s' & H & _)]; [|discriminate]. injection H as ->. exact W.
    - intros [H|(root & s' & H & _)]; discriminate.
    - intros [H|(root & s' & H & _)]; discriminate.
    - intros [H|(root & s' & H & _)]; discriminate.
  Qed.
End Trace.

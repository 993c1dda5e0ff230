(** The structure of what is read. *)
From Verif Require Import Proofs.ParserShape Proofs.Trace Spec.LooseGrammar.
Open Scope Z_scope.

Definition okst (s : st) : Prop := good s = true \/ inp s = [].
Definition took (s : st) (u : bytes) (s' : st) : Prop := inp s = u ++ inp s' /\ okst s'.

Lemma took_trans s u s' u' s'' : took s u s' -> took s' u' s'' -> took s (u ++ u') s''.
Proof. intros [A _] [B O]. split; [rewrite A, B, app_assoc; reflexivity|exact O]. Qed.
Lemma took_nil s s' : inp s' = inp s -> good s' = good s -> okst s -> took s [] s'.
Proof. intros A B [O|O]; split; cbn; auto; [left|right]; congruence. Qed.

Lemma wp_getput {A} (k : ascii -> M A) Q s : good s = true ->
  (forall c t s', inp s = c :: t -> inp s' = t -> good s' = true -> wp (k c) Q anyfail s') ->
  (forall s', inp s = [] -> inp s' = [] -> good s' = false -> wp (k EOFCHAR) Q anyfail s') ->
  wp (c <- sget ;; hput c ;;; k c) Q anyfail s.
Proof.
  intros G H1 H2. apply wp_bind. unfold wp at 1, sget. destruct (inp s) as [|c t] eqn:E.
  - apply wp_bind. unfold wp at 1, hput. destruct (hist_put _ _) as [h|]; [|exact Logic.I]. apply H2; auto.
  - rewrite G. apply wp_bind. unfold wp at 1, hput. destruct (hist_put _ _) as [h|]; [|exact Logic.I]. apply (H1 c t); auto.
Qed.
Lemma wp_unget {A} c (k : M A) Q s :
  (good s = true -> forall s', inp s' = c :: inp s -> good s' = true -> wp k Q anyfail s') ->
  (good s = false -> forall s', inp s' = inp s -> good s' = false -> wp k Q anyfail s') ->
  wp (hpop ;;; sunget c ;;; k) Q anyfail s.
Proof.
  intros H1 H2. apply wp_bind. unfold wp at 1, hpop. apply wp_bind. unfold wp at 1, sunget, set_his. cbn [good].
  destruct (good s) eqn:G; [apply (H1 eq_refl)|apply (H2 eq_refl)]; reflexivity.
Qed.

Section Loose.
  Variable e : env.
  Variable params : option cfg.

  (** Text of a token: an element is a scalar, quoted when it is a string. *)
  Definition reads (l : bytes) (t : tok) : Prop :=
    match t with
    | TElem (NPrim _ (PStr _)) => quoted l
    | TElem (NPrim _ _) => word l
    | TElem _ => False
    | TTok [] => True
    | TTok b => b = l /\ exists c, l = [c] /\ is_token c = true
    end.

  Lemma escaped_took c buf s : okst s ->
    wp (consumeEscapedChar e params c buf) (fun r s' => exists u, took s u s' /\
      (r = None \/ Forall (fun x => x <> DQUOTE /\ x <> BSLASH) u)) anyfail s.
  Proof.
    intros O. unfold consumeEscapedChar.
    assert (R0 : forall b : option bytes, wp (ret b) (fun r s' => exists u, took s u s' /\ (r = None \/ Forall (fun x => x <> DQUOTE /\ x <> BSLASH) u)) anyfail s).
    { intros b. apply wp_ret. exists []. split; [apply took_nil; auto|]. right. constructor. }
    destruct (_ || _ || _); [apply R0|]. destruct (Ascii.eqb c "u").
    - destruct (match params with Some p => ignoreUnicode p | None => false end); [apply R0|].
      apply wp_bind. unfold wp at 1, sread. destruct (good s) eqn:G.
      + apply wp_bind. unfold wp at 1, hputs. destruct (hist_puts _ _ _) as [h|]; [|exact Logic.I].
        destruct (length (firstn 4 (inp s)) =? 4)%nat eqn:L; cbn [negb].
        * destruct (appendUnicode e (firstn 4 (inp s))) as [bs|x|] eqn:AU; [|exact Logic.I|exact Logic.I].
          apply wp_ret. exists (firstn 4 (inp s)). split.
          -- split; cbn [inp set_his good]; [symmetry; apply firstn_skipn|]. left. apply Nat.eqb_eq in L. rewrite firstn_length in L. apply (proj2 (Nat.leb_le 4 (length (inp s)))). lia.
          -- right. apply Nat.eqb_eq in L. assert (AS := UnicodeProofs.appendUnicode_spec e _ L). rewrite AU in AS. destruct AS as (u & CU & _).
             clear - CU. revert CU. generalize (firstn 4 (inp s)). intros q CU. inversion CU as [a b c0 d x y z t Ha Hb Hc Hd E1 E2]. subst.
             assert (Hx : forall c v, JsonGrammar.hex_digit c v -> c <> DQUOTE /\ c <> BSLASH) by (intros q0 v Hq; split; intros ->; inversion Hq as [? ? V W|? ? V W|? ? V W]; try change (uchar DQUOTE) with 34 in W; try change (uchar BSLASH) with 92 in W; lia).
             repeat apply Forall_cons; try apply Forall_nil; eapply Hx; eauto.
        * apply wp_ret. exists (firstn 4 (inp s)). split; [|left; reflexivity]. split; cbn [inp set_his good]; [symmetry; apply firstn_skipn|].
          right. apply Nat.eqb_neq in L. rewrite firstn_length in L. apply skipn_all2. lia.
      + apply wp_bind. unfold wp at 1, hputs. destruct (hist_puts _ _ _) as [h|]; [|exact Logic.I]. cbn [length Nat.eqb negb].
        apply wp_ret. exists []. split; [apply took_nil; auto; right; destruct O; congruence|left; reflexivity].
    - destruct (_ || _ || _ || _ || _); [apply R0|]. destruct (match params with Some p => strict p | None => false end); [exact Logic.I|].
      apply wp_bind. unfold wp at 1, warn. apply wp_ret. exists []. split; [apply took_nil; auto|]. right. constructor.
  Qed.

  Lemma body_app u b : Forall (fun x => x <> DQUOTE /\ x <> BSLASH) u -> body b -> body (u ++ b).
  Proof. induction 1 as [|c u [A B] _ IH]; intros H; [exact H|]. cbn. constructor; auto. Qed.

  Definition closes (s : st) (esc : bool) (t : tok) (s' : st) : Prop := exists u, took s u s' /\
    match t with
    | TElem (NPrim _ (PStr _)) => exists b, (if esc then exists c b0, b = c :: b0 /\ body b0 else body b) /\ u = b ++ [DQUOTE]
    | TElem _ => False
    | TTok b => b = []
    end.

  Lemma string_took f : forall parent esc buf s, okst s -> wp (string_loop e params f parent esc buf) (closes s esc) anyfail s.
  Proof.
    induction f as [|f IH]; intros parent esc buf s O; [exact Logic.I|]. cbn [string_loop]. apply wp_bind, wp_is_good.
    destruct (good s) eqn:G; cbn [negb]; [|apply wp_ret; exists []; split; [apply took_nil; auto|reflexivity]].
    apply wp_getput; [exact G| |].
    - intros c t s1 E1 E2 G1. assert (T1 : took s [c] s1) by (split; [cbn; congruence|left; exact G1]). assert (O1 : okst s1) by (left; exact G1).
      destruct esc; cbn [negb].
      + apply wp_bind. eapply wp_mono; [apply escaped_took, O1| |auto]. intros r s2 (u & T2 & H). destruct r as [buf'|].
        * destruct H as [H|H]; [discriminate|]. eapply wp_mono; [apply IH; apply T2| |auto]. intros tk s3 (u3 & T3 & H3).
          exists ([c] ++ u ++ u3). split; [eapply took_trans; [exact T1|]; eapply took_trans; eauto|].
          destruct tk as [[m [x| | | | |]|?|?]|b]; try exact H3. destruct H3 as (b & Bb & ->). exists (c :: u ++ b). split.
          -- exists c, (u ++ b). split; [reflexivity|]. apply body_app; auto.
          -- cbn. rewrite app_assoc. reflexivity.
        * apply wp_ret. exists ([c] ++ u). split; [eapply took_trans; eauto|reflexivity].
      + destruct (Ascii.eqb c DQUOTE) eqn:Q.
        * apply Ascii.eqb_eq in Q. subst c. apply wp_bind, wp_new_prim. apply wp_ret. exists [DQUOTE]. split; [exact T1|]. exists []. split; [constructor|reflexivity].
        * destruct (Ascii.eqb c BSLASH) eqn:B.
          -- apply Ascii.eqb_eq in B. subst c. eapply wp_mono; [apply IH, O1| |auto]. intros tk s3 (u3 & T3 & H3). exists ([BSLASH] ++ u3).
             split; [eapply took_trans; eauto|]. destruct tk as [[m [x| | | | |]|?|?]|b]; try exact H3. destruct H3 as (b & (c & b0 & -> & Bb) & ->).
             exists (BSLASH :: c :: b0). split; [constructor; exact Bb|reflexivity].
          -- eapply wp_mono; [apply IH, O1| |auto]. intros tk s3 (u3 & T3 & H3). exists ([c] ++ u3).
             split; [eapply took_trans; eauto|]. destruct tk as [[m [x| | | | |]|?|?]|b]; try exact H3. destruct H3 as (b & Bb & ->).
             exists (c :: b). split; [|reflexivity]. apply Ascii.eqb_neq in Q, B. constructor; auto.
    - intros s1 E1 E2 G1. assert (T1 : took s [] s1) by (split; [cbn; congruence|right; exact E2]). assert (O1 : okst s1) by (right; exact E2).
      assert (K : forall parent esc buf, wp (string_loop e params f parent esc buf) (fun t s' => exists u, took s u s' /\ t = TTok []) anyfail s1).
      { intros p es bf. destruct f; [exact Logic.I|]. cbn [string_loop]. apply wp_bind, wp_is_good. rewrite G1. apply wp_ret. exists []. auto. }
      assert (K' : forall parent esc0 buf, wp (string_loop e params f parent esc0 buf) (closes s esc) anyfail s1).
      { intros. eapply wp_mono; [apply K| |auto]. intros tk s3 (u & T & ->). exists u. auto. }
      destruct esc; cbn [negb].
      + apply wp_bind. change (Ascii.eqb EOFCHAR BSLASH) with false. 
        eapply wp_mono; [apply escaped_took, O1| |auto]. intros r s2 (u & T2 & H). destruct r as [buf'|].
        * eapply wp_mono; [apply IH; apply T2| |auto]. intros tk s3 (u3 & T3 & H3).
          assert (Z : u ++ u3 = []). { destruct T2 as [A _], T3 as [B _]. rewrite E2 in A. symmetry in A. apply app_eq_nil in A. destruct A as [-> A]. rewrite A in B. symmetry in B. apply app_eq_nil in B. destruct B as [-> _]. reflexivity. }
          apply app_eq_nil in Z. destruct Z as [-> ->]. exists []. split; [apply (took_trans s [] s1 [] s3 T1); apply (took_trans s1 [] s2 [] s3 T2 T3)|].
          destruct tk as [[m [x| | | | |]|?|?]|b]; try exact H3. destruct H3 as (b & _ & C). destruct b; discriminate C.
        * apply wp_ret. exists ([] ++ u). split; [eapply took_trans; eauto|reflexivity].
      + apply K'.
  Qed.

  Lemma bool_took f : forall parent first rd buf raw s, okst s -> buf = map tolower raw ->
    wp (bool_loop params f parent first rd buf raw) (fun t s' => exists u, took s u s' /\
      match t with
      | TElem (NPrim _ (PBool _)) => In (map tolower (raw ++ u)) [str "true"; str "false"]
      | TElem _ => False
      | TTok b => b = []
      end) anyfail s.
  Proof.
    induction f as [|f IH]; intros parent first rd buf raw s O B; [exact Logic.I|]. cbn [bool_loop]. apply wp_bind, wp_is_good.
    destruct (good s) eqn:G; cbn [negb]; [|apply wp_ret; exists []; split; [apply took_nil; auto|reflexivity]].
    apply wp_getput; [exact G| |].
    - intros c t s1 E1 E2 G1. assert (T1 : took s [c] s1) by (split; [cbn; congruence|left; exact G1]). assert (O1 : okst s1) by (left; exact G1). cbv zeta.
      destruct (bool_letter (tolower c)).
      + destruct (_ || _); [exact Logic.I|]. eapply wp_mono; [apply IH; [exact O1|rewrite map_app, <- B; reflexivity]| |auto].
        intros tk s3 (u & T3 & H). exists ([c] ++ u). split; [eapply took_trans; eauto|]. rewrite <- app_assoc in H. exact H.
      + destruct (negb (beqb buf (str "true")) && negb (beqb buf (str "false"))) eqn:NB; [exact Logic.I|].
        apply wp_bind. eapply wp_mono with (Q := fun (_ : bool) s' => s' = s1) (E := anyfail); [unfold deref_strict; destruct (negb (beqb buf raw)); destruct params; try reflexivity; exact Logic.I| |auto].
        intros bad s2 ->. destruct bad; [exact Logic.I|].
        replace (beqb buf (str "true") || beqb buf (str "false")) with true by (destruct (beqb buf (str "true")), (beqb buf (str "false")); auto; discriminate NB).
        apply wp_bind. eapply wp_mono with (Q := fun (_ : unit) s' => inp s' = inp s1 /\ good s' = good s1) (E := anyfail); [match goal with |- context [negb ?b] => destruct (negb b) end; split; reflexivity| |auto].
        intros _ s3 [I3 G3]. apply wp_unget; [|intros Gf; congruence]. intros _ s4 E4 G4. apply wp_bind, wp_new_prim. apply wp_ret.
        exists []. split; [split; [cbn; congruence|left; exact G4]|]. rewrite app_nil_r, <- B.
        destruct (beqb buf (str "true")) eqn:BT; [apply beqb_eq in BT; left; auto|]. destruct (beqb buf (str "false")) eqn:BF; [apply beqb_eq in BF; right; left; auto|discriminate NB].
    - intros s1 E1 E2 G1. cbv zeta. change (bool_letter (tolower EOFCHAR)) with false. cbv iota.
      destruct (negb (beqb buf (str "true")) && negb (beqb buf (str "false"))) eqn:NB; [exact Logic.I|].
      apply wp_bind. eapply wp_mono with (Q := fun (_ : bool) s' => s' = s1) (E := anyfail); [unfold deref_strict; destruct (negb (beqb buf raw)); destruct params; try reflexivity; exact Logic.I| |auto].
      intros bad s2 ->. destruct bad; [exact Logic.I|].
      replace (beqb buf (str "true") || beqb buf (str "false")) with true by (destruct (beqb buf (str "true")), (beqb buf (str "false")); auto; discriminate NB).
      apply wp_bind. eapply wp_mono with (Q := fun (_ : unit) s' => inp s' = inp s1 /\ good s' = good s1) (E := anyfail); [match goal with |- context [negb ?b] => destruct (negb b) end; split; reflexivity| |auto].
      intros _ s3 [I3 G3]. apply wp_unget; [intros Gf; congruence|]. intros _ s4 E4 G4. apply wp_bind, wp_new_prim. apply wp_ret.
      exists []. split; [split; [cbn; congruence|right; cbn; congruence]|]. rewrite app_nil_r, <- B.
      destruct (beqb buf (str "true")) eqn:BT; [apply beqb_eq in BT; left; auto|]. destruct (beqb buf (str "false")) eqn:BF; [apply beqb_eq in BF; right; left; auto|discriminate NB].
  Qed.

  Lemma number_took f : forall parent dbl buf s, okst s ->
    wp (number_loop f parent dbl buf) (fun t s' => exists u, took s u s' /\
      match t with
      | TElem (NPrim _ (PStr _)) => False
      | TElem (NPrim _ _) => all_digits u \/ dbl = false /\ exists l l', u = l ++ "."%char :: l' /\ all_digits l /\ all_digits l'
      | TElem _ => False
      | TTok b => b = []
      end) anyfail s.
  Proof.
    induction f as [|f IH]; intros parent dbl buf s O; [exact Logic.I|]. cbn [number_loop]. apply wp_bind, wp_is_good.
    destruct (good s) eqn:G; cbn [negb]; [|apply wp_ret; exists []; split; [apply took_nil; auto|reflexivity]].
    assert (FIN : forall s3, took s [] s3 -> wp (p <- (if dbl then ret (PDbl (atof buf)) else integer_prim buf) ;; n <- new_prim parent p ;; ret (TElem n))
       (fun t s' => exists u, took s u s' /\
      match t with
      | TElem (NPrim _ (PStr _)) => False
      | TElem (NPrim _ _) => all_digits u \/ dbl = false /\ exists l l', u = l ++ "."%char :: l' /\ all_digits l /\ all_digits l'
      | TElem _ => False
      | TTok b => b = []
      end) anyfail s3).
    { intros s3 T3. apply wp_bind. unfold integer_prim.
      destruct dbl; [|destruct (stoi buf); [| |destruct (stol buf)]];
      try exact Logic.I; apply wp_ret; apply wp_bind, wp_new_prim; apply wp_ret; exists []; (split; [exact T3|left; constructor]). }
    apply wp_getput; [exact G| |].
    - intros c t s1 E1 E2 G1. assert (T1 : took s [c] s1) by (split; [cbn; congruence|left; exact G1]). assert (O1 : okst s1) by (left; exact G1).
      destruct (is_digit c) eqn:D.
      + assert (DC : 48 <= uchar c <= 57) by (unfold is_digit in D; lia).
        eapply wp_mono; [apply IH, O1| |auto]. intros tk s3 (u & T3 & H). exists ([c] ++ u). split; [eapply took_trans; eauto|].
        assert (Q : forall u, all_digits u -> all_digits ([c] ++ u)) by (intros; constructor; auto).
        assert (Q' : (all_digits u \/ dbl = false /\ exists l l', u = l ++ "."%char :: l' /\ all_digits l /\ all_digits l') -> 
           all_digits ([c] ++ u) \/ dbl = false /\ exists l l', [c] ++ u = l ++ "."%char :: l' /\ all_digits l /\ all_digits l').
        { intros [A|(A & l & l' & -> & B & C)]; [left; auto|right; split; [exact A|]]. exists ([c] ++ l), l'. auto. }
        destruct tk as [[m [x| | | | |]|?|?]|b]; try exact H; auto.
      + destruct (Ascii.eqb c "." && negb dbl) eqn:P.
        * apply andb_true_iff in P. destruct P as [P N]. apply Ascii.eqb_eq in P. subst c. destruct dbl; [discriminate|].
          eapply wp_mono; [apply IH, O1| |auto]. intros tk s3 (u & T3 & H). exists (["."%char] ++ u). split; [eapply took_trans; eauto|].
          assert (Q : (all_digits u \/ true = false /\ exists l l', u = l ++ "."%char :: l' /\ all_digits l /\ all_digits l') ->
             all_digits (["."%char] ++ u) \/ false = false /\ exists l l', ["."%char] ++ u = l ++ "."%char :: l' /\ all_digits l /\ all_digits l').
          { intros [A|(A & _)]; [|discriminate]. right. split; [reflexivity|]. exists [], u. split; [reflexivity|]. split; [constructor|exact A]. }
          destruct tk as [[m [x| | | | |]|?|?]|b]; try exact H; auto.
        * apply wp_unget; [|intros; congruence]. intros _ s3 E3 G3. apply FIN. split; [cbn; congruence|left; exact G3].
    - intros s1 E1 E2 G1. change (is_digit EOFCHAR) with false. cbv iota. change (Ascii.eqb EOFCHAR ".") with false. cbn [andb].
      apply wp_unget; [intros; congruence|]. intros _ s3 E3 G3. apply FIN. split; [cbn; congruence|right; congruence].
  Qed.

  Lemma null_took parent c s : okst s -> good s = true -> tolower c = "n"%char ->
    wp (consumeNull params parent c) (fun t s' => exists u, took s u s' /\
      match t with
      | TElem (NPrim _ PNull) => map tolower (c :: u) = str "null"
      | TElem _ => False
      | TTok b => b = []
      end) anyfail s.
  Proof.
    intros O G C. unfold consumeNull. apply wp_bind. unfold wp at 1, sread. rewrite G. cbv zeta. apply wp_bind. unfold wp at 1, hputs.
    destruct (hist_puts _ _ _) as [h|]; [|exact Logic.I]. cbn [set_his inp good his warns nextid]. apply wp_bind, wp_is_good. cbn [good set_his].
    destruct (3 <=? length (inp s))%nat eqn:L; cbn [negb].
    - assert (L3 : length (firstn 3 (inp s)) = 3%nat) by (rewrite firstn_length; lia). rewrite L3. cbn [Nat.sub repeat]. rewrite app_nil_r.
      set (s1 := mkSt _ _ _ _ _). assert (T1 : took s (firstn 3 (inp s)) s1) by (split; [symmetry; apply firstn_skipn|left; reflexivity]).
      destruct (beqb _ (str "null")) eqn:N; [|exact Logic.I]. apply beqb_eq in N.
      apply wp_bind. eapply wp_mono with (Q := fun (_ : bool) s' => inp s' = inp s1 /\ good s' = good s1) (E := anyfail).
      { destruct (beqb _ _); [split; reflexivity|]. apply wp_bind. unfold deref_strict. destruct params; [split; reflexivity|exact Logic.I]. }
      2: auto. intros ok s2 [I2 G2]. destruct ok; [|exact Logic.I].
      apply wp_bind. eapply wp_mono with (Q := fun (_ : unit) s' => inp s' = inp s1 /\ good s' = good s1) (E := anyfail); [match goal with |- context [negb ?b] => destruct (negb b) end; split; assumption| |auto].
      intros _ s3 [I3 G3]. apply wp_bind, wp_new_prim. apply wp_ret. exists (firstn 3 (inp s)). split.
      + split; [cbn; rewrite I3; apply T1|left; cbn; rewrite G3; reflexivity].
      + cbn [map]. rewrite C. exact N.
    - apply wp_ret. exists (firstn 3 (inp s)). split; [|reflexivity]. split; [symmetry; apply firstn_skipn|]. right. apply (skipn_all2 (n := 3)). lia.
  Qed.

  (** A token, after a gap. *)
  Definition reads_after_gap (s : st) (t : tok) (s' : st) : Prop := exists g l, took s (g ++ l) s' /\ gap g /\ reads l t.

  Lemma is_token_cases c : is_token c = true -> In c ["{"; "["; "}"; "]"; ":"; ","]%char.
  Proof. unfold is_token. rewrite existsb_exists. intros (x & I & E). apply Ascii.eqb_eq in E. subst x. exact I. Qed.

  Lemma token_took f : forall parent s, okst s -> wp (token_loop e params f parent) (reads_after_gap s) anyfail s.
  Proof.
    induction f as [|f IH]; intros parent s O; [exact Logic.I|]. cbn [token_loop]. apply wp_bind, wp_is_good.
    destruct (good s) eqn:G; cbn [negb]; [|apply wp_ret; exists [], []; split; [apply took_nil; auto|split; [constructor|exact Logic.I]]].
    apply wp_getput; [exact G| |].
    - intros c t s1 E1 E2 G1. assert (T1 : took s [c] s1) by (split; [cbn; congruence|left; exact G1]). assert (O1 : okst s1) by (left; exact G1).
      destruct (Ascii.eqb c DQUOTE) eqn:Q.
      { apply Ascii.eqb_eq in Q. subst c. eapply wp_mono; [apply string_took, O1| |auto]. intros tk s3 (u & T3 & H). exists [], (DQUOTE :: u).
        split; [exact (took_trans _ _ _ _ _ T1 T3)|]. split; [constructor|]. destruct tk as [[m [x| | | | |]|?|?]|b]; try (destruct H; fail); [|subst b; exact Logic.I].
        destruct H as (b & Bb & ->). exists b. auto. }
      destruct (existsb _ _) eqn:TF.
      { eapply wp_mono; [apply (bool_took _ parent (tolower c) 1 [tolower c] [c] s1 O1 eq_refl)| |auto]. intros tk s3 (u & T3 & H). exists [], ([c] ++ u).
        split; [exact (took_trans _ _ _ _ _ T1 T3)|]. split; [constructor|]. destruct tk as [[m [x| | | | |]|?|?]|b]; try (destruct H; fail); [|subst b; exact Logic.I].
        apply W_name. destruct H as [H|[H|[]]]; [left|right; left]; exact H. }
      destruct (Ascii.eqb c "n" || Ascii.eqb c "N") eqn:NN.
      { assert (C : tolower c = "n"%char). { apply orb_true_iff in NN. destruct NN as [N|N]; apply Ascii.eqb_eq in N; subst c; reflexivity. }
        eapply wp_mono; [apply (null_took parent c s1 O1 G1 C)| |auto]. intros tk s3 (u & T3 & H). exists [], ([c] ++ u).
        split; [exact (took_trans _ _ _ _ _ T1 T3)|]. split; [constructor|]. destruct tk as [[m [x| | | | |]|?|?]|b]; try (destruct H; fail); [|subst b; exact Logic.I].
        apply W_name. right. right. left. symmetry. exact H. }
      destruct (is_digit c || Ascii.eqb c "." || Ascii.eqb c "-") eqn:NU.
      { assert (C : number_start c).
        { apply orb_true_iff in NU. destruct NU as [NU|N]; [apply orb_true_iff in NU; destruct NU as [D|N]|]; [left; unfold is_digit in D; lia| |]; apply Ascii.eqb_eq in N; subst c; right; auto. }
        eapply wp_mono; [apply number_took, O1| |auto]. intros tk s3 (u & T3 & H). exists [], ([c] ++ u).
        split; [exact (took_trans _ _ _ _ _ T1 T3)|]. split; [constructor|].
        assert (K : (all_digits u \/ false = false /\ exists l l', u = l ++ "."%char :: l' /\ all_digits l /\ all_digits l') -> word ([c] ++ u)).
        { intros [A|(_ & l & l' & -> & A & B)]; [apply W_int; auto|apply W_dec; auto]. }
        destruct tk as [[m [x| | | | |]|?|?]|b]; try (destruct H; fail); cbn [reads]; auto. subst b. exact Logic.I. }
      destruct (is_token c) eqn:TK.
      { apply wp_ret. exists [], [c]. split; [exact T1|]. split; [constructor|]. split; [reflexivity|]. exists c. auto. }
      destruct (ignoreChar c) eqn:IG; cbn [negb]; [|exact Logic.I].
      eapply wp_mono; [apply IH, O1| |auto]. intros tk s3 (g & l & T3 & Gp & R). exists (c :: g), l.
      split; [exact (took_trans _ _ _ _ _ T1 T3)|]. split; [|exact R]. constructor; [|exact Gp].
      unfold ignoreChar, schar in IG. assert (U := uchar_range c). 
      apply orb_true_iff in IG. destruct IG as [IG|IG]; [destruct (uchar c <? 128) eqn:U1; lia|]. apply Ascii.eqb_eq in IG. subst c. left. vm_compute. discriminate.
    - intros s1 E1 E2 G1. change (Ascii.eqb EOFCHAR DQUOTE) with false. cbv iota.
      replace (existsb (Ascii.eqb EOFCHAR) ["t"; "f"; "T"; "F"]%char) with false by reflexivity. change (Ascii.eqb EOFCHAR "n" || Ascii.eqb EOFCHAR "N") with false.
      change (is_digit EOFCHAR || Ascii.eqb EOFCHAR "." || Ascii.eqb EOFCHAR "-") with false. change (is_token EOFCHAR) with false. change (ignoreChar EOFCHAR) with true. cbn [negb].
      destruct f; [exact Logic.I|]. cbn [token_loop]. apply wp_bind, wp_is_good. rewrite G1. apply wp_ret. exists [], []. split; [split; [cbn; congruence|right; exact E2]|]. split; [constructor|exact Logic.I].
  Qed.
  Lemma consumeToken_took parent s : okst s -> wp (consumeToken e params parent) (reads_after_gap s) anyfail s.
  Proof. intros O. apply token_took, O. Qed.

  (** An empty token means that the input is exhausted. *)
  Definition ends (t : tok) (s : st) : Prop := t = TTok [] -> good s = false.

  Lemma ends_elem n s : ends (TElem n) s.
  Proof. intros C. discriminate C. Qed.
  Lemma string_ends f : forall parent esc buf s, wp (string_loop e params f parent esc buf) ends anyfail s.
  Proof.
    induction f as [|f IH]; intros parent esc buf s; [exact Logic.I|]. cbn [string_loop]. apply wp_bind, wp_is_good.
    destruct (good s) eqn:G; cbn [negb]; [|apply wp_ret; intros _; exact G].
    assert (K : forall c s1, wp (if negb esc then
            if Ascii.eqb c DQUOTE then n <- new_prim parent (PStr buf) ;; ret (TElem n)
            else if Ascii.eqb c BSLASH then string_loop e params f parent true buf
            else string_loop e params f parent false (buf ++ [c])
          else
            r <- consumeEscapedChar e params c buf ;;
            match r with
            | Some buf' => string_loop e params f parent false buf'
            | None => ret (TTok [])
            end) ends anyfail s1).
    { intros c s1. destruct esc; cbn [negb].
      - apply wp_bind. assert (E : wp (consumeEscapedChar e params c buf) (fun r s' => r = None -> good s' = false) anyfail s1).
        { unfold consumeEscapedChar. destruct (_ || _); [apply wp_ret; discriminate|]. destruct (Ascii.eqb c "u").
          - destruct (match params with Some p => ignoreUnicode p | None => false end); [apply wp_ret; discriminate|].
            apply wp_bind. unfold wp at 1, sread. destruct (good s1) eqn:G1.
            + apply wp_bind. unfold wp at 1, hputs. destruct (hist_puts _ _ _) as [h|]; [|exact Logic.I].
              destruct (length (firstn 4 (inp s1)) =? 4)%nat eqn:L; cbn [negb].
              * destruct (appendUnicode e _); try exact Logic.I. apply wp_ret. discriminate.
              * apply wp_ret. intros _. cbn [good set_his]. apply Nat.eqb_neq in L. rewrite firstn_length in L. apply Nat.leb_gt. lia.
            + apply wp_bind. unfold wp at 1, hputs. destruct (hist_puts _ _ _) as [h|]; [|exact Logic.I]. apply wp_ret. intros _. exact G1.
          - destruct (_ || _); [apply wp_ret; discriminate|]. destruct (match params with Some p => strict p | None => false end); [exact Logic.I|].
            apply wp_bind. unfold wp at 1, warn. apply wp_ret. discriminate. }
        eapply wp_mono; [exact E| |auto]. intros [b|] s2 H; [apply IH|]. apply wp_ret. intros _. auto.
      - destruct (Ascii.eqb c DQUOTE); [apply wp_bind, wp_new_prim; apply wp_ret, ends_elem|]. destruct (Ascii.eqb c BSLASH); apply IH. }
    apply wp_getput; [exact G| |]; intros; apply K.
  Qed.
  Lemma bool_ends f : forall parent first rd buf raw s, wp (bool_loop params f parent first rd buf raw) ends anyfail s.
  Proof.
    induction f as [|f IH]; intros parent first rd buf raw s; [exact Logic.I|]. cbn [bool_loop]. apply wp_bind, wp_is_good.
    destruct (good s) eqn:G; cbn [negb]; [|apply wp_ret; intros _; exact G].
    apply wp_bind. unfold wp at 1, sget. rewrite G. destruct (inp s) as [|c l]; apply wp_bind; unfold wp at 1, hput; (destruct (hist_put _ _); [|exact Logic.I]);
      cbv zeta; (destruct (bool_letter _); [destruct (_ || _); [exact Logic.I|apply IH]|]);
      (destruct (_ && _); [exact Logic.I|]); apply wp_bind; unfold deref_strict;
      (destruct (negb (beqb buf raw)); [destruct params as [p|]; [|exact Logic.I]|]); apply wp_ret;
      try (destruct (strict p); [exact Logic.I|]); (destruct (_ || _); [|destruct (ignoreChar _); [apply IH|exact Logic.I]]);
      apply wp_bind; [unfold wp at 1, warn|apply wp_ret|unfold wp at 1, warn|apply wp_ret]; apply wp_bind; unfold wp at 1, hpop; (destruct (hist_pop _); [|exact Logic.I]) || idtac;
      apply wp_bind; unfold wp at 1, sunget; (destruct (good _)); apply wp_bind, wp_new_prim; apply wp_ret, ends_elem.
  Qed.
  Lemma number_ends f : forall parent dbl buf s, wp (number_loop f parent dbl buf) ends anyfail s.
  Proof.
    induction f as [|f IH]; intros parent dbl buf s; [exact Logic.I|]. cbn [number_loop]. apply wp_bind, wp_is_good.
    destruct (good s) eqn:G; cbn [negb]; [|apply wp_ret; intros _; exact G].
    assert (FIN : forall s3, wp (p <- (if dbl then ret (PDbl (atof buf)) else integer_prim buf) ;; n <- new_prim parent p ;; ret (TElem n)) ends anyfail s3).
    { intros s3. apply wp_bind. unfold integer_prim. destruct dbl; [|destruct (stoi buf); [| |destruct (stol buf)]];
      try exact Logic.I; apply wp_ret; apply wp_bind, wp_new_prim; apply wp_ret, ends_elem. }
    apply wp_getput; [exact G| |]; intros; (destruct (is_digit _); [apply IH|]); (destruct (_ && _); [apply IH|]);
      apply wp_unget; intros; apply FIN.
  Qed.
  Lemma null_ends parent c s : wp (consumeNull params parent c) ends anyfail s.
  Proof.
    unfold consumeNull. apply wp_bind. eapply wp_mono with (Q := fun _ _ => True) (E := anyfail); [unfold wp, sread; destruct (good s); exact Logic.I| |auto].
    intros three s1 _. cbv zeta. apply wp_bind. unfold wp at 1, hputs. destruct (hist_puts _ _ _); [|exact Logic.I]. apply wp_bind, wp_is_good.
    destruct (good _) eqn:G; cbn [negb]; [|apply wp_ret; intros _; exact G].
    destruct (beqb _ (str "null")); [|exact Logic.I]. apply wp_bind.
    eapply wp_mono with (Q := fun _ _ => True) (E := anyfail); [destruct (beqb _ _); [exact Logic.I|]; unfold deref_strict; destruct params; exact Logic.I| |auto].
    intros ok s2 _. destruct ok; [|exact Logic.I]. apply wp_bind. eapply wp_mono with (Q := fun _ _ => True) (E := anyfail); [destruct (negb _); exact Logic.I| |auto].
    intros _ s3 _. apply wp_bind, wp_new_prim. apply wp_ret, ends_elem.
  Qed.
  Lemma token_ends f : forall parent s, wp (token_loop e params f parent) ends anyfail s.
  Proof.
    induction f as [|f IH]; intros parent s; [exact Logic.I|]. cbn [token_loop]. apply wp_bind, wp_is_good.
    destruct (good s) eqn:G; cbn [negb]; [|apply wp_ret; intros _; exact G].
    assert (K : forall c s1, wp (if Ascii.eqb c DQUOTE then consumeString e params parent
          else if existsb (Ascii.eqb c) ["t"; "f"; "T"; "F"]%char then consumeBool params parent c
          else if Ascii.eqb c "n" || Ascii.eqb c "N" then consumeNull params parent c
          else if is_digit c || Ascii.eqb c "." || Ascii.eqb c "-" then consumeNumber parent c
          else if is_token c then ret (TTok [c])
          else if negb (ignoreChar c) then throw Format
          else token_loop e params f parent) ends anyfail s1).
    { intros c s1. destruct (Ascii.eqb c DQUOTE); [apply string_ends|]. destruct (existsb _ _); [apply bool_ends|].
      destruct (_ || _); [apply null_ends|]. destruct (_ || _); [apply number_ends|]. destruct (is_token c); [apply wp_ret; intros C; discriminate C|].
      destruct (negb _); [exact Logic.I|apply IH]. }
    apply wp_getput; [exact G| |]; intros; apply K.
  Qed.
  Lemma consumeToken_ends parent s : wp (consumeToken e params parent) ends anyfail s.
  Proof. apply token_ends. Qed.
  Lemma consumeToken_over parent s : good s = false -> wp (consumeToken e params parent) (fun t _ => t = TTok []) anyfail s.
  Proof. intros G. unfold consumeToken, loop_fuel. change (wp (token_loop e params (S (S (length (inp s)))) parent) (fun t _ => t = TTok []) anyfail s).
    cbn [token_loop]. apply wp_bind, wp_is_good. rewrite G. cbn [negb]. apply wp_ret. reflexivity.
  Qed.
  Lemma consumeToken_both parent s : okst s -> wp (consumeToken e params parent) (fun t s' => reads_after_gap s t s' /\ ends t s') anyfail s.
  Proof.
    intros O. assert (A := consumeToken_took parent s O). assert (B := consumeToken_ends parent s). unfold wp in *.
    destruct (consumeToken e params parent s) as [[t s']| | | |]; auto.
  Qed.
End Loose.

(** Lexical part of C01: strings, numbers, literals and white space. *)
From Verif Require Export Proofs.UnicodeProofs Proofs.ParserFuel Spec.JsonGrammar.
Open Scope Z_scope.

(** Reader standing before [rest], having emitted warnings [w]. *)
Definition at_ (w : list exn) (rest : bytes) (s : st) : Prop := inp s = rest /\ ready s /\ warns s = w.

Definition never (f : fail) : Prop := False.

Lemma at_good w c rest s : at_ w (c :: rest) s -> good s = true.
Proof. intros (E & [_ [G|G]] & _); [exact G|congruence]. Qed.

Lemma wp_next {A} w c rest s (X : M A) (k : ascii -> M A) Q E : at_ w (c :: rest) s ->
  (forall s', at_ w rest s' -> good s' = true -> wp (k c) Q E s') ->
  wp (g <- is_good ;; if negb g then X else (c <- sget ;; hput c ;;; k c)) Q E s.
Proof.
  intros H K. pose proof (at_good _ _ _ _ H) as G. destruct H as (EI & R & W).
  apply wp_bind, wp_is_good. rewrite G. cbn [negb]. apply wp_getput; [apply R|exact G| |].
  - intros c' t h E1 _ O. rewrite EI in E1. injection E1 as <- <-. apply K; [|reflexivity].
    split; [reflexivity|]. split; [|exact W]. split; [exact O|left; reflexivity].
  - intros h E1. congruence.
Qed.

Lemma wp_next_eof {A} w s (X : M A) (k : ascii -> M A) Q E : at_ w [] s -> good s = true ->
  (forall s', at_ w [] s' -> good s' = false -> wp (k EOFCHAR) Q E s') ->
  wp (g <- is_good ;; if negb g then X else (c <- sget ;; hput c ;;; k c)) Q E s.
Proof.
  intros (EI & R & W) G K. apply wp_bind, wp_is_good. rewrite G. cbn [negb]. apply wp_getput; [apply R|exact G| |].
  - intros c t h E1. congruence.
  - intros h _ _ O. apply K; [|reflexivity]. split; [reflexivity|]. split; [|exact W]. split; [exact O|right; reflexivity].
Qed.

(** The character after [rest]'s beginning was read and is given back. *)
Lemma wp_giveback {A} w c rest s (k : unit -> M A) Q E : at_ w rest s ->
  (forall s', at_ w (if good s then c :: rest else rest) s' -> wp (k tt) Q E s') ->
  wp (hpop ;;; (u <- sunget c ;; k u)) Q E s.
Proof.
  intros (EI & [O R] & W) K. apply wp_hpop_sunget. apply K. rewrite EI.
  split; [reflexivity|]. split; [|exact W]. split; [apply hist_pop_ok, O|]. cbn [good inp].
  destruct (good s); [left; reflexivity|right]. destruct R; congruence.
Qed.

Lemma at_fresh w rest s : at_ w rest s -> at_ w rest (mkSt (inp s) (good s) (his s) (warns s) (nextid s + 1)).
Proof. auto. Qed.

Lemma wp_new_prim_at w rest s parent x : at_ w rest s ->
  wp (n <- new_prim parent x ;; ret (TElem n)) (fun t s' => (exists m, t = TElem (NPrim m x)) /\ at_ w rest s') never s.
Proof. intros H. apply wp_bind, wp_new_prim, wp_ret. split; [eauto|]. apply at_fresh, H. Qed.

(** ** Batches of the history *)
Lemma find_lf_clean mem : forall count i, ~ In LF mem -> (count <= length mem)%nat -> find_lf mem count i = Some None.
Proof.
  induction mem as [|x mem IH]; intros [|count] i N L; cbn [find_lf length] in *; try reflexivity; try lia.
  destruct (Ascii.eqb x LF) eqn:E; [apply Ascii.eqb_eq in E; subst; exfalso; apply N; left; reflexivity|].
  apply IH; [|lia]. intros I. apply N. right. exact I.
Qed.

Lemma hist_puts_clean h mem count : hist_ok h -> ~ In LF mem -> (count <= length mem)%nat -> (count <= 45)%nat ->
  exists h', hist_puts h mem count = Some h' /\ hist_ok h'.
Proof.
  intros O N L L45. unfold hist_puts. cbn [hist_put_many]. rewrite find_lf_clean by auto.
  pose proof (hist_flush_ok h O) as O1.
  destruct (ring_put_many_wf_gen 45 (hring (hist_flush h)) mem (Z.of_nat count)) as (r & E & W); try lia; auto.
  change (Z.of_nat 45) with ERROR_HISTORY_LEN in E. rewrite E. cbn [option_map]. eexists. split; [reflexivity|exact W].
Qed.

Lemma wp_hputs {A} w rest s mem count (k : unit -> M A) Q E : at_ w rest s -> ~ In LF mem ->
  (count <= length mem)%nat -> (count <= 45)%nat ->
  (forall s', at_ w rest s' -> good s' = good s -> wp (k tt) Q E s') -> wp (u <- hputs mem count ;; k u) Q E s.
Proof.
  intros (EI & [O R] & W) N L L45 K. apply wp_bind. unfold wp at 1, hputs.
  destruct (hist_puts_clean (his s) mem count O N L L45) as (h & -> & O'). apply K; [|reflexivity].
  split; [exact EI|]. split; [|exact W]. split; [exact O'|exact R].
Qed.

Lemma wp_sread {A} w h rest s (k : bytes -> M A) Q E : at_ w (h ++ rest) s -> h <> [] ->
  (forall s', at_ w rest s' -> good s' = true -> wp (k h) Q E s') -> wp (x <- sread (length h) ;; k x) Q E s.
Proof.
  intros H N K. assert (G : good s = true) by (destruct h; [congruence|eapply at_good, H]).
  destruct H as (EI & [O R] & W). apply wp_bind. unfold wp at 1, sread. rewrite G, EI.
  rewrite firstn_app, Nat.sub_diag, firstn_all, firstn_O, app_nil_r.
  assert (LE : (length h <=? length (h ++ rest))%nat = true) by (apply Nat.leb_le; rewrite app_length; lia).
  apply K; [|exact LE]. rewrite skipn_app, Nat.sub_diag, skipn_all, skipn_O. split; [reflexivity|]. split; [|exact W].
  split; [exact O|]. left. exact LE.
Qed.

(** ** Characters *)
Lemma neq_eqb c d : c <> d -> Ascii.eqb c d = false.
Proof. intros H. apply Ascii.eqb_neq, H. Qed.

Lemma uchar_neq c d : uchar c <> uchar d -> Ascii.eqb c d = false.
Proof. intros H. apply Ascii.eqb_neq. intros ->. congruence. Qed.

Lemma dec_digit_is c : dec_digit c <-> is_digit c = true.
Proof. unfold dec_digit, is_digit. lia. Qed.

Section Lex.
  Variable e : env.
  Variable params : option cfg.
  (** What the configuration makes of unicode escapes. *)
  Variable uni : bytes -> bytes -> Prop.
  Hypothesis uni_ok : forall h v, uni h v -> (exists u, code_unit h u) /\
    (if match params with Some p => ignoreUnicode p | None => false end
     then v = BSLASH :: "u"%char :: h else appendUnicode e h = UniOk v).

  Lemma hex_plain c v : hex_digit c v -> Ascii.eqb c DQUOTE = false /\ Ascii.eqb c BSLASH = false /\ c <> LF.
  Proof.
    intros H. assert (N : uchar c <> 34 /\ uchar c <> 92 /\ uchar c <> 10) by (destruct H; lia).
    destruct N as (N1 & N2 & N3). repeat split; try (apply uchar_neq; assumption). intros ->. apply N3. reflexivity.
  Qed.

  (** Plain characters are copied. *)
  Lemma string_plain l : Forall (fun c => Ascii.eqb c DQUOTE = false /\ Ascii.eqb c BSLASH = false) l ->
    forall w rest parent fuel buf s Q E, (length l <= fuel)%nat -> at_ w (l ++ rest) s ->
    (forall s', at_ w rest s' -> wp (string_loop e params (fuel - length l) parent false (buf ++ l)) Q E s') ->
    wp (string_loop e params fuel parent false buf) Q E s.
  Proof.
    induction 1 as [|c l [C1 C2] F IH]; intros w rest parent fuel buf s Q E L H K.
    { rewrite app_nil_r in K. cbn [length] in K. rewrite Nat.sub_0_r in K. apply K, H. }
    destruct fuel as [|fuel]; [cbn [length] in L; lia|]. cbn [string_loop]. eapply wp_next; [exact H|].
    intros s1 H1 G1. cbn [negb]. rewrite C1, C2. eapply IH; [cbn [length] in L; lia|exact H1|].
    intros s2 H2. rewrite <- app_assoc. apply K, H2.
  Qed.

  Lemma escaped_at w rest c v buf s : at_ w rest s ->
    c = DQUOTE \/ c = BSLASH \/ c = "/"%char -> v = [c] ->
    wp (consumeEscapedChar e params c buf) (fun r s' => r = Some (buf ++ v) /\ at_ w rest s') never s.
  Proof.
    intros H C ->. unfold consumeEscapedChar.
    replace (Ascii.eqb c BSLASH || Ascii.eqb c DQUOTE || Ascii.eqb c "/") with true.
    - apply wp_ret. auto.
    - destruct C as [-> | [-> | ->]]; reflexivity.
  Qed.

  Lemma escaped_ctrl w rest c buf s : at_ w rest s -> ctrl_escape c ->
    wp (consumeEscapedChar e params c buf) (fun r s' => r = Some (buf ++ [BSLASH; c]) /\ at_ w rest s') never s.
  Proof.
    intros H C. unfold consumeEscapedChar.
    destruct C as [<-|[<-|[<-|[<-|[<-|[]]]]]]; cbn [Ascii.eqb]; apply wp_ret; auto.
  Qed.

  Definition string_post (w : list exn) (rest v : bytes) (t : tok) (s' : st) : Prop :=
    (exists m, t = TElem (NPrim m (PStr v))) /\ at_ w rest s'.

  Lemma string_at b v : jstring kept_ctrl uni b v ->
    forall w rest parent fuel buf s, (length b < fuel)%nat -> at_ w (b ++ DQUOTE :: rest) s ->
    wp (string_loop e params fuel parent false buf) (string_post w rest (buf ++ v)) never s.
  Proof.
    induction 1 as [|t v t' v' HC HS IH]; intros w rest parent fuel buf s L H.
    { destruct fuel as [|fuel]; [lia|]. cbn [string_loop]. eapply wp_next; [exact H|].
      intros s1 H1 G1. cbn [negb]. rewrite app_nil_r. cbv beta. change (Ascii.eqb DQUOTE DQUOTE) with true. cbv iota. apply wp_new_prim_at, H1. }
    rewrite app_length in L. rewrite <- app_assoc in H.
    destruct HC as [c C1 C2 C3|c C|c v C KC|h v U].
    - eapply string_plain with (l := [c]); [|cbn [length] in *; lia|exact H|].
      + repeat constructor; apply neq_eqb; assumption.
      + intros s1 H1. replace (buf ++ [c] ++ v') with ((buf ++ [c]) ++ v') by (rewrite <- app_assoc; reflexivity).
        apply IH; [cbn [length] in *; lia|exact H1].
    - cbn [length] in L. destruct fuel as [|fuel]; [lia|]. cbn [string_loop]. eapply wp_next; [exact H|].
      intros s1 H1 G1. cbn [negb]. replace (Ascii.eqb BSLASH DQUOTE) with false by reflexivity.
      rewrite Ascii.eqb_refl. destruct fuel as [|fuel]; [lia|]. cbn [string_loop]. eapply wp_next; [exact H1|].
      intros s2 H2 G2. cbn [negb]. apply wp_bind. eapply wp_mono; [eapply escaped_at; eauto| |auto].
      intros r s3 [-> H3]. rewrite app_assoc. apply IH; [lia|exact H3].
    - cbn [length] in L. destruct fuel as [|fuel]; [lia|]. cbn [string_loop]. eapply wp_next; [exact H|].
      intros s1 H1 G1. cbn [negb]. replace (Ascii.eqb BSLASH DQUOTE) with false by reflexivity.
      rewrite Ascii.eqb_refl. destruct fuel as [|fuel]; [lia|]. cbn [string_loop]. eapply wp_next; [exact H1|].
      intros s2 H2 G2. cbn [negb]. apply wp_bind. eapply wp_mono; [eapply escaped_ctrl; eauto| |auto].
      intros r s3 [-> H3]. unfold kept_ctrl in KC. subst v. rewrite app_assoc. apply IH; [lia|exact H3].
    - cbn [length] in L. destruct (uni_ok h v U) as ((u & CU) & A). pose proof (code_unit_length _ _ CU) as LH.
      destruct fuel as [|fuel]; [lia|]. cbn [string_loop]. eapply wp_next; [exact H|].
      intros s1 H1 G1. cbn [negb]. replace (Ascii.eqb BSLASH DQUOTE) with false by reflexivity.
      rewrite Ascii.eqb_refl. destruct fuel as [|fuel]; [lia|]. cbn [string_loop]. eapply wp_next; [exact H1|].
      intros s2 H2 G2. cbn [negb]. apply wp_bind. unfold consumeEscapedChar.
      replace (Ascii.eqb "u" BSLASH || Ascii.eqb "u" DQUOTE || Ascii.eqb "u" "/") with false by reflexivity.
      rewrite Ascii.eqb_refl.
      assert (HF : Forall (fun c => Ascii.eqb c DQUOTE = false /\ Ascii.eqb c BSLASH = false) h /\ ~ In LF h).
      { destruct CU as [a b c d x y z q Ha Hb Hc Hd].
        apply hex_plain in Ha, Hb, Hc, Hd. split.
        - repeat constructor; tauto.
        - intros [I|[I|[I|[I|[]]]]]; symmetry in I; intuition congruence. }
      destruct HF as [HF NL].
      destruct (match params with Some p => ignoreUnicode p | None => false end).
      + apply wp_ret. subst v. eapply string_plain with (l := h); [exact HF|lia|exact H2|].
        intros s3 H3. rewrite <- app_assoc.
        replace (buf ++ (BSLASH :: "u"%char :: h) ++ v') with ((buf ++ [BSLASH; "u"%char] ++ h) ++ v')
          by (rewrite <- !app_assoc; reflexivity).
        apply IH; [lia|exact H3].
      + cbv iota. replace 4%nat with (length h) by lia. eapply wp_sread; [exact H2|destruct h; [discriminate LH|discriminate]|].
        intros s3 H3 G3. eapply wp_hputs; [exact H3|exact NL|lia|lia|]. intros s4 H4 G4.
        rewrite Nat.eqb_refl. cbn [negb]. rewrite A. apply wp_ret. rewrite app_assoc. apply IH; [lia|exact H4].
  Qed.

  (** ** Numbers *)
  Lemma number_digits l : Forall dec_digit l -> forall w rest parent fuel dbl buf s Q E,
    (length l <= fuel)%nat -> at_ w (l ++ rest) s -> (l = [] -> good s = true) ->
    (forall s', at_ w rest s' -> good s' = true -> wp (number_loop (fuel - length l) parent dbl (buf ++ l)) Q E s') ->
    wp (number_loop fuel parent dbl buf) Q E s.
  Proof.
    induction 1 as [|c l D F IH]; intros w rest parent fuel dbl buf s Q E L H G K.
    { rewrite app_nil_r in K. cbn [length] in K. rewrite Nat.sub_0_r in K. apply K; auto. }
    destruct fuel as [|fuel]; [cbn [length] in L; lia|]. cbn [number_loop]. eapply wp_next; [exact H|].
    intros s1 H1 G1. apply dec_digit_is in D. rewrite D. eapply IH; [cbn [length] in L; lia|exact H1|auto|].
    intros s2 H2 G2. rewrite <- app_assoc. apply K; auto.
  Qed.

  Lemma boundary_char c rest : boundary (c :: rest) -> is_digit c = false /\ Ascii.eqb c "." = false /\
    ~ (65 <= uchar c <= 90) /\ ~ (97 <= uchar c <= 122).
  Proof.
    intros B. destruct (B c rest eq_refl) as (B1 & B2 & B3 & B4). split.
    - destruct (is_digit c) eqn:E; [|reflexivity]. apply dec_digit_is in E. tauto.
    - split; [apply neq_eqb, B2|auto].
  Qed.

  (** The number ends: before a character that does not continue it, or at the
      end of input. *)
  Lemma number_stop w rest parent fuel (dbl : bool) buf s p : (0 < fuel)%nat -> at_ w rest s -> good s = true -> boundary rest ->
    (if dbl then p = PDbl (atof buf) else forall s, integer_prim buf s = Ok (p, s)) ->
    wp (number_loop fuel parent dbl buf) (fun t s' => (exists m, t = TElem (NPrim m p)) /\ at_ w rest s') never s.
  Proof.
    intros L H G B EP. destruct fuel as [|fuel]; [lia|]. cbn [number_loop].
    assert (K : forall s', at_ w rest s' ->
      wp (x <- (if dbl then ret (PDbl (atof buf)) else integer_prim buf) ;; n <- new_prim parent x ;; ret (TElem n))
        (fun t s' => (exists m, t = TElem (NPrim m p)) /\ at_ w rest s') never s').
    { intros s' H'. apply wp_bind. destruct dbl.
      - subst p. apply wp_ret. apply wp_new_prim_at, H'.
      - unfold wp at 1. rewrite EP. apply wp_new_prim_at, H'. }
    destruct rest as [|c rest].
    - eapply wp_next_eof; [exact H|exact G|]. intros s1 H1 G1.
      replace (is_digit EOFCHAR) with false by reflexivity.
      replace (Ascii.eqb EOFCHAR "." && negb dbl) with false by reflexivity.
      eapply wp_giveback; [exact H1|]. rewrite G1. exact K.
    - eapply wp_next; [exact H|]. intros s1 H1 G1. destruct (boundary_char c rest B) as (-> & -> & _ & _). cbn [andb].
      eapply wp_giveback; [exact H1|]. rewrite G1. exact K.
  Qed.

  Lemma take_digits_app l : Forall dec_digit l -> forall rest acc n,
    match rest with c :: _ => is_digit c = false | [] => True end ->
    take_digits (l ++ rest) acc n = (fold_left (fun a c => 10 * a + (uchar c - 48)) l acc, n + Z.of_nat (length l), rest).
  Proof.
    induction 1 as [|c l D F IH]; intros rest acc n R; cbn [app take_digits fold_left length].
    - replace (n + Z.of_nat 0) with n by lia. destruct rest as [|c rest]; cbn [take_digits]; [reflexivity|rewrite R; reflexivity].
    - apply dec_digit_is in D. rewrite D. rewrite IH by exact R. unfold digit_val. f_equal. f_equal. lia.
  Qed.

  Lemma dec_digit_minus c : dec_digit c -> Ascii.eqb c "-" = false.
  Proof. intros D. apply uchar_neq. unfold dec_digit in D. change (uchar "-") with 45. lia. Qed.

  Lemma strtol_spec neg l : digits l -> strtol_value (minus neg ++ l) = Some (signed neg (dec_value l)).
  Proof.
    intros [N F]. unfold strtol_value. assert (L : (0 < length l)%nat) by (destruct l; [congruence|cbn; lia]).
    pose proof (take_digits_app l F [] 0 0 I) as T. rewrite app_nil_r in T.
    destruct neg; cbn [minus app str list_ascii_of_string signed].
    - rewrite Ascii.eqb_refl. rewrite T. destruct (0 + Z.of_nat (length l) =? 0) eqn:E; [lia|]. reflexivity.
    - destruct l as [|c l]; [congruence|]. inversion_clear F as [|? ? D F'].
      rewrite (dec_digit_minus c D). rewrite T. destruct (0 + Z.of_nat (length (c :: l)) =? 0) eqn:E; [lia|]. reflexivity.
  Qed.

  Lemma integer_prim_spec neg l p : digits l -> int_prim (signed neg (dec_value l)) p ->
    forall s, integer_prim (minus neg ++ l) s = Ok (p, s).
  Proof.
    intros D I s. unfold integer_prim, stoi, stol, stox. rewrite (strtol_spec neg l D).
    change (2 ^ (32 - 1)) with (2 ^ 31). change (2 ^ (64 - 1)) with (2 ^ 63).
    destruct I as [z H|z H1 H2].
    - destruct ((- 2 ^ 31 <=? z) && (z <? 2 ^ 31)) eqn:E; [reflexivity|lia].
    - destruct ((- 2 ^ 31 <=? z) && (z <? 2 ^ 31)) eqn:E; [lia|].
      destruct ((- 2 ^ 63 <=? z) && (z <? 2 ^ 63)) eqn:E2; [reflexivity|lia].
  Qed.

  Lemma atof_spec neg l fr : digits l -> digits fr ->
    atof (minus neg ++ l ++ "."%char :: fr) = decimal_to_double neg (dec_value (l ++ fr)) (Z.of_nat (length fr)).
  Proof.
    intros [N F] [N' F']. unfold atof, dec_value. rewrite fold_left_app.
    pose proof (take_digits_app l F ("."%char :: fr) 0 0 eq_refl) as T.
    pose proof (take_digits_app fr F' [] (fold_left (fun a c => 10 * a + (uchar c - 48)) l 0) 0 I) as T'.
    rewrite app_nil_r in T'.
    assert (L : (0 < length l)%nat) by (destruct l; [congruence|cbn; lia]).
    destruct neg; cbn [minus app str list_ascii_of_string].
    - rewrite Ascii.eqb_refl, T. rewrite Ascii.eqb_refl, T'.
      destruct (0 + Z.of_nat (length l) + (0 + Z.of_nat (length fr)) =? 0) eqn:E; [lia|]. f_equal.
    - destruct l as [|c l]; [congruence|]. inversion F as [|? ? D F2]; subst.
      cbn [app] in *. rewrite (dec_digit_minus c D). rewrite T. rewrite Ascii.eqb_refl, T'.
      destruct (0 + Z.of_nat (length (c :: l)) + (0 + Z.of_nat (length fr)) =? 0) eqn:E; [lia|]. f_equal.
  Qed.

  Lemma number_int neg l p w rest parent first s : digits l -> int_prim (signed neg (dec_value l)) p -> boundary rest ->
    at_ w (tl (minus neg ++ l) ++ rest) s -> good s = true -> hd_error (minus neg ++ l) = Some first ->
    wp (consumeNumber parent first) (fun t s' => (exists m, t = TElem (NPrim m p)) /\ at_ w rest s') never s.
  Proof.
    intros D IP B H G HD. unfold consumeNumber, loop_fuel.
    assert (EB : minus neg ++ l = first :: tl (minus neg ++ l)).
    { destruct (minus neg ++ l) as [|x y]; [discriminate|]. injection HD as ->. reflexivity. }
    assert (FB : Forall dec_digit (tl (minus neg ++ l))).
    { destruct neg; cbn; [apply D|]. destruct D as [_ F]. destruct F; cbn; [constructor|assumption]. }
    unfold wp. change (wp (number_loop (S (S (length (inp s)))) parent false [first])
      (fun t s' => (exists m, t = TElem (NPrim m p)) /\ at_ w rest s') never s).
    assert (LI : length (inp s) = (length (tl (minus neg ++ l)) + length rest)%nat).
    { destruct H as (-> & _). apply app_length. }
    eapply number_digits; [exact FB| |exact H|auto|].
    - lia.
    - intros s1 H1 G1. apply number_stop; auto; [lia|]. cbn [app]. rewrite <- EB. apply integer_prim_spec; auto.
  Qed.

  Lemma number_dbl neg l fr w rest parent first s : digits l -> digits fr -> boundary rest ->
    at_ w (tl (minus neg ++ l) ++ "."%char :: fr ++ rest) s -> good s = true -> hd_error (minus neg ++ l) = Some first ->
    wp (consumeNumber parent first)
      (fun t s' => (exists m, t = TElem (NPrim m (PDbl (decimal_to_double neg (dec_value (l ++ fr)) (Z.of_nat (length fr))))))
                   /\ at_ w rest s') never s.
  Proof.
    intros D D' B H G HD. unfold consumeNumber, loop_fuel.
    assert (EB : minus neg ++ l = first :: tl (minus neg ++ l)).
    { destruct (minus neg ++ l) as [|x y]; [discriminate|]. injection HD as ->. reflexivity. }
    assert (FB : Forall dec_digit (tl (minus neg ++ l))).
    { destruct neg; cbn; [apply D|]. destruct D as [_ F]. destruct F; cbn; [constructor|assumption]. }
    match goal with |- wp _ ?Q _ _ => change (wp (number_loop (S (S (length (inp s)))) parent false [first]) Q never s) end.
    assert (LI : length (inp s) = (length (tl (minus neg ++ l)) + S (length fr + length rest))%nat).
    { destruct H as (-> & _). rewrite app_length. cbn [length]. rewrite app_length. reflexivity. }
    eapply number_digits; [exact FB| |exact H|auto|].
    { lia. }
    intros s1 H1 G1.
    destruct (S (S (length (inp s))) - length (tl (minus neg ++ l)))%nat as [|f] eqn:EF; [lia|].
    cbn [number_loop]. eapply wp_next; [exact H1|]. intros s2 H2 G2.
    replace (is_digit ".") with false by reflexivity. rewrite Ascii.eqb_refl. cbn [andb negb].
    eapply number_digits; [apply D'| |exact H2|auto|].
    { lia. }
    intros s3 H3 G3. apply number_stop; auto; [lia|].
    rewrite <- atof_spec by auto. f_equal. f_equal. rewrite !app_assoc, EB. cbn [app]. rewrite <- app_assoc. reflexivity.
  Qed.

  (** ** Literals *)
  Lemma boundary_letter c rest : boundary (c :: rest) -> bool_letter (tolower c) = false.
  Proof.
    intros B. destruct (boundary_char c rest B) as (_ & _ & B1 & B2). unfold tolower.
    destruct ((65 <=? uchar c) && (uchar c <=? 90)) eqn:E; [lia|].
    unfold bool_letter. destruct (existsb (Ascii.eqb c) ["a"; "e"; "l"; "r"; "s"; "u"]%char) eqn:EX; [|reflexivity].
    exfalso. apply B2. apply existsb_exists in EX. destruct EX as (x & I & EQ). apply Ascii.eqb_eq in EQ. subst x.
    repeat (destruct I as [<-|I]; [vm_compute; split; discriminate|]). destruct I.
  Qed.

  Lemma bool_stop w rest parent fuel first rd (b : bool) buf s : (0 < fuel)%nat -> at_ w rest s -> good s = true -> boundary rest ->
    buf = (if b then str "true" else str "false") ->
    wp (bool_loop params fuel parent first rd buf buf) (fun t s' => (exists m, t = TElem (NPrim m (PBool b))) /\ at_ w rest s') never s.
  Proof.
    intros L H G B EB. destruct fuel as [|fuel]; [lia|]. cbn [bool_loop].
    assert (E1 : negb (beqb buf (str "true")) && negb (beqb buf (str "false")) = false) by (subst; destruct b; reflexivity).
    assert (E2 : beqb buf (str "true") || beqb buf (str "false") = true) by (subst; destruct b; reflexivity).
    assert (E3 : beqb buf (str "true") = b) by (subst; destruct b; reflexivity).
    destruct rest as [|c rest].
    - eapply wp_next_eof; [exact H|exact G|]. intros s1 H1 G1. cbv zeta.
      replace (bool_letter (tolower EOFCHAR)) with false by reflexivity.
      rewrite E1, E2, beqb_refl. cbn [negb]. apply wp_bind, wp_ret. apply wp_bind, wp_ret.
      eapply wp_giveback; [exact H1|]. rewrite G1, E3. intros s2 H2. apply wp_new_prim_at, H2.
    - eapply wp_next; [exact H|]. intros s1 H1 G1. cbv zeta. rewrite (boundary_letter c rest B).
      rewrite E1, E2, beqb_refl. cbn [negb]. apply wp_bind, wp_ret. apply wp_bind, wp_ret.
      eapply wp_giveback; [exact H1|]. rewrite G1, E3. intros s2 H2. apply wp_new_prim_at, H2.
  Qed.

  Lemma bool_step w c rest fuel parent first rd buf raw s Q E : at_ w (c :: rest) s ->
    bool_letter c = true -> tolower c = c ->
    ((5 <=? rd)%nat && Ascii.eqb first "f") || ((4 <=? rd)%nat && Ascii.eqb first "t") = false ->
    (forall s', at_ w rest s' -> good s' = true -> wp (bool_loop params fuel parent first (S rd) (buf ++ [c]) (raw ++ [c])) Q E s') ->
    wp (bool_loop params (S fuel) parent first rd buf raw) Q E s.
  Proof.
    intros H B T C K. cbn [bool_loop]. eapply wp_next; [exact H|]. intros s1 H1 G1. cbv zeta.
    rewrite T, B, C. apply K; auto.
  Qed.

  Lemma bool_true w rest parent s : boundary rest -> at_ w (str "rue" ++ rest) s ->
    wp (consumeBool params parent "t") (fun t s' => (exists m, t = TElem (NPrim m (PBool true))) /\ at_ w rest s') never s.
  Proof.
    intros B H. unfold consumeBool, loop_fuel.
    match goal with |- wp _ ?Q _ _ =>
      change (wp (bool_loop params (S (S (length (inp s)))) parent "t" 1 ["t"%char] ["t"%char]) Q never s) end.
    assert (L : length (inp s) = (3 + length rest)%nat) by (destruct H as (-> & _); apply app_length).
    rewrite L. cbn [Nat.add].
    do 3 (eapply bool_step; [match goal with |- at_ _ _ ?s => match goal with H : at_ _ _ s |- _ => exact H end end|reflexivity|reflexivity|reflexivity|intros; cbn [app]]).
    eapply bool_stop; [lia|match goal with |- at_ _ _ ?s => match goal with H : at_ _ _ s |- _ => exact H end end|assumption|exact B|reflexivity].
  Qed.

  Lemma bool_false w rest parent s : boundary rest -> at_ w (str "alse" ++ rest) s ->
    wp (consumeBool params parent "f") (fun t s' => (exists m, t = TElem (NPrim m (PBool false))) /\ at_ w rest s') never s.
  Proof.
    intros B H. unfold consumeBool, loop_fuel.
    match goal with |- wp _ ?Q _ _ =>
      change (wp (bool_loop params (S (S (length (inp s)))) parent "f" 1 ["f"%char] ["f"%char]) Q never s) end.
    assert (L : length (inp s) = (4 + length rest)%nat) by (destruct H as (-> & _); apply app_length).
    rewrite L. cbn [Nat.add].
    do 4 (eapply bool_step; [match goal with |- at_ _ _ ?s => match goal with H : at_ _ _ s |- _ => exact H end end|reflexivity|reflexivity|reflexivity|intros; cbn [app]]).
    eapply bool_stop; [lia|match goal with |- at_ _ _ ?s => match goal with H : at_ _ _ s |- _ => exact H end end|assumption|exact B|reflexivity].
  Qed.

  Lemma null_at w rest parent s : at_ w (str "ull" ++ rest) s ->
    wp (consumeNull params parent "n") (fun t s' => (exists m, t = TElem (NPrim m PNull)) /\ at_ w rest s') never s.
  Proof.
    intros H. unfold consumeNull. change 3%nat with (length (str "ull")) at 1. eapply wp_sread; [exact H|discriminate|].
    intros s1 H1 G1. cbv zeta. change (length (str "ull")) with 3%nat. cbn [Nat.sub repeat]. rewrite app_nil_r.
    eapply wp_hputs; [exact H1| |cbn; lia|lia|].
    { intros [I|[I|[I|[I|[]]]]]; discriminate. }
    intros s2 H2 G2. apply wp_bind, wp_is_good. rewrite G2, G1. cbn [negb].
    replace (beqb ("n"%char :: map tolower (str "ull")) (str "null")) with true by reflexivity.
    replace (beqb ("n"%char :: map tolower (str "ull")) ("n"%char :: str "ull")) with true by reflexivity.
    apply wp_bind, wp_ret. replace (beqb ("n"%char :: str "ull") (str "null")) with true by reflexivity. cbn [negb].
    apply wp_bind, wp_ret. apply wp_new_prim_at, H2.
  Qed.
End Lex.

(** What the lexer returns, whatever the history does: shape of elements and
    allocation of identities. *)
From Verif Require Export Proofs.ParserBase.
Open Scope Z_scope.

Definition anyfail (f : fail) : Prop := True.

Lemma wp_sget_id (Q : ascii -> st -> Prop) E s :
  (forall c s', nextid s' = nextid s -> Q c s') -> wp sget Q E s.
Proof.
  intros H. unfold wp, sget. destruct (inp s); [apply H; reflexivity|].
  destruct (good s); apply H; reflexivity.
Qed.
Lemma wp_hput_id c (Q : unit -> st -> Prop) s :
  (forall s', nextid s' = nextid s -> Q tt s') -> wp (hput c) Q anyfail s.
Proof. intros H. unfold wp, hput. destruct (hist_put (his s) c); [apply H; reflexivity|exact I]. Qed.
Lemma wp_hputs_id m n (Q : unit -> st -> Prop) s :
  (forall s', nextid s' = nextid s -> Q tt s') -> wp (hputs m n) Q anyfail s.
Proof. intros H. unfold wp, hputs. destruct (hist_puts (his s) m n); [apply H; reflexivity|exact I]. Qed.
Lemma wp_hpop_id (Q : unit -> st -> Prop) E s :
  (forall s', nextid s' = nextid s -> Q tt s') -> wp hpop Q E s.
Proof. intros H. unfold wp, hpop. apply H. reflexivity. Qed.
Lemma wp_sunget_id c (Q : unit -> st -> Prop) E s :
  (forall s', nextid s' = nextid s -> Q tt s') -> wp (sunget c) Q E s.
Proof. intros H. unfold wp, sunget. destruct (good s); apply H; reflexivity. Qed.
Lemma wp_sread_id n (Q : bytes -> st -> Prop) E s :
  (forall b s', nextid s' = nextid s -> Q b s') -> wp (sread n) Q E s.
Proof. intros H. unfold wp, sread. destruct (good s); apply H; reflexivity. Qed.
Lemma wp_warn_id k (Q : unit -> st -> Prop) E s :
  (forall s', nextid s' = nextid s -> Q tt s') -> wp (warn k) Q E s.
Proof. intros H. unfold wp, warn. apply H. reflexivity. Qed.

Ltac wpi :=
  lazymatch goal with
  | |- wp (bind _ _) _ _ _ => apply wp_bind
  | |- wp (ret _) _ _ _ => apply wp_ret
  | |- wp is_good _ _ _ => apply wp_is_good
  | |- wp sget _ _ _ => apply wp_sget_id; intros
  | |- wp (hput _) _ _ _ => apply wp_hput_id; intros
  | |- wp (hputs _ _) _ _ _ => apply wp_hputs_id; intros
  | |- wp hpop _ _ _ => apply wp_hpop_id; intros
  | |- wp (sunget _) _ _ _ => apply wp_sunget_id; intros
  | |- wp (sread _) _ _ _ => apply wp_sread_id; intros
  | |- wp (warn _) _ _ _ => apply wp_warn_id; intros
  | |- wp fresh _ _ _ => apply wp_fresh
  | |- wp (new_prim _ _) _ _ _ => apply wp_new_prim
  | |- wp (throw _) _ _ _ => exact I
  | |- wp (abortM _) _ _ _ => exact I
  | |- wp (ubM _) _ _ _ => exact I
  | |- wp fuelM _ _ _ => exact I
  | |- wp (let x := _ in _) _ _ _ => cbv zeta
  | |- wp (match ?x with _ => _ end) _ _ _ => destruct x
  end.

Section Shape.
  Variable e : env.
  Variable params : option cfg.

  (** An element returned by the lexer is a fresh primitive. *)
  Definition lex_post (parent : option Z) (s : st) (t : tok) (s' : st) : Prop :=
    match t with
    | TElem n => exists p, n = NPrim (mkMeta (nextid s) parent) p /\ nextid s' = nextid s + 1
    | TTok b => nextid s' = nextid s /\ (length b <= 1)%nat
    end.

  Lemma lex_post_id parent s1 s2 t s' : nextid s1 = nextid s2 -> lex_post parent s1 t s' -> lex_post parent s2 t s'.
  Proof. unfold lex_post. intros ->. auto. Qed.

  Lemma escaped_shape c buf s :
    wp (consumeEscapedChar e params c buf) (fun _ s' => nextid s' = nextid s) anyfail s.
  Proof. unfold consumeEscapedChar. repeat wpi; congruence. Qed.

  Lemma string_shape f : forall parent escaped buf s,
    wp (string_loop e params f parent escaped buf) (lex_post parent s) anyfail s.
  Proof.
    induction f as [|f IH]; intros; [exact I|]. cbn [string_loop].
    assert (K : forall p esc b s', nextid s' = nextid s ->
              wp (string_loop e params f p esc b) (lex_post p s) anyfail s').
    { intros. eapply wp_mono; [apply IH|intros; eapply lex_post_id; eauto|auto]. }
    do 2 wpi. destruct (negb (good s)); [wpi; simpl; auto|].
    repeat lazymatch goal with
    | |- wp (string_loop _ _ _ _ _ _) _ _ _ => apply K; congruence
    | |- wp (consumeEscapedChar _ _ _ _) _ _ _ =>
        eapply wp_mono; [apply escaped_shape|intros; cbv beta in *|auto]
    | _ => wpi
    end; simpl; try (split; [congruence|lia]).
    eexists; split; [f_equal; f_equal; congruence|congruence].
  Qed.

  Lemma deref_shape (Q : bool -> st -> Prop) s : (forall b, Q b s) -> wp (deref_strict params) Q anyfail s.
  Proof. intros H. unfold deref_strict. destruct params; [apply H|exact I]. Qed.

  Lemma bool_shape f : forall parent first rd buf raw s,
    wp (bool_loop params f parent first rd buf raw) (lex_post parent s) anyfail s.
  Proof.
    induction f as [|f IH]; intros; [exact I|]. cbn [bool_loop].
    assert (K : forall p a b c d s', nextid s' = nextid s ->
              wp (bool_loop params f p a b c d) (lex_post p s) anyfail s').
    { intros. eapply wp_mono; [apply IH|intros; eapply lex_post_id; eauto|auto]. }
    do 2 wpi. destruct (negb (good s)); [wpi; simpl; auto|].
    repeat lazymatch goal with
    | |- wp (bool_loop _ _ _ _ _ _ _) _ _ _ => apply K; congruence
    | |- wp (deref_strict _) _ _ _ => apply deref_shape; intros
    | _ => wpi
    end; simpl; try (split; [congruence|lia]);
    eexists; (split; [f_equal; f_equal; congruence|congruence]).
  Qed.

  Lemma number_shape f : forall parent dbl buf s,
    wp (number_loop f parent dbl buf) (lex_post parent s) anyfail s.
  Proof.
    induction f as [|f IH]; intros; [exact I|]. cbn [number_loop].
    assert (K : forall p a b s', nextid s' = nextid s ->
              wp (number_loop f p a b) (lex_post p s) anyfail s').
    { intros. eapply wp_mono; [apply IH|intros; eapply lex_post_id; eauto|auto]. }
    do 2 wpi. destruct (negb (good s)); [wpi; simpl; auto|]. unfold integer_prim.
    repeat lazymatch goal with
    | |- wp (number_loop _ _ _ _) _ _ _ => apply K; congruence
    | _ => wpi
    end; simpl; try (split; [congruence|lia]);
    eexists; (split; [f_equal; f_equal; congruence|congruence]).
  Qed.

  Lemma null_shape parent c s : wp (consumeNull params parent c) (lex_post parent s) anyfail s.
  Proof.
    unfold consumeNull.
    repeat lazymatch goal with
    | |- wp (deref_strict _) _ _ _ => apply deref_shape; intros
    | _ => wpi
    end; simpl; try (split; [congruence|lia]);
    eexists; (split; [f_equal; f_equal; congruence|congruence]).
  Qed.

  Lemma token_shape f : forall parent s, wp (token_loop e params f parent) (lex_post parent s) anyfail s.
  Proof.
    induction f as [|f IH]; intros; [exact I|]. cbn [token_loop].
    do 2 wpi. destruct (negb (good s)); [wpi; simpl; auto|].
    repeat lazymatch goal with
    | |- wp (token_loop _ _ _ _) _ _ _ => eapply wp_mono; [apply IH|intros; eapply lex_post_id; [|eassumption]; congruence|auto]
    | |- wp (consumeString _ _ _) _ _ _ => eapply wp_mono; [apply string_shape|intros; eapply lex_post_id; [|eassumption]; congruence|auto]
    | |- wp (consumeBool _ _ _) _ _ _ => eapply wp_mono; [apply bool_shape|intros; eapply lex_post_id; [|eassumption]; congruence|auto]
    | |- wp (consumeNumber _ _) _ _ _ => eapply wp_mono; [apply number_shape|intros; eapply lex_post_id; [|eassumption]; congruence|auto]
    | |- wp (consumeNull _ _ _) _ _ _ => eapply wp_mono; [apply null_shape|intros; eapply lex_post_id; [|eassumption]; congruence|auto]
    | _ => wpi
    end; simpl; try (split; [congruence|lia]).
  Qed.

  Lemma consumeToken_shape parent s : wp (consumeToken e params parent) (lex_post parent s) anyfail s.
  Proof. apply token_shape. Qed.
End Shape.

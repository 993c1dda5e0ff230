(** Strict mode against -W: C07, C08. *)
From Verif Require Export Proofs.ParserFuel.
Open Scope Z_scope.

(** [ms] run in strict mode against [ml] run with -W, from the same state. *)
Record ssim_at {A} (s : st) (rs rl : res (A * st)) : Prop := {
  ss_ok : forall a s', rs = Ok (a, s') -> rl = Ok (a, s') /\ warns s' = warns s;
  sl_ok : forall a s', rl = Ok (a, s') -> exists w, warns s' = warns s ++ w /\ (w = [] -> rs = Ok (a, s'));
  ss_throw : forall x, rs = Throw x -> rl = Throw x \/
       forall a s', rl = Ok (a, s') -> exists w, warns s' = warns s ++ x :: w;
  ss_abort : forall x, rs = Abort x -> rl = Abort x;
  ss_ub : forall x, rs = UB x -> rl = UB x;
  ss_fuel : rs = OutOfFuel -> rl = OutOfFuel
}.
Definition ssim {A} (ms ml : M A) : Prop := forall s, ssim_at s (ms s) (ml s).

Lemma ssim_bind {A B} (ms ml : M A) (ks kl : A -> M B) :
  ssim ms ml -> (forall a, ssim (ks a) (kl a)) -> ssim (bind ms ks) (bind ml kl).
Proof.
  intros H K s. destruct (H s) as [H1 H2 H3 H4 H5 H6]. unfold bind.
  destruct (ms s) as [[a s1]|x|x|x|] eqn:ES.
  - destruct (H1 a s1 eq_refl) as [EL W]. rewrite EL.
    destruct (K a s1) as [K1 K2 K3 K4 K5 K6]. split; auto.
    + intros b s' E. destruct (K1 b s' E). split; congruence.
    + intros b s' E. destruct (K2 b s' E) as (w & E1 & E2). exists w. split; [congruence|auto].
    + intros x E. destruct (K3 x E) as [Q|Q]; [auto|right]. intros b s' E'. destruct (Q b s' E') as (w & Q').
      exists w. congruence.
  - assert (WW : forall b s', match ml s with Ok (a, s'') => kl a s'' | Throw e => Throw e | Abort a => Abort a
                             | UB u => UB u | OutOfFuel => OutOfFuel end = Ok (b, s') ->
                exists w, warns s' = warns s ++ x :: w).
    { destruct (H3 x eq_refl) as [Q|Q]; [rewrite Q; discriminate|].
      destruct (ml s) as [[a s1]| | | |]; try discriminate.
      intros b s' E. destruct (Q a s1 eq_refl) as (w & W). destruct (K a s1) as [_ K2 _ _ _ _].
      destruct (K2 b s' E) as (w' & W' & _). exists (w ++ w'). rewrite W', W, <- app_assoc. reflexivity. }
    split; try discriminate.
    + intros b s' E. destruct (WW b s' E) as (w & W). exists (x :: w). split; [exact W|discriminate].
    + intros y [= <-]. destruct (H3 x eq_refl) as [Q|Q]; [rewrite Q; auto|right; exact WW].
  - rewrite (H4 x eq_refl). split; try discriminate; auto.
  - rewrite (H5 x eq_refl). split; try discriminate; auto.
  - rewrite (H6 eq_refl). split; try discriminate; auto.
Qed.

Definition quiet {A} (m : M A) : Prop := forall s a s', m s = Ok (a, s') -> warns s' = warns s.

Lemma ssim_same {A} (m : M A) : quiet m -> ssim m m.
Proof.
  intros Q s. split; auto.
  - intros a s' E. split; [exact E|eauto].
  - intros a s' E. exists []. rewrite app_nil_r. eauto.
Qed.

Lemma ssim_throw {A} k (m : M A) : (forall s a s', m s = Ok (a, s') -> exists w, warns s' = warns s ++ mkExn k (his s) (tell s) :: w) ->
  ssim (throw k) m.
Proof.
  intros H s. unfold throw. split; try discriminate.
  - intros a s' E. destruct (H s a s' E) as (w & W). eexists. split; [exact W|discriminate].
  - intros x [= <-]. right. apply H.
Qed.

Lemma quiet_ret {A} (a : A) : quiet (ret a).
Proof. intros s b s' [= <- <-]. reflexivity. Qed.
Lemma quiet_throw {A} k : quiet (@throw A k).
Proof. intros s b s'. discriminate. Qed.
Lemma quiet_bind {A B} (m : M A) (k : A -> M B) : quiet m -> (forall a, quiet (k a)) -> quiet (bind m k).
Proof.
  intros H K s b s'. unfold bind. destruct (m s) as [[a s1]| | | |] eqn:E; try discriminate.
  intros E'. rewrite (K a s1 b s' E'). eapply H; eauto.
Qed.
Lemma quiet_is_good : quiet is_good.
Proof. intros s b s' [= <- <-]. reflexivity. Qed.
Lemma quiet_sget : quiet sget.
Proof. intros s b s'. unfold sget. destruct (inp s), (good s); intros [= <- <-]; reflexivity. Qed.
Lemma quiet_sunget c : quiet (sunget c).
Proof. intros s b s'. unfold sunget. destruct (good s); intros [= <- <-]; reflexivity. Qed.
Lemma quiet_sread n : quiet (sread n).
Proof. intros s b s'. unfold sread. destruct (good s); intros [= <- <-]; reflexivity. Qed.
Lemma quiet_hput c : quiet (hput c).
Proof. intros s b s'. unfold hput. destruct (hist_put (his s) c); intros [=]; subst; reflexivity. Qed.
Lemma quiet_hputs c n : quiet (hputs c n).
Proof. intros s b s'. unfold hputs. destruct (hist_puts (his s) c n); intros [=]; subst; reflexivity. Qed.
Lemma quiet_hpop : quiet hpop.
Proof. intros s b s' [= <- <-]. reflexivity. Qed.
Lemma quiet_fresh : quiet fresh.
Proof. intros s b s' [= <- <-]. reflexivity. Qed.
Lemma quiet_abortM {A} a : quiet (@abortM A a).
Proof. discriminate. Qed.
Lemma quiet_ubM {A} a : quiet (@ubM A a).
Proof. discriminate. Qed.
Lemma quiet_fuelM {A} : quiet (@fuelM A).
Proof. discriminate. Qed.
Lemma quiet_new_prim p x : quiet (new_prim p x).
Proof. intros s b s' [= <- <-]. reflexivity. Qed.
Create HintDb quiet.
#[export] Hint Resolve quiet_ret quiet_throw quiet_is_good quiet_sget quiet_sunget quiet_sread quiet_hput
  quiet_hputs quiet_hpop quiet_fresh quiet_abortM quiet_ubM quiet_fuelM quiet_new_prim : quiet.

Ltac sst :=
  lazymatch goal with
  | |- ssim (bind _ _) (bind _ _) => apply ssim_bind; [|intros]
  | |- ssim (match ?x with _ => _ end) (match ?x with _ => _ end) => let E := fresh "E" in destruct x eqn:E
  | |- ssim (let _ := _ in _) _ => cbv zeta
  | |- ssim ?m ?m => apply ssim_same; auto with quiet
  end.

Section Strict.
  Variable e : env.
  Variable au so : bool.
  Notation PS := (Some (mkCfg true au so)).
  Notation PL := (Some (mkCfg false au so)).

  Lemma deref_sim : ssim (deref_strict PS) (deref_strict PS).
  Proof. apply ssim_same. unfold deref_strict. auto with quiet. Qed.

  Lemma escaped_sim c buf : ssim (consumeEscapedChar e PS c buf) (consumeEscapedChar e PL c buf).
  Proof.
    unfold consumeEscapedChar. cbn [ignoreUnicode strict]. repeat sst.
    apply ssim_throw. intros s a s' [= <- <-]. exists []. reflexivity.
  Qed.

  Lemma string_sim f : forall parent esc buf,
    ssim (string_loop e PS f parent esc buf) (string_loop e PL f parent esc buf).
  Proof.
    induction f as [|f IH]; intros; cbn [string_loop]; [sst|].
    repeat lazymatch goal with
    | |- ssim (string_loop _ _ _ _ _ _) _ => apply IH
    | |- ssim (consumeEscapedChar _ _ _ _) _ => apply escaped_sim
    | _ => sst
    end.
  Qed.

  Lemma ssim_bind_ret {A B} (a b : A) (k1 k2 : A -> M B) :
    ssim (k1 a) (k2 b) -> ssim (bind (ret a) k1) (bind (ret b) k2).
  Proof. intros H s. apply (H s). Qed.

  (** The -W continuation [k] emits the warning first. *)
  Lemma ssim_warn {A} x (k : M A) : ssim k k -> ssim (throw x) (warn x ;;; k).
  Proof.
    intros K. apply ssim_throw. intros s a s' E. unfold bind, warn in E.
    destruct (K (mkSt (inp s) (good s) (his s) (warns s ++ [mkExn x (his s) (tell s)]) (nextid s))) as [_ K2 _ _ _ _].
    destruct (K2 a s' E) as (w & W & _). exists w. rewrite W. cbn [warns]. rewrite <- app_assoc. reflexivity.
  Qed.

  Lemma bool_sim f : forall parent first rd buf raw,
    ssim (bool_loop PS f parent first rd buf raw) (bool_loop PL f parent first rd buf raw).
  Proof.
    induction f as [|f IH]; intros; cbn [bool_loop]; [sst|].
    repeat lazymatch goal with
    | |- ssim (bool_loop _ _ _ _ _ _ _) _ => apply IH
    | |- ssim (bind (if negb (beqb ?b ?r) then _ else _) _) _ => fail
    | _ => sst
    end.
    all: destruct (beqb buf raw); cbn [negb deref_strict strict];
      apply ssim_bind_ret; cbv iota beta.
    - repeat lazymatch goal with
      | |- ssim (bool_loop _ _ _ _ _ _ _) _ => apply IH
      | _ => sst
      end.
    - destruct (beqb buf (str "true") || beqb buf (str "false")) eqn:EB.
      + apply ssim_warn. repeat sst.
      + exfalso. destruct (beqb buf (str "true")), (beqb buf (str "false")); discriminate.
  Qed.

  Lemma number_quiet f : forall parent dbl buf, quiet (number_loop f parent dbl buf).
  Proof.
    induction f as [|f IH]; intros; cbn [number_loop]; auto with quiet.
    unfold integer_prim.
    repeat first [ apply quiet_bind; [|intros] | apply IH | solve [auto with quiet]
                 | lazymatch goal with |- quiet (match ?x with _ => _ end) => destruct x end ].
  Qed.

  Lemma null_sim parent c : ssim (consumeNull PS parent c) (consumeNull PL parent c).
  Proof.
    unfold consumeNull. sst; [sst|]. cbv zeta. sst; [sst|]. sst; [sst|].
    match goal with |- ssim (if negb ?g then _ else _) _ => destruct (negb g); [sst|] end.
    set (buf := c :: a ++ repeat NUL (3 - length a)).
    set (low := "n"%char :: map tolower (a ++ repeat NUL (3 - length a))).
    destruct (beqb low (str "null")) eqn:E1; [|sst].
    destruct (beqb low buf) eqn:E2.
    - apply ssim_bind_ret. cbv iota beta. apply beqb_eq in E1, E2. rewrite <- E2, E1, beqb_refl. cbn [negb].
      repeat sst.
    - cbn [deref_strict strict].
      assert (X : forall k1 k2 : bool -> M tok, ssim (k1 false) (k2 true) ->
         ssim (bind (x <- ret true ;; ret (negb x)) k1) (bind (x <- ret false ;; ret (negb x)) k2)).
      { intros k1 k2 H s. apply (H s). }
      apply X. cbv iota beta.
      assert (E3 : beqb buf (str "null") = false).
      { apply beqb_neq in E2. apply beqb_neq. apply beqb_eq in E1. congruence. }
      rewrite E3. cbn [negb]. apply ssim_warn. repeat sst.
  Qed.

  Lemma token_sim f : forall parent, ssim (token_loop e PS f parent) (token_loop e PL f parent).
  Proof.
    induction f as [|f IH]; intros; cbn [token_loop]; [sst|].
    repeat lazymatch goal with
    | |- ssim (token_loop _ _ _ _) _ => apply IH
    | |- ssim (consumeString _ _ _) _ => intros s; apply string_sim
    | |- ssim (consumeBool _ _ _) _ => intros s; apply bool_sim
    | |- ssim (consumeNull _ _ _) _ => apply null_sim
    | |- ssim (consumeNumber _ _) _ => apply ssim_same; intros s; apply number_quiet
    | _ => sst
    end.
  Qed.

  Lemma consumeToken_sim parent : ssim (consumeToken e PS parent) (consumeToken e PL parent).
  Proof. intros s. apply token_sim. Qed.

  Lemma open_object_sim parent result key :
    ssim (open_object PS parent result key) (open_object PL parent result key).
  Proof.
    unfold open_object. destruct result as [[m l]|]; [|repeat sst].
    destruct (obj_contains entry_key key l); [|sst]. cbn [strict_keys strict].
    apply ssim_warn. sst.
  Qed.

  Lemma readArray_with_sim l1 l2 parent : (forall t, ssim (l1 parent t) (l2 parent t)) ->
    ssim (readArray_with e PS l1 parent) (readArray_with e PL l2 parent).
  Proof.
    intros H. unfold readArray_with. sst; [apply consumeToken_sim|]. destruct a as [n|b]; [apply H|].
    destruct (beqb b (str "]")); [repeat sst|apply H].
  Qed.

  Lemma readNext_with_sim o1 o2 a1 a2 parent : ssim (o1 parent) (o2 parent) -> ssim (a1 parent) (a2 parent) ->
    ssim (readNext_with e PS o1 a1 parent) (readNext_with e PL o2 a2 parent).
  Proof.
    intros HO HA. unfold readNext_with. sst; [apply consumeToken_sim|]. destruct a as [n|b]; [sst|].
    destruct (beqb b (str "{")); [sst; [exact HO|sst]|].
    destruct (beqb b (str "[")); [sst; [exact HA|sst]|sst].
  Qed.

  Lemma loops_sim f :
    (forall parent result, ssim (object_loop e PS f parent result) (object_loop e PL f parent result)) /\
    (forall parent result t, ssim (array_loop e PS f parent result t) (array_loop e PL f parent result t)).
  Proof.
    induction f as [|f [IHO IHA]]; [split; intros; cbn [object_loop array_loop]; sst|]. split.
    - intros parent result. cbn [object_loop]. sst; [apply consumeToken_sim|].
      destruct a as [n|b].
      + destruct n as [m [key| | | | |]|m l|m l]; try (lazymatch goal with |- ssim (throw _) _ => apply ssim_same; auto with quiet end).
        sst; [apply consumeToken_sim|].
        match goal with |- ssim (if ?x then _ else _) _ => destruct x; [|sst] end.
        sst; [apply open_object_sim|]. sst.
        * apply readNext_with_sim; [apply IHO|]. apply readArray_with_sim. intros. apply IHA.
        * match goal with |- ssim (match ?x with _ => _ end) _ => destruct x as [v|]; [|sst] end.
          sst; [sst|]. cbv zeta. change (sorts PS) with so. change (sorts PL) with so.
          sst; [apply consumeToken_sim|].
          match goal with |- ssim (match ?x with _ => _ end) _ => destruct x as [n'|b]; [sst|] end.
          destruct (beqb b (str "}")); [sst|]. apply IHO.
      + sst; repeat sst.
    - intros parent result t. cbn [array_loop]. sst.
      + destruct t as [n|b]; [sst|].
        destruct (beqb b (str "[")); [apply readArray_with_sim; intros; apply IHA|].
        destruct (beqb b (str "{")); [apply IHO|sst].
      + sst; [repeat sst|]. cbv zeta. sst; [apply consumeToken_sim|].
        match goal with |- ssim (match ?x with _ => _ end) _ => destruct x as [n'|b]; [sst|] end.
        destruct (beqb b (str "]")); [sst|]. destruct (negb (beqb b (str ","))); [sst|].
        sst; [apply consumeToken_sim|]. apply IHA.
  Qed.

  Lemma read_doc_sim input : ssim_at (init_st input) (read_doc e PS input) (read_doc e PL input).
  Proof.
    destruct (loops_sim (S (S (length input)))) as [HO HA].
    unfold read_doc, readNext. apply readNext_with_sim; [apply HO|]. apply readArray_with_sim. intros. apply HA.
  Qed.
End Strict.

(** --ascii: C10. *)
From Verif Require Export Proofs.ParserFuel.
Open Scope Z_scope.

(** The text has no backslash followed by 'u'. *)
Definition no_u (l : bytes) : Prop := forall a b, l <> a ++ BSLASH :: "u"%char :: b.

Definition aok (s : st) : Prop := ready s /\ no_u (inp s).

Lemma no_u_tail c t : no_u (c :: t) -> no_u t.
Proof. intros H a b E. apply (H (c :: a) b). rewrite E. reflexivity. Qed.
Lemma no_u_app x y : no_u (x ++ y) -> no_u y.
Proof. intros H a b E. apply (H (x ++ a) b). rewrite E, <- app_assoc. reflexivity. Qed.

Lemma aok_reach s s' : aok s -> reach s s' -> aok s'.
Proof.
  intros [R N] Q. split; [eapply reach_ready; eauto|]. destruct Q as (c & E & _). rewrite E in N.
  eapply no_u_app; eauto.
Qed.

Definition asim {A} (m1 m2 : M A) : Prop := forall s, aok s ->
  m1 s = m2 s /\ forall a s', m2 s = Ok (a, s') -> aok s'.

Lemma asim_bind {A B} (m1 m2 : M A) (k1 k2 : A -> M B) :
  asim m1 m2 -> (forall a, asim (k1 a) (k2 a)) -> asim (bind m1 k1) (bind m2 k2).
Proof.
  intros H K s O. destruct (H s O) as [E P]. unfold bind. rewrite E.
  destruct (m2 s) as [[a s1]| | | |]; try (split; [reflexivity|discriminate]).
  apply (K a s1). eapply P. reflexivity.
Qed.

Lemma asim_same {A} (m : M A) : (forall s a s', m s = Ok (a, s') -> inp s' = inp s /\ good s' = good s /\ his s' = his s) -> asim m m.
Proof.
  intros H s O. split; [reflexivity|]. intros a s' E. destruct (H _ _ _ E) as (E1 & E2 & E3).
  destruct O as [O N]. split; [eapply ready_same_inp; eauto|rewrite E1; exact N].
Qed.
Lemma asim_ret {A} (a : A) : asim (ret a) (ret a).
Proof. apply asim_same. intros s b s' [= <- <-]. auto. Qed.
Lemma asim_throw {A} k : asim (@throw A k) (throw k).
Proof. apply asim_same. discriminate. Qed.
Lemma asim_ub {A} k : asim (@ubM A k) (ubM k).
Proof. apply asim_same. discriminate. Qed.
Lemma asim_fuel {A} : asim (@fuelM A) fuelM.
Proof. apply asim_same. discriminate. Qed.
Lemma asim_fresh : asim fresh fresh.
Proof. apply asim_same. intros s b s' [= <- <-]. auto. Qed.
Lemma asim_warn k : asim (warn k) (warn k).
Proof. apply asim_same. intros s b s' [= <- <-]. auto. Qed.
Create HintDb asim.
#[export] Hint Resolve asim_ret asim_throw asim_ub asim_fuel asim_fresh asim_warn : asim.

Lemma is_good_bind {A} (k : bool -> M A) s : (g <- is_good ;; k g) s = k (good s) s.
Proof. reflexivity. Qed.
Lemma bind_congr {A B} (m1 m2 : M A) (k1 k2 : A -> M B) s :
  m1 s = m2 s -> (forall a s', m2 s = Ok (a, s') -> k1 a s' = k2 a s') -> bind m1 k1 s = bind m2 k2 s.
Proof. intros E K. unfold bind. rewrite E. destruct (m2 s) as [[a s']| | | |]; auto. Qed.

Lemma getput_eq {A} (k1 k2 : ascii -> M A) s :
  (forall c t h, inp s = c :: t -> hist_ok h ->
     k1 c (mkSt t true h (warns s) (nextid s)) = k2 c (mkSt t true h (warns s) (nextid s))) ->
  (forall h, inp s = [] -> hist_ok h ->
     k1 EOFCHAR (mkSt [] false h (warns s) (nextid s)) = k2 EOFCHAR (mkSt [] false h (warns s) (nextid s))) ->
  good s = true -> hist_ok (his s) ->
  (c <- sget ;; hput c ;;; k1 c) s = (c <- sget ;; hput c ;;; k2 c) s.
Proof.
  intros H1 H2 G H. unfold bind, sget, hput. rewrite G.
  destruct (inp s) as [|c t] eqn:EI; cbn [his inp good warns nextid].
  - destruct (hist_put_ok (his s) EOFCHAR H) as (h' & E' & O). rewrite E'. apply H2; auto.
  - destruct (hist_put_ok (his s) c H) as (h' & E' & O). rewrite E'. eapply H1; eauto.
Qed.

Section Ascii.
  Variable e : env.
  Variable st_ so : bool.
  Notation PA := (Some (mkCfg st_ true so)).
  Notation PN := (Some (mkCfg st_ false so)).

  Lemma escaped_other p c buf : c <> "u"%char -> forall s,
    consumeEscapedChar e (Some (mkCfg st_ p so)) c buf s =
    (if Ascii.eqb c BSLASH || Ascii.eqb c DQUOTE || Ascii.eqb c "/" then ret (Some (buf ++ [c]))
     else if Ascii.eqb c "b" || Ascii.eqb c "f" || Ascii.eqb c "r" || Ascii.eqb c "n" || Ascii.eqb c "t"
     then ret (Some (buf ++ [BSLASH; c]))
     else if st_ then throw (Escaped c) else warn (Escaped c) ;;; ret (Some (buf ++ [BSLASH; c]))) s.
  Proof.
    intros N s. unfold consumeEscapedChar. cbn [strict].
    destruct (Ascii.eqb c "u") eqn:E; [apply Ascii.eqb_eq in E; contradiction|]. reflexivity.
  Qed.

  Lemma string_asim f : forall parent esc buf s, aok s ->
    (esc = true -> forall t, inp s <> "u"%char :: t) ->
    string_loop e PA f parent esc buf s = string_loop e PN f parent esc buf s.
  Proof.
    induction f as [|f IH]; intros parent esc buf s O N; cbn [string_loop]; [reflexivity|].
    rewrite !is_good_bind. destruct (good s) eqn:G; cbn [negb]; [|reflexivity].
    destruct O as [R U]. apply getput_eq; [| |exact G|apply R].
    - intros c t h EI EH. rewrite EI in U.
      assert (OK : forall w n, aok (mkSt t true h w n)).
      { intros. split; [split; [exact EH|left; reflexivity]|]. cbn. eapply no_u_tail; eauto. }
      destruct esc; cbn [negb].
      + assert (NC : c <> "u"%char) by (intros ->; eapply N; eauto).
        apply bind_congr; [rewrite !escaped_other by exact NC; reflexivity|].
        intros a s'. rewrite escaped_other by exact NC. intros Es.
        assert (O' : aok s').
        { repeat match type of Es with (if ?b then _ else _) _ = _ => destruct b end;
            try discriminate; injection Es as _ <-; apply OK. }
        destruct a as [buf'|]; [apply IH; [exact O'|discriminate]|reflexivity].
      + destruct (Ascii.eqb c DQUOTE); [reflexivity|].
        destruct (Ascii.eqb c BSLASH) eqn:EB; (apply IH; [apply OK|]); [|discriminate].
        intros _ t' Et. cbn in Et. subst t. apply Ascii.eqb_eq in EB. subst c. apply (U [] t'). reflexivity.
    - intros h EI EH.
      assert (OK : forall w n, aok (mkSt [] false h w n)).
      { intros. split; [split; [exact EH|right; reflexivity]|]. intros a b Q. cbn in Q. destruct a; discriminate. }
      destruct esc; cbn [negb].
      + apply bind_congr; [rewrite !escaped_other by discriminate; reflexivity|].
        intros a s'. rewrite escaped_other by discriminate. intros Es.
        assert (O' : aok s').
        { repeat match type of Es with (if ?b then _ else _) _ = _ => destruct b end;
            try discriminate; injection Es as _ <-; apply OK. }
        destruct a as [buf'|]; [apply IH; [exact O'|discriminate]|reflexivity].
      + destruct (Ascii.eqb EOFCHAR DQUOTE); [reflexivity|].
        destruct (Ascii.eqb EOFCHAR BSLASH); (apply IH; [apply OK|]); discriminate.
  Qed.

  Lemma bool_eq parent c : consumeBool PA parent c = consumeBool PN parent c.
  Proof. reflexivity. Qed.
  Lemma null_eq parent c : consumeNull PA parent c = consumeNull PN parent c.
  Proof. reflexivity. Qed.

  Lemma token_asim f : forall parent s, aok s -> token_loop e PA f parent s = token_loop e PN f parent s.
  Proof.
    induction f as [|f IH]; intros parent s O; cbn [token_loop]; [reflexivity|].
    rewrite !is_good_bind. destruct (good s) eqn:G; cbn [negb]; [|reflexivity].
    destruct O as [R U]. apply getput_eq; [| |exact G|apply R].
    - intros c t h EI EH. rewrite EI in U.
      assert (OK : forall w n, aok (mkSt t true h w n)).
      { intros. split; [split; [exact EH|left; reflexivity]|]. cbn. eapply no_u_tail; eauto. }
      destruct (Ascii.eqb c DQUOTE); [apply string_asim; [apply OK|discriminate]|].
      destruct (existsb _ _); [reflexivity|]. destruct (_ || _); [reflexivity|].
      destruct (_ || _ || _); [reflexivity|]. destruct (is_token c); [reflexivity|].
      destruct (negb (ignoreChar c)); [reflexivity|]. apply IH, OK.
    - intros h EI EH.
      assert (OK : forall w n, aok (mkSt [] false h w n)).
      { intros. split; [split; [exact EH|right; reflexivity]|]. intros a b Q. cbn in Q. destruct a; discriminate. }
      destruct (Ascii.eqb EOFCHAR DQUOTE); [apply string_asim; [apply OK|discriminate]|].
      apply IH, OK.
  Qed.

  Lemma consumeToken_asim parent : asim (consumeToken e PA parent) (consumeToken e PN parent).
  Proof.
    intros s O. split; [apply token_asim, O|]. intros a s' E.
    pose proof (consumeToken_reach e PN parent s (proj1 O)) as W. unfold wp in W. rewrite E in W.
    apply tok_reach_reach in W. eapply aok_reach; eauto.
  Qed.

  Lemma open_object_asim parent result key :
    asim (open_object PA parent result key) (open_object PN parent result key).
  Proof.
    unfold open_object. destruct result as [[m l]|].
    - destruct (obj_contains entry_key key l); [|auto with asim].
      change (strict_keys PA) with (strict_keys PN). destruct (strict_keys PN); [auto with asim|].
      apply asim_bind; intros; auto with asim.
    - apply asim_bind; intros; auto with asim.
  Qed.

  Lemma readArray_with_asim l1 l2 parent : (forall t, asim (l1 parent t) (l2 parent t)) ->
    asim (readArray_with e PA l1 parent) (readArray_with e PN l2 parent).
  Proof.
    intros H. unfold readArray_with. apply asim_bind; [apply consumeToken_asim|]. intros [n|b]; [apply H|].
    destruct (beqb b (str "]")); [apply asim_bind; intros; auto with asim|apply H].
  Qed.

  Lemma readNext_with_asim o1 o2 a1 a2 parent : asim (o1 parent) (o2 parent) -> asim (a1 parent) (a2 parent) ->
    asim (readNext_with e PA o1 a1 parent) (readNext_with e PN o2 a2 parent).
  Proof.
    intros HO HA. unfold readNext_with. apply asim_bind; [apply consumeToken_asim|]. intros [n|b]; [auto with asim|].
    destruct (beqb b (str "{")); [apply asim_bind; [exact HO|intros; auto with asim]|].
    destruct (beqb b (str "[")); [apply asim_bind; [exact HA|intros; auto with asim]|auto with asim].
  Qed.

  Lemma loops_asim f :
    (forall parent result, asim (object_loop e PA f parent result) (object_loop e PN f parent result)) /\
    (forall parent result t, asim (array_loop e PA f parent result t) (array_loop e PN f parent result t)).
  Proof.
    induction f as [|f [IHO IHA]]; [split; intros; cbn [object_loop array_loop]; auto with asim|]. split.
    - intros parent result. cbn [object_loop]. apply asim_bind; [apply consumeToken_asim|].
      intros [n|b].
      + destruct n as [m [key| | | | |]|m l|m l]; try apply asim_throw.
        apply asim_bind; [apply consumeToken_asim|]. intros t2.
        destruct (match t2 with TTok b => beqb b (str ":") | TElem _ => false end); [|apply asim_throw].
        apply asim_bind; [apply open_object_asim|]. intros r. apply asim_bind.
        * apply readNext_with_asim; [apply IHO|]. apply readArray_with_asim. intros. apply IHA.
        * intros [v|]; [|apply asim_ub]. apply asim_bind; [apply asim_fresh|]. intros i. cbv zeta.
          change (sorts PA) with so. change (sorts PN) with so.
          apply asim_bind; [apply consumeToken_asim|]. intros [n|b]; [apply asim_ret|].
          destruct (beqb b (str "}")); [apply asim_ret|]. apply IHO.
      + destruct (_ && _); [|apply asim_throw]. apply asim_bind; intros; auto with asim.
    - intros parent result t. cbn [array_loop]. apply asim_bind.
      + destruct t as [n|b]; [apply asim_ret|].
        destruct (beqb b (str "[")); [apply readArray_with_asim; intros; apply IHA|].
        destruct (beqb b (str "{")); [apply IHO|apply asim_throw].
      + intros n. apply asim_bind.
        { destruct result; [apply asim_ret|]. apply asim_bind; intros; auto with asim. }
        intros r. cbv zeta. apply asim_bind; [apply consumeToken_asim|].
        intros [n'|b]; [apply asim_throw|].
        destruct (beqb b (str "]")); [apply asim_ret|]. destruct (negb (beqb b (str ","))); [apply asim_throw|].
        apply asim_bind; [apply consumeToken_asim|]. intros t3. apply IHA.
  Qed.

  Lemma read_ascii_same input : no_u input -> read_doc e PA input = read_doc e PN input.
  Proof.
    intros N. destruct (loops_asim (S (S (length input)))) as [HO HA].
    unfold read_doc, readNext.
    apply (readNext_with_asim (readObject e PA (S (S (length input)))) (readObject e PN (S (S (length input))))
             (readArray e PA (S (S (length input)))) (readArray e PN (S (S (length input)))) None).
    - apply HO.
    - apply readArray_with_asim. intros. apply HA.
    - split; [apply init_ready|exact N].
  Qed.
End Ascii.

(** * No unicode failure with --ascii *)
Definition nohex (f : fail) : Prop :=
  match f with
  | FThrow x => match ekind_of x with HexValue _ => False | _ => True end
  | FAbort StdRangeError => False
  | _ => True
  end.

Section NoHex.
  Variable e : env.
  Variable st_ so : bool.
  Notation PA := (Some (mkCfg st_ true so)).

  Definition nh {A} (m : M A) : Prop := forall s, wp m (fun _ _ => True) nohex s.

  Lemma nh_bind {A B} (m : M A) (k : A -> M B) : nh m -> (forall a, nh (k a)) -> nh (bind m k).
  Proof. intros H K s. apply wp_bind. eapply wp_mono; [apply H| |auto]. intros a s' _. apply K. Qed.
  Lemma nh_prim {A} (m : M A) : (forall s, wp m (fun _ _ => True) nohex s) -> nh m.
  Proof. auto. Qed.
  Lemma nh_sget : nh sget.
  Proof. intros s. unfold wp, sget. destruct (inp s), (good s); exact I. Qed.
  Lemma nh_hput c : nh (hput c).
  Proof. intros s. unfold wp, hput. destruct (hist_put _ _); exact I. Qed.
  Lemma nh_hputs c n : nh (hputs c n).
  Proof. intros s. unfold wp, hputs. destruct (hist_puts _ _ _); exact I. Qed.
  Lemma nh_sunget c : nh (sunget c).
  Proof. intros s. unfold wp, sunget. destruct (good s); exact I. Qed.
  Lemma nh_sread c : nh (sread c).
  Proof. intros s. unfold wp, sread. destruct (good s); exact I. Qed.

  Ltac nht :=
    lazymatch goal with
    | |- nh (bind _ _) => apply nh_bind; [|intros]
    | |- nh (match ?x with _ => _ end) => destruct x
    | |- nh sget => apply nh_sget
    | |- nh (hput _) => apply nh_hput
    | |- nh (hputs _ _) => apply nh_hputs
    | |- nh (sunget _) => apply nh_sunget
    | |- nh (sread _) => apply nh_sread
    | |- nh (let x := _ in _) => cbv zeta
    | |- nh _ => intros ?; exact I
    end.

  Lemma string_nh f : forall parent esc buf, nh (string_loop e PA f parent esc buf).
  Proof.
    induction f as [|f IH]; intros; cbn [string_loop]; [nht|]. unfold consumeEscapedChar. cbn [ignoreUnicode].
    repeat lazymatch goal with |- nh (string_loop _ _ _ _ _ _) => apply IH | _ => nht end.
  Qed.
  Lemma bool_nh f : forall parent a b c d, nh (bool_loop PA f parent a b c d).
  Proof.
    induction f as [|f IH]; intros; cbn [bool_loop]; [nht|].
    repeat lazymatch goal with |- nh (bool_loop _ _ _ _ _ _ _) => apply IH | _ => nht end.
  Qed.
  Lemma number_nh f : forall parent a b, nh (number_loop f parent a b).
  Proof.
    induction f as [|f IH]; intros; cbn [number_loop]; [nht|]. unfold integer_prim.
    repeat lazymatch goal with |- nh (number_loop _ _ _ _) => apply IH | _ => nht end.
  Qed.
  Lemma null_nh parent c : nh (consumeNull PA parent c).
  Proof. unfold consumeNull. repeat nht. Qed.
  Lemma token_nh f : forall parent, nh (token_loop e PA f parent).
  Proof.
    induction f as [|f IH]; intros; cbn [token_loop]; [nht|].
    repeat lazymatch goal with
    | |- nh (token_loop _ _ _ _) => apply IH
    | |- nh (consumeString _ _ _) => intros s; apply string_nh
    | |- nh (consumeBool _ _ _) => intros s; apply bool_nh
    | |- nh (consumeNumber _ _) => intros s; apply number_nh
    | |- nh (consumeNull _ _ _) => apply null_nh
    | _ => nht end.
  Qed.
  Lemma consumeToken_nh parent : nh (consumeToken e PA parent).
  Proof. intros s. apply token_nh. Qed.
  Lemma open_object_nh parent result key : nh (open_object PA parent result key).
  Proof. unfold open_object. repeat nht. Qed.
  Lemma readArray_with_nh l parent : (forall t, nh (l parent t)) -> nh (readArray_with e PA l parent).
  Proof.
    intros H. unfold readArray_with. nht; [apply consumeToken_nh|].
    repeat first [apply H | nht].
  Qed.
  Lemma readNext_with_nh o a parent : nh (o parent) -> nh (a parent) -> nh (readNext_with e PA o a parent).
  Proof.
    intros HO HA. unfold readNext_with. nht; [apply consumeToken_nh|].
    repeat first [apply HO | apply HA | nht].
  Qed.
  Lemma loops_nh f :
    (forall parent result, nh (object_loop e PA f parent result)) /\
    (forall parent result t, nh (array_loop e PA f parent result t)).
  Proof.
    induction f as [|f [IHO IHA]]; [split; intros; cbn [object_loop array_loop]; nht|].
    split; intros; [cbn [object_loop]|cbn [array_loop]];
    repeat lazymatch goal with
    | |- nh (open_object _ _ _ _) => apply open_object_nh
    | |- nh (readArray_with _ _ _ _) => apply readArray_with_nh; intros
    | |- nh (readNext_with _ _ _ _ _) => apply readNext_with_nh
    | |- nh (consumeToken _ _ _) => apply consumeToken_nh
    | |- nh (object_loop _ _ _ _ _) => apply IHO
    | |- nh (array_loop _ _ _ _ _ _) => apply IHA
    | _ => first [nht | apply IHO | apply IHA] end.
  Qed.
  Lemma readNext_nh f parent : nh (readNext e PA f parent).
  Proof.
    destruct (loops_nh f) as [HO HA]. unfold readNext, readObject, readArray.
    repeat lazymatch goal with
    | |- nh (readArray_with _ _ _ _) => apply readArray_with_nh; intros
    | |- nh (readNext_with _ _ _ _ _) => apply readNext_with_nh
    | |- nh (consumeToken _ _ _) => apply consumeToken_nh
    | |- nh (object_loop _ _ _ _ _) => apply HO
    | |- nh (array_loop _ _ _ _ _ _) => apply HA
    | _ => nht end.
  Qed.

  Lemma read_ascii_nohex input :
    (forall x c, read_doc e PA input = Throw x -> ekind_of x <> HexValue c) /\
    read_doc e PA input <> Abort StdRangeError.
  Proof.
    pose proof (readNext_nh (S (S (length input))) None (init_st input)) as W. unfold wp in W. unfold read_doc.
    destruct (readNext e PA _ None (init_st input)) as [[r s]|x|x|x|]; split; try discriminate.
    - intros y c [= <-] E. simpl in W. rewrite E in W. exact W.
    - simpl in W. destruct x; congruence.
  Qed.
End NoHex.

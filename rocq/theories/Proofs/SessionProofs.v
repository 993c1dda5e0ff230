(** Modes of the terminal (Model/Session.v). *)
From Coq Require Import Lia.
From Verif Require Import Spec.SessionSpec.
Open Scope Z_scope.

(** * Modes *)
Lemma snoc_inj {A} : forall (l l' : list A) x y, l ++ [x] = l' ++ [y] -> l = l' /\ x = y.
Proof. intros. now apply app_inj_tail. Qed.

Lemma mode_unique : forall l b, mode_after l b -> forall b', mode_after l b' -> b = b'.
Proof.
  intros l b H. induction H as [|l b H IH|l b H IH|l b e H IH]; intros b' H'; inversion H' as [E|l' b0 H0 E|l' b0 H0 E|l' b0 e0 H0 E];
    try (destruct l; discriminate); try (destruct l'; discriminate); try reflexivity;
    try (apply snoc_inj in E; destruct E as [E1 E2]; try discriminate; subst; auto).
Qed.

Lemma mode_dids : forall evs l b, mode_after l b -> mode_after (l ++ map Did evs) b.
Proof.
  induction evs as [|e evs IH]; intros l b H; cbn; [now rewrite app_nil_r|].
  replace (l ++ Did e :: map Did evs) with ((l ++ [Did e]) ++ map Did evs) by (rewrite <- app_assoc; reflexivity).
  apply IH. now constructor.
Qed.

Lemma mode_quiet : forall evs, mode_after (map Did evs) false.
Proof. intros evs. apply (mode_dids evs []). constructor. Qed.
Lemma mode_open : forall evs evs', mode_after (map Did evs ++ Opened :: map Did evs') true.
Proof.
  intros. replace (map Did evs ++ Opened :: map Did evs') with ((map Did evs ++ [Opened]) ++ map Did evs') by (rewrite <- app_assoc; reflexivity).
  apply mode_dids. eapply M_opened. apply mode_quiet.
Qed.
Lemma mode_over : forall evs evs' evs'', mode_after (map Did evs ++ Opened :: map Did evs' ++ Closed :: map Did evs'') false.
Proof.
  intros. replace (map Did evs ++ Opened :: map Did evs' ++ Closed :: map Did evs'')
    with (((map Did evs ++ Opened :: map Did evs') ++ [Closed]) ++ map Did evs'').
  - apply mode_dids. eapply M_closed. apply mode_open.
  - repeat (rewrite <- app_assoc; cbn [app]). reflexivity.
Qed.

Lemma split_map : forall (evs : list event) a x c, map Did evs = a ++ x :: c -> exists u e v, evs = u ++ e :: v /\ a = map Did u /\ x = Did e /\ c = map Did v.
Proof.
  induction evs as [|e evs IH]; intros a x c H; [destruct a; discriminate|].
  destruct a as [|y a]; cbn in H; injection H as H1 H2.
  - exists [], e, evs. subst. auto.
  - destruct (IH _ _ _ H2) as (u & e' & v & -> & -> & -> & ->). exists (e :: u), e', v. subst. auto.
Qed.

(** * What the parts of a run tell *)
Lemma bind_fst {A B} : forall (m : io A) (k : A -> io B),
  fst (ibind m k) = fst m ++ match snd m with Val a => fst (k a) | _ => [] end.
Proof. intros [l [a|d|]] k; cbn; try now rewrite app_nil_r. now destruct (k a). Qed.
Lemma bind_snd {A B} : forall (m : io A) (k : A -> io B),
  snd (ibind m k) = match snd m with Val a => snd (k a) | Die d => Die d | Hang => Hang end.
Proof. intros [l [a|d|]] k; cbn; try reflexivity. now destruct (k a). Qed.
Lemma tbind_fst {A B} : forall (m : tio A) (k : A -> tio B),
  fst (tbind m k) = fst m ++ match snd m with Val a => fst (k a) | _ => [] end.
Proof. intros [l [a|d|]] k; cbn; try now rewrite app_nil_r. now destruct (k a). Qed.
Lemma tbind_snd {A B} : forall (m : tio A) (k : A -> tio B),
  snd (tbind m k) = match snd m with Val a => snd (k a) | Die d => Die d | Hang => Hang end.
Proof. intros [l [a|d|]] k; cbn; try reflexivity. now destruct (k a). Qed.

Lemma exception_tells : forall f x, fst (displayException f x) = [] \/ exists r, fst (displayException f x) = [r] /\ report r.
Proof.
  intros f x. unfold displayException. destruct (message (ekind_of x)) as [msg|]; [|now left].
  destruct (length (hist_text (ehist x))); [now left|]. right. eexists. split; [reflexivity|exact I].
Qed.

Lemma one_tells : forall e w p i,
  (fst (readOneFile e w p i) = [] \/ exists r, fst (readOneFile e w p i) = [r] /\ report r) /\
  forall d, snd (readOneFile e w p i) = Val (Some d) -> fst (readOneFile e w p i) = [].
Proof.
  intros e w p i. unfold readOneFile.
  destruct (read_doc e (Some (config p)) (input_bytes w p (snd i))) as [[[root|] s]|x| | |];
    try (split; [left; reflexivity|reflexivity || discriminate]).
  - split; [right; eexists; split; [reflexivity|exact I]|discriminate].
  - rewrite bind_fst, bind_snd.
    assert (Q : match snd (displayException (fst i) x) with Val a => fst (iret (A := option (node * list (bytes * exn))) None) | _ => [] end = []) by now destruct (snd (displayException (fst i) x)).
    rewrite Q, app_nil_r. split; [apply exception_tells|].
    destruct (snd (displayException (fst i) x)); discriminate.
Qed.

Lemma warnings_tell : forall ws, Forall report (fst (displayWarnings ws)).
Proof.
  induction ws as [|[f x] ws IH]; [constructor|]. cbn [displayWarnings]. rewrite bind_fst. apply Forall_app. split.
  - destruct (exception_tells f x) as [->|(r & -> & R)]; auto.
  - destruct (snd (displayException f x)); auto.
Qed.

Lemma reports_quiet : forall l e, Forall report l -> In e l -> ~ interactive e.
Proof. intros l e H I. rewrite Forall_forall in H. apply H in I. destruct e; cbn in *; tauto. Qed.

Section S.
  Variable (e : env) (w : world) (sits : list (bytes * tree) -> outcome unit).

  Lemma all_tells : forall p inputs docs ws, Forall report (fst (readAll e w p inputs docs ws)).
  Proof.
    intros p inputs. induction inputs as [|i r IH]; intros docs ws; [constructor|]. cbn [readAll]. rewrite bind_fst. apply Forall_app. split.
    - destruct (proj1 (one_tells e w p i)) as [->|(x & -> & R)]; auto.
    - destruct (snd (readOneFile e w p i)) as [[[root ws']|]| |]; try constructor. apply IH.
  Qed.

  (** Views, then at most one report. *)
  Lemma view_tells : forall p inputs ws, exists vs rs,
    fst (viewAll e w sits p inputs ws) = map Did (vs ++ rs) /\
    Forall (fun x => exists f t, x = EView f t) vs /\
    (rs = [] \/ exists r, rs = [r] /\ report r) /\
    ((exists x, snd (viewAll e w sits p inputs ws) = Val x) \/
     (exists i, In i inputs /\ forall o, snd (readOneFile e w p i) <> Val o) \/
     exists f t, In (EView f t) vs /\ sits [(f, t)] <> Val tt).
  Proof.
    intros p inputs. induction inputs as [|i r IH]; intros ws.
    - exists [], []. cbn. repeat split; auto. left. now exists ws.
    - cbn [viewAll]. rewrite tbind_fst, tbind_snd. unfold lift at 1 2 3. cbn [fst snd].
      destruct (one_tells e w p i) as [H1 H2]. destruct (snd (readOneFile e w p i)) as [[[root ws']|]| |] eqn:E.
      + rewrite (H2 _ eq_refl). cbn [map app]. clear H1 H2. rewrite tbind_fst, tbind_snd. cbn [sit tbind temit fst snd app].
        destruct (sits [(fst i, erase root)]) as [[]|d|] eqn:S.
        * destruct (IH (ws ++ ws')) as (vs & rs & F & A & B & C). exists (EView (fst i) (erase root) :: vs), rs. rewrite F. split; [reflexivity|].
          split; [constructor; eauto|]. split; [exact B|]. destruct C as [C|[(j & J & C)|(f & t & J & C)]]; [now left|right; left|right; right].
          -- exists j. split; [now right|exact C].
          -- exists f, t. split; [now right|exact C].
        * exists [EView (fst i) (erase root)], []. split; [reflexivity|]. split; [repeat constructor; eauto|]. split; [now left|].
          right. right. exists (fst i), (erase root). split; [now left|]. rewrite S. discriminate.
        * exists [EView (fst i) (erase root)], []. split; [reflexivity|]. split; [repeat constructor; eauto|]. split; [now left|].
          right. right. exists (fst i), (erase root). split; [now left|]. rewrite S. discriminate.
      + exists [], (fst (readOneFile e w p i)). cbn [tret fst snd app]. rewrite app_nil_r. repeat split; auto. left. now exists ws.
      + exists [], (fst (readOneFile e w p i)). cbn [app]. rewrite app_nil_r. repeat split; auto. right. left. exists i. split; [now left|]. intros o. rewrite E. discriminate.
      + exists [], (fst (readOneFile e w p i)). cbn [app]. rewrite app_nil_r. repeat split; auto. right. left. exists i. split; [now left|]. intros o. rewrite E. discriminate.
  Qed.

  (** * The shape of a session *)
  Inductive shape (opens : bytes -> bool) (args : list bytes) : list tevent -> outcome Z -> Prop :=
  | Sh_quiet : forall evs o, (forall x, In x evs -> ~ interactive x) -> shape opens args (map Did evs) o
  | Sh_view : forall p vs rs o, viewing w opens args p ->
      Forall (fun x => exists f t, x = EView f t) vs -> (rs = [] \/ exists r, rs = [r] /\ report r) ->
      (forall z, o <> Val z) ->
      (exists i, In i (getInputs p) /\ forall v, snd (readOneFile e w p i) <> Val v) \/ (exists f t, In (EView f t) vs /\ sits [(f, t)] <> Val tt) ->
      shape opens args (Opened :: map Did (vs ++ rs)) o
  | Sh_viewed : forall p vs rs ms o, viewing w opens args p ->
      Forall (fun x => exists f t, x = EView f t) vs -> (rs = [] \/ exists r, rs = [r] /\ report r) -> Forall report ms ->
      shape opens args (Opened :: map Did (vs ++ rs) ++ Closed :: map Did ms) o
  | Sh_compare : forall p docs o, comparing opens args p -> (forall z, o <> Val z) ->
      sits docs <> Val tt -> shape opens args [Opened; Did (ECompare docs)] o
  | Sh_three : forall p o, comparing opens args p -> (forall z, o <> Val z) -> length (getInputs p) = 3%nat ->
      shape opens args [Opened] o
  | Sh_compared : forall p docs ms o, comparing opens args p -> Forall report ms ->
      shape opens args (Opened :: Did (ECompare docs) :: Closed :: map Did ms) o.

  Lemma lift_fst {A} : forall m : io A, fst (lift m) = map Did (fst m). Proof. reflexivity. Qed.
  Lemma lift_snd {A} : forall m : io A, snd (lift m) = snd m. Proof. reflexivity. Qed.

  Lemma stdout_tells : forall show p inputs ws, (forall f t, ~ interactive (show f t)) ->
    forall x, In x (fst (showAll e w show p inputs ws)) -> ~ interactive x.
  Proof.
    intros show p inputs. induction inputs as [|i r IH]; intros ws H x X; [destruct X|]. cbn [showAll] in X. rewrite bind_fst in X.
    apply in_app_or in X. destruct X as [X|X].
    - destruct (proj1 (one_tells e w p i)) as [Z|(y & Z & R)]; rewrite Z in X; [destruct X|]. destruct X as [<-|[]]. destruct y; cbn in *; tauto.
    - destruct (snd (readOneFile e w p i)) as [[[root ws']|]| |]; [|destruct X..]. rewrite bind_fst in X. cbn in X. destruct X as [<-|X]; [apply H|]. eapply IH; eauto.
  Qed.

  Lemma prettify_tells : forall p inputs names ws x, In x (fst (prettify e w p inputs names ws)) -> ~ interactive x.
  Proof.
    intros p inputs. induction inputs as [|i r IH]; intros names ws x X; [destruct X|]. cbn [prettify] in X. rewrite bind_fst in X.
    apply in_app_or in X. destruct X as [X|X].
    - destruct (proj1 (one_tells e w p i)) as [Z|(y & Z & R)]; rewrite Z in X; [destruct X|]. destruct X as [<-|[]]. destruct y; cbn in *; tauto.
    - destruct (snd (readOneFile e w p i)) as [[[root ws']|]| |]; [|destruct X..]. rewrite bind_fst in X. apply in_app_or in X. destruct X as [X|X].
      + unfold getOutputFile in X. destruct (delay w _); destruct X.
      + destruct (snd (getOutputFile w (fst i))); [|destruct X..]. rewrite bind_fst in X. cbn in X. destruct X as [<-|X]; [tauto|]. eapply IH; eauto.
  Qed.

  Lemma unlinks_tell : forall names x, In x (fst (unlink_all names)) -> ~ interactive x.
  Proof. intros names x X. apply in_map_iff in X. destruct X as (n & <- & _). tauto. Qed.

  Lemma external_tells : forall p d x, In x (fst (runExternalDiff e w p d)) -> ~ interactive x.
  Proof.
    intros p d x X. unfold runExternalDiff in X. rewrite bind_fst in X. apply in_app_or in X. destruct X as [X|X]; [eapply prettify_tells; eauto|].
    destruct (snd (prettify e w p (getInputs p) [] [])) as [[[names ws]|names]| |]; [| |destruct X..].
    - rewrite bind_fst in X. apply in_app_or in X. destruct X as [X|X]; [exact (reports_quiet _ _ (warnings_tell _) X)|].
      destruct (snd (displayWarnings ws)); [|destruct X..]. destruct (computeArgv d names); [|destruct X].
      destruct (fork_ok w); [|exact (unlinks_tell _ _ X)]. rewrite bind_fst in X. apply in_app_or in X. destruct X as [[<-|[]]|X]; [tauto|]. cbn [emit snd] in X.
      rewrite bind_fst in X. apply in_app_or in X. destruct X as [X|X].
      + destruct (exec_ok w); [destruct (ends_as w) as [[|]|]; destruct X|]. destruct (garbage_exited w); [|destruct X].
        rewrite bind_fst in X. apply in_app_or in X. destruct X as [X|X]; [exact (unlinks_tell _ _ X)|]. cbn in X. destruct X.
      + destruct (snd _); [|destruct X..]. exact (unlinks_tell _ _ X).
    - exact (unlinks_tell _ _ X).
  Qed.

  Lemma readAll_docs : forall p inputs docs ws docs' ws', snd (readAll e w p inputs docs ws) = Val (inl (docs', ws')) ->
    length docs' = (length docs + length inputs)%nat /\ fst (readAll e w p inputs docs ws) = [].
  Proof.
    intros p inputs. induction inputs as [|i r IH]; intros docs ws docs' ws' H.
    - cbn in H. injection H as <- <-. cbn. split; [lia|reflexivity].
    - cbn [readAll] in *. rewrite bind_snd in H. rewrite bind_fst. destruct (one_tells e w p i) as [_ T].
      destruct (snd (readOneFile e w p i)) as [[[root ws2]|]| |] eqn:E; try discriminate.
      destruct (IH _ _ _ _ H) as [L F]. rewrite (T _ eq_refl), F. rewrite app_length in L. cbn in L. cbn [length]. split; [lia|reflexivity].
  Qed.

  Lemma session_shape : forall opens args, shape opens args (fst (main_session e w sits opens args)) (snd (main_session e w sits opens args)).
  Proof.
    intros opens args. unfold main_session. destruct (Params_read opens args) as [p|s|c] eqn:P.
    2, 3: apply (Sh_quiet _ _ []); intros x [].
    rewrite tbind_fst, tbind_snd. cbn [tret fst snd].
    destruct (p_cmd p) as [d|] eqn:C.
    - rewrite lift_fst, lift_snd. assert (Z : match snd (runExternalDiff e w p d) with Val _ => [] | _ => [] end = @nil tevent) by now destruct (snd (runExternalDiff e w p d)).
      rewrite Z, app_nil_r. apply Sh_quiet. apply external_tells.
    - destruct (p_diff p) eqn:D.
      + unfold diff_session. rewrite !tbind_fst, !tbind_snd, !lift_fst, !lift_snd.
        destruct (snd (readAll e w p (getInputs p) [] [])) as [[[docs ws]|[]]| |] eqn:R.
        * destruct (readAll_docs _ _ _ _ _ _ R) as [L F]. rewrite F. cbn [map app].
          destruct (length docs =? 3)%nat eqn:T.
          -- cbn. apply (Sh_three _ _ p); [now repeat split|discriminate|]. apply Nat.eqb_eq in T. cbn in L. lia.
          -- unfold sit. do 4 (rewrite ?tbind_fst, ?tbind_snd; cbn [temit fst snd app]).
             destruct (sits docs) as [[]|d|] eqn:S.
             ++ do 3 (rewrite ?tbind_fst, ?tbind_snd, ?lift_fst, ?lift_snd; cbn [temit fst snd app]).
                assert (Z : match snd (displayWarnings ws) with Val _ => [] | _ => [] end = @nil tevent) by now destruct (snd (displayWarnings ws)).
                rewrite Z, app_nil_r. apply (Sh_compared _ _ p); [now repeat split|apply warnings_tell].
             ++ cbn. apply (Sh_compare _ _ p); [now repeat split|discriminate|rewrite S; discriminate].
             ++ cbn. apply (Sh_compare _ _ p); [now repeat split|discriminate|rewrite S; discriminate].
        * cbn. rewrite app_nil_r. rewrite app_nil_r. apply Sh_quiet. intros x. apply reports_quiet. apply all_tells.
        * rewrite !app_nil_r. apply Sh_quiet. intros x. apply reports_quiet. apply all_tells.
        * rewrite !app_nil_r. apply Sh_quiet. intros x. apply reports_quiet. apply all_tells.
      + destruct (negb (p_compress p) && tty w) eqn:V.
        * apply andb_prop in V. destruct V as [V1 V2]. apply negb_true_iff in V1.
          assert (G : viewing w opens args p) by now repeat split.
          unfold run_session. do 3 (rewrite ?tbind_fst, ?tbind_snd; cbn [temit fst snd app]).
          destruct (view_tells p (getInputs p) []) as (vs & rs & F & A & B & Y). rewrite F.
          destruct (snd (viewAll e w sits p (getInputs p) [])) as [x|d|].
          -- do 3 (rewrite ?tbind_fst, ?tbind_snd, ?lift_fst, ?lift_snd; cbn [temit fst snd app]).
             assert (Z : match snd (displayWarnings x) with Val _ => [] | _ => [] end = @nil tevent) by now destruct (snd (displayWarnings x)).
             rewrite Z, app_nil_r. apply (Sh_viewed _ _ p); auto. apply warnings_tell.
          -- rewrite !app_nil_r. destruct Y as [[x Y]|Y]; [discriminate|]. apply (Sh_view _ _ p); auto. discriminate.
          -- rewrite !app_nil_r. destruct Y as [[x Y]|Y]; [discriminate|]. apply (Sh_view _ _ p); auto. discriminate.
        * rewrite lift_fst, lift_snd.
          assert (Z : match snd (runStdout e w p) with Val _ => [] | _ => [] end = @nil tevent) by now destruct (snd (runStdout e w p)).
          rewrite Z, app_nil_r. apply Sh_quiet. intros x X. unfold runStdout in X. rewrite bind_fst in X. apply in_app_or in X. destruct X as [X|X].
          -- eapply stdout_tells; [|exact X]. cbn. tauto.
          -- destruct (snd (showAll e w _ p (getInputs p) [])); [|destruct X..]. exact (reports_quiet _ _ (warnings_tell _) X).
  Qed.

  (** * Consequences *)
  Lemma mode_is : forall l b b', mode_after l b -> mode_after l b' -> b' = b.
  Proof. intros. eapply mode_unique; eauto. Qed.

  Lemma session_closed : forall opens args l z, main_session e w sits opens args = (l, Val z) -> mode_after l false.
  Proof.
    intros opens args l z H. pose proof (session_shape opens args) as S. rewrite H in S. cbn [fst snd] in S.
    inversion S; subst; try (exfalso; match goal with K : forall z, Val _ <> Val z |- _ => eapply K; reflexivity end).
    - apply mode_quiet.
    - apply (mode_over [] (vs ++ rs) ms).
    - apply (mode_over [] [ECompare docs] ms).
  Qed.

  Lemma session_open : forall opens args l o, main_session e w sits opens args = (l, o) -> mode_after l true ->
    (forall z, o <> Val z) /\
    ((exists p, viewing w opens args p /\
       ((exists i, In i (getInputs p) /\ forall v, snd (readOneFile e w p i) <> Val v) \/
        (exists f t, In (Did (EView f t)) l /\ sits [(f, t)] <> Val tt))) \/
     (exists p, comparing opens args p /\
       (length (getInputs p) = 3%nat \/ (exists docs, In (Did (ECompare docs)) l /\ sits docs <> Val tt)))).
  Proof.
    intros opens args l o H M. pose proof (session_shape opens args) as S. rewrite H in S. cbn [fst snd] in S.
    inversion S as [evs o' Q|p vs rs o' V A B N Y|p vs rs ms o' V A B R|p docs o' C N Y|p o' C N T|p docs ms o' C R]; subst.
    - pose proof (mode_is _ _ _ (mode_quiet evs) M). discriminate.
    - split; [exact N|]. left. exists p. split; [exact V|]. destruct Y as [Y|(f & t & I & Y)]; [now left|right]. exists f, t. split; [|exact Y].
      right. apply in_map. apply in_or_app. now left.
    - pose proof (mode_is _ _ _ (mode_over [] (vs ++ rs) ms) M). discriminate.
    - split; [exact N|]. right. exists p. split; [exact C|]. right. exists docs. split; [right; now left|exact Y].
    - split; [exact N|]. right. exists p. split; [exact C|]. now left.
    - pose proof (mode_is _ _ _ (mode_over [] [ECompare docs] ms) M). discriminate.
  Qed.

  Lemma cons_split {A} : forall (x y : A) l a c, x :: l = a ++ y :: c -> (a = [] /\ x = y /\ l = c) \/ exists a', a = x :: a' /\ l = a' ++ y :: c.
  Proof. intros x y l [|z a] c H; cbn in H; injection H as H1 H2; [left|right]; subst; eauto. Qed.

  Lemma app_split {A} : forall (l l' : list A) a y c, l ++ l' = a ++ y :: c ->
    (exists c', l = a ++ y :: c' /\ c = c' ++ l') \/ (exists a', a = l ++ a' /\ l' = a' ++ y :: c).
  Proof.
    induction l as [|x l IH]; intros l' a y c H; [right; exists a; auto|].
    destruct a as [|z a]; cbn in H; injection H as H1 H2; subst.
    - left. exists l. auto.
    - destruct (IH _ _ _ _ H2) as [(c' & -> & ->)|(a' & -> & ->)]; [left; exists c'|right; exists a']; auto.
  Qed.

  Lemma quiet_views : forall l : list event, Forall (fun x => exists f t, x = EView f t) l -> forall x, In x l -> ~ report x.
  Proof. intros l H x X. rewrite Forall_forall in H. destruct (H x X) as (f & t & ->). tauto. Qed.
  Lemma one_report : forall rs : list event, (rs = [] \/ exists r, rs = [r] /\ report r) -> Forall report rs.
  Proof. intros rs [->|(r & -> & R)]; auto. Qed.

  Lemma in_mid {A} : forall (x : A) u v, In x (u ++ x :: v).
  Proof. intros. apply in_or_app. right. now left. Qed.

  Lemma shown_open : forall opens args a x c, fst (main_session e w sits opens args) = a ++ Did x :: c -> interactive x -> mode_after a true.
  Proof.
    intros opens args a x c H X. pose proof (session_shape opens args) as S. rewrite H in S.
    assert (K : forall p vs rs, viewing w opens args p -> Forall (fun x => exists f t, x = EView f t) vs -> (rs = [] \/ exists r, rs = [r] /\ report r) ->
      forall a' c', map Did (vs ++ rs) = a' ++ Did x :: c' -> mode_after (Opened :: a') true).
    { intros p vs rs V A B a' c' E. apply split_map in E. destruct E as (u & e' & v & E & -> & _ & _). apply (mode_open [] u). }
    inversion S as [evs o' Q E|p vs rs o' V A B N Y E|p vs rs ms o' V A B R E|p docs o' C N Y E|p o' C N T E|p docs ms o' C R E].
    - apply split_map in E. destruct E as (u & e' & v & -> & -> & E & ->). injection E as <-. destruct (Q x (in_mid x u v) X).
    - apply cons_split in E. destruct E as [(_ & E & _)|(a' & -> & E)]; [discriminate|]. eapply K; eauto.
    - apply cons_split in E. destruct E as [(_ & E & _)|(a' & -> & E)]; [discriminate|]. apply app_split in E. destruct E as [(c' & E & _)|(a'' & -> & E)]; [eapply K; eauto|].
      apply cons_split in E. destruct E as [(_ & E & _)|(b & -> & E)]; [discriminate|]. apply split_map in E. destruct E as (u & e' & v & -> & -> & E & ->).
      injection E as <-. destruct (reports_quiet _ _ R (in_mid x u v) X).
    - apply cons_split in E. destruct E as [(_ & E & _)|(a' & -> & E)]; [discriminate|]. apply (split_map [ECompare docs]) in E. destruct E as (u & e' & v & _ & -> & _ & _). apply (mode_open [] u).
    - destruct a as [|? [|? ?]]; discriminate.
    - apply cons_split in E. destruct E as [(_ & E & _)|(a' & -> & E)]; [discriminate|]. apply cons_split in E. destruct E as [(-> & _ & _)|(a'' & -> & E)]; [apply (mode_open [] [])|].
      apply cons_split in E. destruct E as [(_ & E & _)|(b & -> & E)]; [discriminate|]. apply split_map in E. destruct E as (u & e' & v & -> & -> & E & ->).
      injection E as <-. destruct (reports_quiet _ _ R (in_mid x u v) X).
  Qed.

  Lemma report_open : forall opens args a x c, fst (main_session e w sits opens args) = a ++ Did x :: c -> report x -> mode_after a true ->
    exists p, viewing w opens args p /\ (c = [] \/ exists c', c = Closed :: c').
  Proof.
    intros opens args a x c H X M. pose proof (session_shape opens args) as S. rewrite H in S.
    assert (K : forall vs rs, Forall (fun x => exists f t, x = EView f t) vs -> (rs = [] \/ exists r, rs = [r] /\ report r) ->
      forall a' c', map Did (vs ++ rs) = a' ++ Did x :: c' -> c' = []).
    { intros vs rs A B a' c' E. rewrite map_app in E. apply app_split in E. destruct E as [(c'' & E & _)|(a'' & _ & E)].
      - apply split_map in E. destruct E as (u & e' & v & -> & -> & E & ->). injection E as <-. destruct (quiet_views _ A x (in_mid x u v) X).
      - destruct B as [->|(r & -> & R)]; [destruct a''; discriminate|]. destruct a'' as [|? [|? ?]]; [|discriminate..]. cbn in E. now injection E. }
    inversion S as [evs o' Q E|p vs rs o' V A B N Y E|p vs rs ms o' V A B R E|p docs o' C N Y E|p o' C N T E|p docs ms o' C R E].
    - apply split_map in E. destruct E as (u & e' & v & -> & -> & E & ->). pose proof (mode_is _ _ _ (mode_quiet u) M). discriminate.
    - exists p. split; [exact V|]. left. apply cons_split in E. destruct E as [(_ & E & _)|(a' & -> & E)]; [discriminate|]. eapply K; eauto.
    - exists p. split; [exact V|]. right. apply cons_split in E. destruct E as [(_ & E & _)|(a' & -> & E)]; [discriminate|]. apply app_split in E.
      destruct E as [(c' & E & ->)|(a'' & -> & E)]; [rewrite (K _ _ A B _ _ E); eexists; reflexivity|].
      apply cons_split in E. destruct E as [(_ & E & _)|(b & -> & E)]; [discriminate|]. apply split_map in E. destruct E as (u & e' & v & -> & -> & E & ->).
      pose proof (mode_is _ _ _ (mode_over [] (vs ++ rs) u) M). discriminate.
    - apply cons_split in E. destruct E as [(_ & E & _)|(a' & -> & E)]; [discriminate|]. apply (split_map [ECompare docs]) in E. destruct E as (u & e' & v & E & _ & E2 & _).
      injection E2 as <-. destruct u as [|? [|? ?]]; [|discriminate..]. injection E as <-. destruct X.
    - destruct a as [|? [|? ?]]; discriminate.
    - apply cons_split in E. destruct E as [(_ & E & _)|(a' & -> & E)]; [discriminate|]. apply cons_split in E. destruct E as [(-> & E & _)|(a'' & -> & E)]; [injection E as <-; destruct X|].
      apply cons_split in E. destruct E as [(_ & E & _)|(b & -> & E)]; [discriminate|]. apply split_map in E. destruct E as (u & e' & v & -> & -> & E & ->).
      pose proof (mode_is _ _ _ (mode_over [] [ECompare docs] u) M). discriminate.
  Qed.

  Lemma dids_opened : forall evs, ~ In Opened (map Did evs).
  Proof. intros evs H. apply in_map_iff in H. destruct H as (x & H & _). discriminate. Qed.

  Lemma session_once : forall opens args a c, fst (main_session e w sits opens args) = a ++ Opened :: c ->
    ~ In Opened (a ++ c) /\ exists p, viewing w opens args p \/ comparing opens args p.
  Proof.
    intros opens args a c H. pose proof (session_shape opens args) as S. rewrite H in S.
    assert (K : forall l, ~ In Opened l -> Opened :: l = a ++ Opened :: c -> ~ In Opened (a ++ c)).
    { intros l N E. apply cons_split in E. destruct E as [(-> & _ & ->)|(a' & _ & ->)]; [exact N|]. destruct (N (in_mid _ _ _)). }
    inversion S as [evs o' Q E|p vs rs o' V A B N Y E|p vs rs ms o' V A B R E|p docs o' C N Y E|p o' C N T E|p docs ms o' C R E].
    - exfalso. apply (dids_opened evs). rewrite E. apply in_mid.
    - split; [|eauto]. eapply K; [|exact E]. apply dids_opened.
    - split; [|eauto]. eapply K; [|exact E]. intros I. apply in_app_or in I. destruct I as [I|[I|I]]; [|discriminate|]; eapply dids_opened; eauto.
    - split; [|eauto]. eapply K; [|exact E]. apply (dids_opened [_]).
    - split; [|eauto]. eapply K; [|exact E]. intros [].
    - split; [|eauto]. eapply K; [|exact E]. intros [I|[I|I]]; try discriminate. eapply dids_opened; eauto.
  Qed.

  (** * Without the terminal a session is the run of Model/Main.v *)
  Lemma told_app : forall a b, told (a ++ b) = told a ++ told b.
  Proof. intros. apply flat_map_app. Qed.
  Lemma told_dids : forall evs, told (map Did evs) = evs.
  Proof. induction evs as [|x evs IH]; [reflexivity|]. cbn. now rewrite <- IH at 2. Qed.

  Definition same {A} (m : tio A) (n : io A) : Prop := told (fst m) = fst n /\ snd m = snd n.
  Lemma same_lift {A} : forall m : io A, same (lift m) m.
  Proof. intros m. split; [apply told_dids|reflexivity]. Qed.
  Lemma same_bind {A B} : forall (m : tio A) (n : io A) (k : A -> tio B) (k' : A -> io B),
    same m n -> (forall a, same (k a) (k' a)) -> same (tbind m k) (ibind n k').
  Proof.
    intros m n k k' [H1 H2] K. split.
    - rewrite tbind_fst, bind_fst, told_app, H1, H2. f_equal. destruct (snd n) as [a| |]; try reflexivity. apply K.
    - rewrite tbind_snd, bind_snd, H2. destruct (snd n) as [a| |]; try reflexivity. apply K.
  Qed.
  Lemma same_mode {A} : forall (x : tevent) (k : tio A) n, told [x] = [] -> same k n -> same (temit x -;; k) n.
  Proof. intros x k n T [H1 H2]. split; [rewrite tbind_fst, told_app; cbn [temit fst snd]; now rewrite T|rewrite tbind_snd; exact H2]. Qed.

  Section Same.
    Hypothesis SIT : forall docs, sits docs = Val tt.
    Lemma same_sit : forall x docs, same (sit sits x docs) (emit x).
    Proof. intros x docs. unfold sit. cbn. rewrite SIT. now split. Qed.
    Lemma same_view : forall p inputs ws, same (viewAll e w sits p inputs ws) (showAll e w EView p inputs ws).
    Proof.
      intros p inputs. induction inputs as [|i r IH]; intros ws; [now split|]. cbn [viewAll showAll]. apply same_bind; [apply same_lift|].
      intros [[root ws']|]; [|now split]. apply same_bind; [apply same_sit|]. intros _. apply IH.
    Qed.
    Lemma session_same : forall opens args, same (main_session e w sits opens args) (main e w opens args).
    Proof.
      intros opens args. unfold main_session, main. destruct (Params_read opens args) as [p|s|c]; [|now split..].
      apply same_bind; [|intros; now split]. destruct (p_cmd p); [apply same_lift|]. destruct (p_diff p).
      - unfold diff_session, runDiff. apply same_bind; [apply same_lift|]. intros [[docs ws]|[]]; [|now split].
        apply same_mode; [reflexivity|]. destruct (length docs =? 3)%nat; [now split|].
        apply same_bind; [apply same_sit|]. intros _. apply same_mode; [reflexivity|]. apply same_lift.
      - destruct (negb (p_compress p) && tty w); [|apply same_lift]. unfold run_session, run. apply same_mode; [reflexivity|].
        apply same_bind; [apply same_view|]. intros ws. apply same_mode; [reflexivity|]. apply same_lift.
    Qed.
  End Same.
End S.

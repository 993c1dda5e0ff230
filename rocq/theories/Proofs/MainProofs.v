(** Runs of the program. *)
From Verif Require Export Model.Main Spec.RunSpec Proofs.DiffCmdProofs Proofs.GrammarProps Proofs.ParamsProofs.
Open Scope Z_scope.

(** ** Sequencing *)
Lemma ibind_fst {A B} (m : io A) (k : A -> io B) :
  (exists a, snd m = Val a /\ ibind m k = (fst m ++ fst (k a), snd (k a))) \/
  (exists d, snd m = Die d /\ ibind m k = (fst m, Die d)) \/ (snd m = Hang /\ ibind m k = (fst m, Hang)).
Proof. destruct m as [l [a|d|]]; cbn; [left; exists a; destruct (k a); auto|right; left; eauto|auto]. Qed.

Lemma ibind_val {A B} (m : io A) (k : A -> io B) tr b : ibind m k = (tr, Val b) ->
  exists t1 a t2, m = (t1, Val a) /\ k a = (t2, Val b) /\ tr = t1 ++ t2.
Proof.
  destruct m as [l [a|d|]]; cbn; [|discriminate|discriminate]. destruct (k a) as [l' o] eqn:E. intros [= <- ->]. exists l, a, l'. auto.
Qed.
Lemma ibind_hang {A B} (m : io A) (k : A -> io B) : snd m <> Hang -> (forall a, snd m = Val a -> snd (k a) <> Hang) -> snd (ibind m k) <> Hang.
Proof. destruct m as [l [a|d|]]; cbn; intros H K; [specialize (K a eq_refl); destruct (k a); exact K|discriminate|congruence]. Qed.

(** Events of a certain kind. *)
Definition none (f : event -> Prop) (tr : list event) : Prop := Forall (fun x => ~ f x) tr.
Definition is_out (x : event) : Prop := match x with EOut _ => True | _ => False end.
Definition is_create (x : event) : Prop := match x with ECreate _ _ => True | _ => False end.

Lemma printed_app a b : printed (a ++ b) = printed a ++ printed b.
Proof. apply flat_map_app. Qed.
Lemma reports_app a b : reports (a ++ b) = reports a ++ reports b.
Proof. apply flat_map_app. Qed.
Lemma views_app a b : views (a ++ b) = views a ++ views b.
Proof. apply flat_map_app. Qed.

(** ** Reports *)
Lemma display_report f x : reportable x -> exists m ex mark, message (ekind_of x) = Some m /\
  displayException f x = ([EReport f m (hist_line (ehist x)) (hist_col (ehist x)) ex mark], Val tt) /\ ex = hist_text (ehist x) /\
  length mark = length ex /\ exists n, mark = repeat "~"%char n ++ str "^".
Proof.
  intros [M X]. unfold displayException. destruct (message (ekind_of x)) as [m|]; [|congruence].
  destruct (hist_text (ehist x)) as [|c r] eqn:E; [congruence|]. exists m, (c :: r), (repeat "~"%char (length r) ++ str "^"). split; [reflexivity|].
  cbn [length]. split; [reflexivity|]. split; [reflexivity|]. split; [|eauto]. rewrite app_length, repeat_length. cbn. lia.
Qed.
Lemma display_events f x : printed (fst (displayException f x)) = [] /\ none is_create (fst (displayException f x)) /\
  views (fst (displayException f x)) = [] /\ snd (displayException f x) <> Hang.
Proof.
  unfold displayException. destruct (message _); [|repeat split; [constructor|discriminate]].
  destruct (length _); repeat split; try constructor; auto; discriminate.
Qed.
Lemma warnings_events ws : printed (fst (displayWarnings ws)) = [] /\ none is_create (fst (displayWarnings ws)) /\
  views (fst (displayWarnings ws)) = [] /\ snd (displayWarnings ws) <> Hang.
Proof.
  induction ws as [|[f x] ws (IH1 & IH2 & IH3 & IH4)]; cbn [displayWarnings]; [repeat split; [constructor|discriminate]|].
  destruct (display_events f x) as (A & B & C & D).
  destruct (ibind_fst (displayException f x) (fun _ => displayWarnings ws)) as [(a & S1 & ->)|[(d & S1 & ->)|(S1 & ->)]]; cbn [fst snd].
  - rewrite printed_app, views_app, A, C, IH1, IH3. repeat split; auto. apply Forall_app. auto.
  - repeat split; auto. discriminate.
  - congruence.
Qed.
Lemma warnings_reports ws : Forall (fun fx => reportable (snd fx)) ws -> exists tr, displayWarnings ws = (tr, Val tt) /\
  map Some (reports tr) = map (fun fx => option_map (fun m => (fst fx, m)) (message (ekind_of (snd fx)))) ws.
Proof.
  induction 1 as [|[f x] ws H F (tr & E & R)]; [exists []; split; reflexivity|]. cbn [snd] in H.
  destruct (display_report f x H) as (m & ex & mark & M & D & _). cbn [displayWarnings]. rewrite D, E. cbn [ibind app].
  eexists. split; [reflexivity|]. cbn [reports flat_map app map fst snd]. rewrite M. cbn [option_map]. rewrite <- R. reflexivity.
Qed.

Section Proofs.
  Variable e : env.
  Variable w : world.
  Notation readOneFile := (readOneFile e w).
  Notation text p := (fun i : bytes * src => input_bytes w p (snd i)).

  Lemma read_one p i : (exists t ws root, is_doc e (config p) (text p) i t ws /\ t = erase root /\
      readOneFile p i = ([], Val (Some (root, map (fun x => (fst i, x)) ws)))) \/
    ((forall t ws, ~ is_doc e (config p) (text p) i t ws) /\ printed (fst (readOneFile p i)) = [] /\ none is_create (fst (readOneFile p i)) /\
      views (fst (readOneFile p i)) = [] /\ (snd (readOneFile p i) = Val None \/ exists d, snd (readOneFile p i) = Die d)).
  Proof.
    unfold Model.Main.readOneFile, is_doc. destruct (read_doc e (Some (config p)) (input_bytes w p (snd i))) as [[[root|] s]|x|a|u|] eqn:E.
    - left. exists (erase root), (warns s), root. split; [|split; reflexivity]. exists root, s. auto.
    - right. split; [intros t ws (r & s' & Q & _); discriminate|]. cbn. repeat split; auto. repeat constructor. auto.
    - right. split; [intros t ws (r & s' & Q & _); discriminate|]. destruct (display_events (fst i) x) as (A & B & C & D).
      destruct (displayException (fst i) x) as [l [u|d|]]; cbn in *; rewrite ?app_nil_r; [repeat split; auto|repeat split; eauto|congruence].
    - right. split; [intros t ws (r & s' & Q & _); discriminate|]. cbn. repeat split; eauto. constructor.
    - right. split; [intros t ws (r & s' & Q & _); discriminate|]. cbn. repeat split; eauto. constructor.
    - right. split; [intros t ws (r & s' & Q & _); discriminate|]. cbn. repeat split; eauto. constructor.
  Qed.

  (** ** Printing documents in turn *)
  Definition plain_show (show : bytes -> tree -> event) : Prop := forall f t, (exists b, show f t = EOut b) \/ (exists f t', show f t = EView f t').

  Lemma show_all p show l ds x : docs_until e (config p) (text p) l ds x -> forall ws,
    printed (fst (showAll e w show p l ws)) = flat_map (fun d => printed [show (fst (fst d)) (snd (fst d))]) ds /\
    views (fst (showAll e w show p l ws)) = flat_map (fun d => views [show (fst (fst d)) (snd (fst d))]) ds /\
    (snd (showAll e w show p l ws) = Val (ws ++ flat_map (fun d => map (fun y => (fst (fst d), y)) (snd d)) ds) \/
     exists i d, x = Some i /\ snd (readOneFile p i) = Die d /\ snd (showAll e w show p l ws) = Die d).
  Proof.
    induction 1 as [|i l N|i l t ws' r x D H IH]; intros ws; cbn [showAll].
    - cbn. rewrite app_nil_r. auto.
    - destruct (read_one p i) as [(t & ws' & root & D & _)|(_ & A & B & C & R)]; [exfalso; eapply N; exact D|].
      destruct (readOneFile p i) as [tr [o|d|]] eqn:E; cbn [fst snd] in *.
      + destruct R as [R|(d & R)]; [|discriminate]. injection R as ->. cbn [ibind iret fst snd]. rewrite !app_nil_r. repeat split; auto.
      + cbn [ibind fst snd]. repeat split; auto. right. exists i, d. rewrite E. auto.
      + destruct R as [R|(d & R)]; discriminate.
    - destruct (read_one p i) as [(t' & ws'' & root & D' & Et & E)|(N & _)]; [|exfalso; eapply N; exact D].
      destruct D as (r1 & s1 & Q1 & -> & ->). destruct D' as (r2 & s2 & Q2 & T2 & ->). rewrite Q1 in Q2. injection Q2 as <- <-.
      unfold Model.Main.readOneFile in *. rewrite Q1 in E |- *. injection E as <-. cbn [ibind iret fst snd app emit].
      specialize (IH (ws ++ map (fun x0 : exn => (fst i, x0)) (warns s1))).
      destruct (showAll e w show p l (ws ++ map (fun x0 : exn => (fst i, x0)) (warns s1))) as [tr o] eqn:ES. cbn [fst snd app] in *.
      destruct IH as (P & V & O). unfold printed, views in *. cbn [flat_map]. rewrite P, V. split; [rewrite app_nil_r; reflexivity|]. split; [rewrite app_nil_r; reflexivity|].
      destruct O as [-> |(j & d & -> & O1 & ->)]; [left; rewrite <- app_assoc; reflexivity|right; eauto].
  Qed.

  Lemma stdout_prints p ds x : docs_until e (config p) (text p) (getInputs p) ds x ->
    printed (fst (runStdout e w p)) = map (fun d => display (p_compress p) (snd (fst d))) ds.
  Proof.
    intros H. unfold runStdout. set (show := fun (_ : bytes) t => EOut (display (p_compress p) t)).
    destruct (show_all p show _ _ _ H []) as (P & _ & O).
    assert (F : flat_map (fun d : bytes * tree * list exn => printed [show (fst (fst d)) (snd (fst d))]) ds = map (fun d => display (p_compress p) (snd (fst d))) ds).
    { clear. induction ds as [|d ds IH]; [reflexivity|]. cbn [flat_map map]. rewrite IH. reflexivity. }
    rewrite F in P.
    destruct (ibind_fst (showAll e w show p (getInputs p) []) (fun ws => displayWarnings ws)) as [(a & S1 & ->)|[(d & S1 & ->)|(S1 & ->)]]; cbn [fst]; auto.
    rewrite printed_app, P. rewrite (proj1 (warnings_events a)). apply app_nil_r.
  Qed.

  Definition doc_warnings (ds : list (bytes * tree * list exn)) : list (bytes * exn) := flat_map (fun d => map (fun y => (fst (fst d), y)) (snd d)) ds.

  Lemma stdout_reports p ds x : docs_until e (config p) (text p) (getInputs p) ds x ->
    (forall i d, x = Some i -> snd (readOneFile p i) <> Die d) ->
    Forall (fun fx => reportable (snd fx)) (doc_warnings ds) ->
    exists tr tr1 tr2, runStdout e w p = (tr, Val tt) /\ tr = tr1 ++ tr2 /\
      map Some (reports tr2) = map (fun fx => option_map (fun m => (fst fx, m)) (message (ekind_of (snd fx)))) (doc_warnings ds).
  Proof.
    intros H ND R. unfold runStdout. set (show := fun (_ : bytes) t => EOut (display (p_compress p) t)).
    destruct (show_all p show _ _ _ H []) as (_ & _ & O). destruct O as [O|(i & d & X & Y & _)]; [|exfalso; eapply ND; eauto].
    destruct (showAll e w show p (getInputs p) []) as [tr1 o]. cbn [snd] in O. subst o. cbn [ibind]. cbn [app].
    destruct (warnings_reports _ R) as (tr2 & E & Q). fold (doc_warnings ds). rewrite E. exists (tr1 ++ tr2), tr1, tr2. auto.
  Qed.

  (** ** Temporary files *)
  Lemma removed_app a b : none is_create a -> removed b -> removed (a ++ b).
  Proof.
    intros N R pre name c post E. revert pre E. induction a as [|x a IH]; intros pre E; [eapply R; exact E|].
    inversion N as [|? ? Nx Na]; subst. destruct pre as [|y pre]; [injection E as -> _; exfalso; apply Nx; exact I|].
    injection E as _ E. eapply IH; eauto.
  Qed.
  Lemma removed_none a : none is_create a -> removed a.
  Proof. intros N. rewrite <- (app_nil_r a). apply removed_app; [exact N|]. intros [|] n b post E; discriminate. Qed.
  (** Files created in [tr] are among [names]. *)
  Definition only (names : list bytes) (tr : list event) : Prop := Forall (fun x => match x with ECreate n _ => In n names | _ => True end) tr.
  Lemma removed_only names a b : only names a -> none is_create b -> (forall n, In n names -> In (EUnlink n) b) -> removed (a ++ b).
  Proof.
    intros O N U. induction O as [|x a Hx O IH]; [apply removed_none; exact N|].
    intros pre name c post E. destruct pre as [|y pre].
    - injection E as -> <-. apply in_or_app. right. apply U. exact Hx.
    - injection E as _ E. eapply IH; exact E.
  Qed.
  Lemma none_only names a : none is_create a -> only names a.
  Proof. apply Forall_impl. intros [] H; auto. exfalso. apply H. exact I. Qed.
  Lemma only_app names a b : only names a -> only names b -> only names (a ++ b).
  Proof. intros A B. apply Forall_app. auto. Qed.

  Lemma prettify_files p l : forall names ws tr o, prettify e w p l names ws = (tr, Val o) ->
    exists names', only names' tr /\ (forall n, In n names -> In n names') /\ (o = inr names' \/ exists ws', o = inl (names', ws')).
  Proof.
    induction l as [|i l IH]; intros names ws tr o H; cbn [prettify] in H.
    - injection H as <- <-. exists names. split; [constructor|]. eauto.
    - apply ibind_val in H. destruct H as (t1 & o1 & t2 & R & H & ->).
      assert (N1 : none is_create t1).
      { destruct (read_one p i) as [(t' & ws'' & root & D' & Et & E)|(_ & _ & B & _)].
        - rewrite E in R; injection R as <- _. constructor.
        - rewrite R in B. exact B. }
      destruct o1 as [[root ws']|].
      + apply ibind_val in H. destruct H as (t3 & f & t4 & G & H & ->). unfold getOutputFile in G. destruct (delay w _); [|discriminate]. injection G as <- <-.
        apply ibind_val in H. destruct H as (t5 & u & t6 & M & H & ->). injection M as <- <-.
        destruct (IH _ _ _ _ H) as (names' & O & I & Q). exists names'. split; [|split; [|exact Q]].
        * apply only_app; [apply none_only; exact N1|]. cbn [app]. constructor; [|exact O]. apply I. apply in_or_app. right. left. reflexivity.
        * intros n0 Hn. apply I. apply in_or_app. left. exact Hn.
      + injection H as <- <-. exists names. rewrite app_nil_r. split; [apply none_only; exact N1|]. split; auto.
  Qed.

  Lemma unlink_none names : none is_create (map EUnlink names).
  Proof. apply Forall_forall. intros x H. apply in_map_iff in H. destruct H as (n & <- & _). auto. Qed.

  Lemma external_removes p d tr : runExternalDiff e w p d = (tr, Val tt) -> removed tr.
  Proof.
    unfold runExternalDiff. intros H. apply ibind_val in H. destruct H as (t1 & o & t2 & P & H & ->).
    destruct (prettify_files _ _ _ _ _ _ P) as (names & O & _ & Q).
    assert (U : forall n, In n names -> In (EUnlink n) (map EUnlink names)) by (intros n Hn; apply in_map; exact Hn).
    destruct Q as [-> |(ws & ->)].
    - injection H as <-. apply removed_only with names; auto. apply unlink_none.
    - apply ibind_val in H. destruct H as (t3 & u & t4 & Wn & H & ->).
      assert (N3 : none is_create t3) by (pose proof (proj1 (proj2 (warnings_events ws))) as X; rewrite Wn in X; exact X).
      rewrite app_assoc. assert (O' : only names (t1 ++ t3)) by (apply only_app; [exact O|apply none_only; exact N3]).
      destruct (computeArgv d names); [|discriminate]. destruct (fork_ok w).
      + apply ibind_val in H. destruct H as (t5 & u5 & t6 & M & H & ->). injection M as <- <-.
        apply ibind_val in H. destruct H as (t7 & u7 & t8 & M & H & ->). injection H as <-.
        apply removed_only with names; auto.
        * constructor; [intros []|]. apply Forall_app. split; [|apply unlink_none].
          destruct (exec_ok w); [destruct (ends_as w) as [[c|c]|]; try discriminate; injection M as <-; constructor|].
          destruct (garbage_exited w); [|discriminate]. injection M as <-. rewrite app_nil_r. apply unlink_none.
        * intros n Hn. apply in_or_app. right. apply in_or_app. right. auto.
      + injection H as <-. apply removed_only with names; auto. apply unlink_none.
  Qed.

  Lemma showAll_none p show : (forall f t, ~ is_create (show f t)) -> forall l ws tr o, showAll e w show p l ws = (tr, o) -> none is_create tr.
  Proof.
    intros S l. induction l as [|i l IH]; intros ws tr o H; cbn [showAll] in H; [injection H as <- <-; constructor|].
    destruct (read_one p i) as [(t' & ws'' & root & D' & Et & E)|(_ & _ & B & _ & R)].
    - rewrite E in H. cbn [ibind emit app] in H. destruct (showAll e w show p l _) as [tr' o'] eqn:Q. cbn [app] in H. injection H as <- <-. constructor; [apply S|]. eapply IH. exact Q.
    - destruct (readOneFile p i) as [t1 [o1|d|]]; cbn [snd] in R.
      + destruct R as [R|(d & R)]; [|discriminate]. injection R as ->. cbn in H. injection H as <- <-. rewrite app_nil_r. exact B.
      + cbn in H. injection H as <- <-. exact B.
      + destruct R as [R|(d & R)]; discriminate.
  Qed.
  Lemma readAll_none p : forall l ds ws tr o, readAll e w p l ds ws = (tr, o) -> none is_create tr.
  Proof.
    intros l. induction l as [|i l IH]; intros ds ws tr o H; cbn [readAll] in H; [injection H as <- <-; constructor|].
    destruct (read_one p i) as [(t' & ws'' & root & D' & Et & E)|(_ & _ & B & _ & R)].
    - rewrite E in H. cbn [ibind] in H. destruct (readAll e w p l _ _) as [tr' o'] eqn:Q. cbn [app] in H. injection H as <- <-. eapply IH. exact Q.
    - destruct (readOneFile p i) as [t1 [o1|d|]]; cbn [snd] in R.
      + destruct R as [R|(d & R)]; [|discriminate]. injection R as ->. cbn in H. injection H as <- <-. rewrite app_nil_r. exact B.
      + cbn in H. injection H as <- <-. exact B.
      + destruct R as [R|(d & R)]; discriminate.
  Qed.

  Lemma main_removes opens args tr c : main e w opens args = (tr, Val c) -> removed tr.
  Proof.
    unfold main. destruct (Params_read opens args) as [p|s|er]; [|intros [= <- _]; apply removed_none; constructor..].
    intros H. apply ibind_val in H. destruct H as (t1 & u & t2 & H & R & ->). injection R as <- _. rewrite app_nil_r. destruct u.
    destruct (p_cmd p); [eapply external_removes; exact H|]. apply removed_none.
    destruct (p_diff p).
    - unfold runDiff in H. apply ibind_val in H. destruct H as (t3 & o & t4 & A & H & ->). apply Forall_app. split; [eapply readAll_none; exact A|].
      destruct o as [[docs ws]|[]]; [|injection H as <-; constructor]. destruct (_ =? 3)%nat; [discriminate|].
      apply ibind_val in H. destruct H as (t5 & u5 & t6 & M & H & ->). injection M as <- _. constructor; [intros []|].
      pose proof (proj1 (proj2 (warnings_events ws))) as X. rewrite H in X. exact X.
    - destruct (negb (p_compress p) && tty w); (apply ibind_val in H; destruct H as (t3 & ws & t4 & A & H & ->); apply Forall_app;
        split; [eapply showAll_none; [|exact A]; intros f t []|]; pose proof (proj1 (proj2 (warnings_events ws))) as X; rewrite H in X; exact X).
  Qed.

  (** ** Endings *)
  Definition command_ends : Prop := (forall n, delay w n <> None) /\
    (fork_ok w = true -> exec_ok w = true -> exists c, ends_as w = Some (Exited c)) /\
    (fork_ok w = true -> exec_ok w = false -> garbage_exited w = true).

  Lemma read_not_hang p i : snd (readOneFile p i) <> Hang.
  Proof.
    destruct (read_one p i) as [(t' & ws'' & root & D' & Et & ->)|(_ & _ & _ & _ & [->|(d & ->)])]; discriminate.
  Qed.
  Lemma prettify_not_hang p : (forall n, delay w n <> None) -> forall l names ws, snd (prettify e w p l names ws) <> Hang.
  Proof.
    intros D l. induction l as [|i l IH]; intros names ws; cbn [prettify]; [discriminate|].
    apply ibind_hang; [apply read_not_hang|]. intros [[root ws']|] _; [|discriminate].
    apply ibind_hang; [|intros f _; apply ibind_hang; [discriminate|intros u _; apply IH]].
    unfold getOutputFile. specialize (D (tmp_name (fst i) 0)). destruct (delay w _); [discriminate|congruence].
  Qed.
  Lemma showAll_not_hang p show : forall l ws, snd (showAll e w show p l ws) <> Hang.
  Proof.
    intros l. induction l as [|i l IH]; intros ws; cbn [showAll]; [discriminate|].
    apply ibind_hang; [apply read_not_hang|]. intros [[root ws']|] _; [|discriminate]. apply ibind_hang; [discriminate|intros u _; apply IH].
  Qed.
  Lemma readAll_not_hang p : forall l ds ws, snd (readAll e w p l ds ws) <> Hang.
  Proof.
    intros l. induction l as [|i l IH]; intros ds ws; cbn [readAll]; [discriminate|].
    apply ibind_hang; [apply read_not_hang|]. intros [[root ws']|] _; [apply IH|discriminate].
  Qed.
  Lemma main_ends opens args : command_ends -> snd (main e w opens args) <> Hang.
  Proof.
    intros (D & X & G). unfold main. destruct (Params_read opens args) as [p|s|er]; [|discriminate..].
    apply ibind_hang; [|intros u _; discriminate]. destruct (p_cmd p) as [d|].
    - unfold runExternalDiff. apply ibind_hang; [apply prettify_not_hang; exact D|]. intros [[names ws]|names] _; [|discriminate].
      apply ibind_hang; [apply warnings_events|]. intros _ _. destruct (computeArgv d names); [|discriminate].
      destruct (fork_ok w); [|discriminate]. apply ibind_hang; [discriminate|]. intros _ _. apply ibind_hang; [|intros _ _; discriminate].
      destruct (exec_ok w).
      + destruct (X eq_refl eq_refl) as (c & ->). discriminate.
      + rewrite (G eq_refl eq_refl). discriminate.
    - destruct (p_diff p).
      + unfold runDiff. apply ibind_hang; [apply readAll_not_hang|]. intros [[docs ws]|[]] _; [|discriminate].
        destruct (_ =? 3)%nat; [discriminate|]. apply ibind_hang; [discriminate|intros _ _; apply warnings_events].
      + destruct (negb (p_compress p) && tty w); (apply ibind_hang; [apply showAll_not_hang|intros ws _; apply warnings_events]).
  Qed.

  (** ** Comparison *)
  Lemma diff_two p ds : docs_until e (config p) (text p) (getInputs p) ds None -> length ds <> 3%nat ->
    In (ECompare (map fst ds)) (fst (runDiff e w p)).
  Proof.
    assert (K : forall l ds x, docs_until e (config p) (text p) l ds x -> x = None -> forall acc ws,
      exists ws', readAll e w p l acc ws = ([], Val (inl (acc ++ map fst ds, ws')))).
    { induction 1 as [|i l N|i l t ws r x D H IH]; intros X acc ws0; cbn [readAll].
      - exists ws0. cbn [map]. rewrite app_nil_r. reflexivity.
      - discriminate.
      - destruct D as (r1 & s1 & Q1 & -> & ->). unfold Model.Main.readOneFile. rewrite Q1. cbn [ibind iret].
        destruct (IH X (acc ++ [(fst i, erase r1)]) (ws0 ++ map (fun x0 => (fst i, x0)) (warns s1))) as (ws' & E). rewrite E. cbn [app map fst].
        exists ws'. rewrite <- app_assoc. reflexivity. }
    intros H N. destruct (K _ _ _ H eq_refl [] []) as (ws' & E). unfold runDiff. rewrite E. cbn [ibind app]. rewrite map_length.
    apply Nat.eqb_neq in N. rewrite N. cbn [ibind emit]. destruct (displayWarnings ws') as [l o]. left. reflexivity.
  Qed.
End Proofs.

(** ** Names of temporary files *)
Lemma dec_nonneg_inj a b : 0 <= a -> 0 <= b -> dec_nonneg a = dec_nonneg b -> a = b.
Proof. intros A B E. rewrite <- (proj1 (proj2 (dec_nonneg_spec a A))), <- (proj1 (proj2 (dec_nonneg_spec b B))), E. reflexivity. Qed.
Lemma hash_nonneg s : 0 <= hashString s.
Proof. rewrite hash_big. apply Z.mod_pos_bound. reflexivity. Qed.
Lemma digits_dot a b x y : Forall dec_digit a -> Forall dec_digit b -> a ++ "."%char :: x = b ++ "."%char :: y -> a = b.
Proof.
  assert (D : ~ dec_digit ".") by (unfold dec_digit; cbn; lia).
  intros A. revert b. induction A as [|c a Hc A IH]; intros b B E.
  - destruct B as [|d b Hd B]; [reflexivity|]. injection E as <- _. contradiction.
  - destruct B as [|d b Hd B]; [injection E as -> _; contradiction|]. injection E as -> E. f_equal. apply IH; auto.
Qed.
Lemma tmp_inj a b i j : tmp_name a i = tmp_name b j -> hashString a = hashString b.
Proof.
  unfold tmp_name. intros E. apply app_inv_head in E. apply (digits_dot _ _ (dec_nonneg i ++ str ".tmp") (dec_nonneg j ++ str ".tmp")) in E.
  - apply dec_nonneg_inj; auto using hash_nonneg.
  - apply dec_nonneg_spec, hash_nonneg.
  - apply dec_nonneg_spec, hash_nonneg.
Qed.
Lemma tmp_distinct k a b i j : 1 <= k < 4 -> in_block k a -> in_block k b -> (length a <= 12)%nat -> (length b <= 12)%nat ->
  a <> b -> tmp_name a i <> tmp_name b j.
Proof. intros K A B La Lb N E. apply N. apply (hash_inj k); auto. eapply tmp_inj. exact E. Qed.

Lemma subst_fun files argv r r' : subst_args files argv r -> subst_args files argv r' -> r = r'.
Proof.
  intros H. revert r'. induction H as [|a r H IH|x a r N H IH]; intros r' H'.
  - inversion H'. reflexivity.
  - inversion H' as [|a' r0 H0|x a' r0 N H0]; subst; [|exfalso; apply N; reflexivity]. f_equal. apply IH. exact H0.
  - inversion H' as [|a' r0 H0|x' a' r0 N' H0]; subst; [exfalso; apply N; reflexivity|]. f_equal. apply IH. exact H0.
Qed.

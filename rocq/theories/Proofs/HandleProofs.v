(** Windows, screen and file of the comparison: invariant of its steps. *)
From Verif Require Import Spec.HandleSpec.
From Coq Require Import Lia Permutation.

Definition wins_of (p : ptr) : list nat := match p with Win k => [k] | _ => [] end.
Definition sub_wins (w : ptr * ptr) : list nat := wins_of (fst w) ++ wins_of (snd w).
Definition wins_in (h : held) : list nat := flat_map sub_wins (hsubs h) ++ wins_of (hbottom h).
Definition set_in (p : ptr) : Prop := p <> Unset.
Definition all_set (h : held) : Prop := (forall w, In w (hsubs h) -> set_in (fst w) /\ set_in (snd w)) /\ set_in (hbottom h).

(** The pointers lead to the windows that are there. *)
Definition holds (h : held) (s : alive) : Prop :=
  ascreen s = true /\ afile s = hfile h /\ NoDup (wins_in h) /\ (forall k, In k (awins s) <-> In k (wins_in h)) /\ (forall k, In k (aever s) -> k < hnext h) /\ (forall k, In k (wins_in h) -> k < hnext h).

Lemma goes_app s l s' l' s'' : goes s l s' -> goes s' l' s'' -> goes s (l ++ l') s''.
Proof. intros H. revert l' s''. induction H as [s|s c s1 l s2 M H IH]; intros m t G; [exact G|]. cbn. econstructor; [exact M|]. apply IH. exact G. Qed.
Lemma goes_prefix s l s' : goes s l s' -> forall k, exists s1, goes s (firstn k l) s1.
Proof.
  induction 1 as [s|s c s1 l s2 M H IH]; intros [|k]; cbn; try (eexists; constructor). destruct (IH k) as [t G]. exists t. econstructor; eassumption.
Qed.

(** * Calls that only use what is there *)
Definition uses (h : held) (c : call) : Prop :=
  match c with OnScreen | Refresh | ResizeTerm => True | OnFile => hfile h = true | OnWin k => In k (wins_in h) | _ => False end.
Lemma goes_uses h s l : holds h s -> Forall (uses h) l -> goes s l s.
Proof.
  intros I F. induction F as [|c l U F IH]; [constructor|]. econstructor; [|exact IH]. destruct I as (S1 & S2 & _ & W & _). destruct s as [w e sc f]. cbn in *. subst sc f.
  destruct c; cbn in U; try (exfalso; exact U); try constructor; [apply W; exact U|]. rewrite U. constructor.
Qed.
Lemma on_uses h p : set_in p -> incl (wins_of p) (wins_in h) -> Forall (uses h) (on p).
Proof. destruct p as [| |k]; intros N I; cbn; [destruct N; reflexivity|constructor|]. constructor; [|constructor]. apply I. left. reflexivity. Qed.
Lemma flat_uses {A} h (g : A -> list call) l : (forall x, In x l -> Forall (uses h) (g x)) -> Forall (uses h) (flat_map g l).
Proof. intros H. induction l as [|x l IH]; cbn; [constructor|]. apply Forall_app. split; [apply H; left; reflexivity|]. apply IH. intros y I. apply H. right. exact I. Qed.
Lemma sub_in h w : In w (hsubs h) -> incl (wins_of (fst w)) (wins_in h) /\ incl (wins_of (snd w)) (wins_in h).
Proof.
  intros I. split; intros k K; apply in_or_app; left; apply in_flat_map; exists w; (split; [exact I|]); apply in_or_app; [left|right]; exact K.
Qed.
Lemma sub_uses h w : all_set h -> In w (hsubs h) -> Forall (uses h) (on (fst w)) /\ Forall (uses h) (on (snd w)).
Proof. intros [A _] I. destruct (A w I) as [A1 A2], (sub_in h w I) as [I1 I2]. split; apply on_uses; assumption. Qed.
Lemma bottom_uses h : all_set h -> Forall (uses h) (on (hbottom h)).
Proof. intros [_ A]. apply on_uses; [exact A|]. intros k K. apply in_or_app. right. exact K. Qed.
Lemma first_uses h : all_set h -> Forall (uses h) (on (first_outer h)).
Proof. intros A. unfold first_outer. destruct (hsubs h) as [|w r] eqn:E; [constructor|]. apply (sub_uses h w A). rewrite E. left. reflexivity. Qed.
Lemma draw_uses h ws : all_set h -> Forall (uses h) (draw h ws).
Proof.
  intros A. unfold draw. rewrite !Forall_app. split; [|split]; apply flat_uses; intros x I.
  - destruct (sub_uses h x A I) as [U1 U2]. rewrite !Forall_app. auto.
  - unfold inner. destruct (nth_error (hsubs h) x) as [w|] eqn:E; [|constructor]. apply (sub_uses h w A). apply nth_error_In with x. exact E.
  - apply (sub_uses h x A I).
Qed.
Lemma acts1_uses h a : all_set h -> Forall (uses h) (acts1 h a).
Proof.
  intros A. assert (B := bottom_uses h A). assert (F := first_uses h A). assert (BB : Forall (uses h) (bottom h)) by (constructor; [exact Logic.I|exact B]).
  destruct a as [ws| |k| |ws]; cbn [acts1].
  - apply draw_uses, A.
  - exact F.
  - constructor; [exact Logic.I|]. rewrite !Forall_app. repeat split; auto. apply flat_uses. intros _ _. apply Forall_app. auto. constructor; [exact Logic.I|constructor].
  - exact BB.
  - apply Forall_app. split; [|apply draw_uses, A]. unfold resize. rewrite !Forall_app. repeat split; auto.
    + destruct (hfile h) eqn:E; repeat constructor. exact E.
    + repeat constructor.
    + apply flat_uses. intros w I. destruct (sub_uses h w A I) as [U1 U2]. rewrite !Forall_app. repeat split; auto.
Qed.
Lemma acts_uses h l : all_set h -> Forall (uses h) (acts h l).
Proof. intros A. apply flat_uses. intros a _. apply acts1_uses, A. Qed.

(** * Windows are made *)
Section Made.
  Variable made : nat -> bool.
  (** A window asked for, to be put where [hn] says. *)
  Lemma newwin_goes h s : holds h s -> exists s', goes s (newwin_call made (hnext h)) s' /\
    forall hn, hfile hn = hfile h -> hnext hn = S (hnext h) -> NoDup (wins_in hn) -> (forall k, In k (wins_in hn) <-> In k (wins_of (newwin made (hnext h))) \/ In k (wins_in h)) -> holds hn s'.
  Proof.
    intros (S1 & S2 & N & W & E & B). destruct s as [w e sc f]. cbn in *. subst sc f. unfold newwin_call, newwin. destruct (made (hnext h)); cbn [wins_of].
    - exists (mkAlive (hnext h :: w) (hnext h :: e) true (hfile h)). split.
      + econstructor; [constructor|]. econstructor; [|constructor]. constructor. intros K. apply E in K. lia.
      + intros hn F X ND Q. repeat split; cbn; auto; try congruence.
        * intros [<-|K]; apply Q; [left; left; reflexivity|right; apply W; exact K].
        * intros K. apply Q in K. destruct K as [[<-|[]]|K]; [left; reflexivity|right; apply W; exact K].
        * intros k [<-|K]; [lia|]. apply E in K. lia.
        * intros k K. apply Q in K. destruct K as [[<-|[]]|K]; [lia|]. apply B in K. lia.
    - exists (mkAlive w e true (hfile h)). split.
      + econstructor; [constructor|constructor].
      + intros hn F X ND Q. repeat split; cbn; auto; try congruence.
        * intros K. apply Q. right. apply W. exact K.
        * intros K. apply Q in K. destruct K as [[]|K]. apply W. exact K.
        * intros k K. apply E in K. lia.
        * intros k K. apply Q in K. destruct K as [[]|K]. apply B in K. lia.
  Qed.
  Lemma newwin_set k : set_in (newwin made k).
  Proof. unfold newwin, set_in. destruct (made k); discriminate. Qed.
  Lemma newwin_wins k x : In x (wins_of (newwin made k)) -> x = k.
  Proof. unfold newwin. destruct (made k); cbn; intuition. Qed.
  Lemma newwin_nodup k l r : (forall x, In x (l ++ r) -> x < k) -> NoDup (l ++ r) -> NoDup (l ++ wins_of (newwin made k) ++ r).
  Proof.
    intros N D. unfold newwin. destruct (made k); cbn; [|exact D]. apply (Permutation_NoDup (Permutation_middle l r k)). constructor; [|exact D].
    intros K. apply N in K. lia.
  Qed.

  Lemma open_one_goes h s : holds h s -> all_set h -> exists s', goes s (fst (open_one made h)) s' /\ holds (snd (open_one made h)) s' /\ all_set (snd (open_one made h)).
  Proof.
    intros I A. assert (I' := I). destruct I as (_ & _ & N & _ & _ & B). unfold open_one. cbn [fst snd].
    set (o := newwin made (hnext h)). set (i := newwin made (S (hnext h))).
    destruct (newwin_goes h s I') as (s1 & G1 & K1). fold o in K1.
    assert (E1 : forall p, wins_in (mkHeld (hsubs h ++ [(o, p)]) (hbottom h) (hfile h) (S (hnext h))) = flat_map sub_wins (hsubs h) ++ wins_of o ++ wins_of p ++ wins_of (hbottom h)).
    { intros p. unfold wins_in. cbn [hsubs hbottom]. rewrite flat_map_app. cbn [flat_map]. unfold sub_wins at 2. cbn [fst snd]. rewrite !app_nil_r, <- !app_assoc. reflexivity. }
    pose (h1 := mkHeld (hsubs h ++ [(o, Null)]) (hbottom h) (hfile h) (S (hnext h))).
    assert (H1 : holds h1 s1).
    { apply K1; [reflexivity|reflexivity| |]; unfold h1; rewrite E1; cbn [wins_of app].
      - apply newwin_nodup; assumption.
      - intros k. unfold wins_in. rewrite !in_app_iff. tauto. }
    assert (B1 := H1). destruct B1 as (_ & _ & N1 & _ & _ & B1).
    destruct (newwin_goes h1 s1 H1) as (s2 & G2 & K2). cbn [hnext h1] in G2, K2. fold i in K2.
    pose (h2 := mkHeld (hsubs h ++ [(o, i)]) (hbottom h) (hfile h) (S (S (hnext h)))).
    assert (E2 : wins_in h2 = flat_map sub_wins (hsubs h) ++ wins_of o ++ wins_of i ++ wins_of (hbottom h)) by (rewrite <- (E1 i); reflexivity).
    assert (H2 : holds h2 s2).
    { apply K2; [reflexivity|reflexivity| |]; rewrite E2; unfold h1 in *; rewrite E1 in *; cbn [wins_of app hnext] in *.
      - rewrite app_assoc. apply newwin_nodup; rewrite <- app_assoc; assumption.
      - intros k. rewrite !in_app_iff. tauto. }
    assert (A2 : all_set h2).
    { destruct A as [A1 A2]. split; [|exact A2]. intros w K. apply in_app_iff in K. destruct K as [K|[<-|[]]]; [apply A1, K|]. split; apply newwin_set. }
    exists s2. split; [|split; [exact H2|exact A2]].
    apply (goes_app s _ s1); [exact G1|]. apply (goes_app s1 _ s2); [exact G2|]. apply (goes_uses h2 s2 _ H2).
    destruct (sub_uses h2 (o, i) A2) as [U _]; [apply in_or_app; right; left; reflexivity|]. rewrite !Forall_app. auto.
  Qed.
  Lemma open_all_goes n : forall h s, holds h s -> all_set h -> exists s', goes s (fst (open_all made n h)) s' /\ holds (snd (open_all made n h)) s' /\ all_set (snd (open_all made n h)).
  Proof.
    induction n as [|n IH]; intros h s I A; cbn [open_all].
    - exists s. split; [constructor|]. split; assumption.
    - destruct (open_one_goes h s I A) as (s1 & G & I1 & A1). destruct (open_one made h) as [l h1]. cbn [fst snd] in *.
      destruct (IH h1 s1 I1 A1) as (s2 & G2 & I2 & A2). destruct (open_all made n h1) as [l' h2]. cbn [fst snd] in *.
      exists s2. split; [apply (goes_app s l s1 l' s2 G G2)|]. split; assumption.
  Qed.
  Lemma opened_goes tty n : exists s, goes nothing (fst (opened made tty n)) s /\ holds (snd (opened made tty n)) s /\ all_set (snd (opened made tty n)).
  Proof.
    unfold opened, constructor, open_run, destroyAllSubWin. cbn [hsubs hbottom hfile hnext flat_map map app pred].
    pose (h0 := mkHeld [] Null tty 0). assert (I0 : holds h0 (mkAlive [] [] true tty)) by (repeat split; cbn; try tauto; constructor).
    destruct (newwin_goes h0 _ I0) as (s1 & G1 & K1). cbn [hnext h0] in G1, K1.
    assert (H1 : holds (mkHeld [] (newwin made 0) tty 1) s1).
    { apply K1; [reflexivity|reflexivity| |]; unfold wins_in; cbn [hsubs hbottom flat_map app].
      - rewrite <- (app_nil_r (wins_of _)). apply (newwin_nodup 0 [] []); [intros x []|constructor].
      - cbn. tauto. }
    assert (A1 : all_set (mkHeld [] (newwin made 0) tty 1)) by (split; [intros w []|apply newwin_set]).
    destruct (open_all_goes n _ s1 H1 A1) as (s2 & G2 & I2 & A2). destruct (open_all made n _) as [l' h2]. cbn [fst snd] in *.
    exists s2. split; [|split; assumption].
    assert (G0 : goes nothing ((if tty then [Fopen; OnFile; OnFile] else []) ++ [Newterm; OnScreen]) (mkAlive [] [] true tty)).
    { unfold nothing. destruct tty; cbn; repeat (econstructor; [constructor|]); constructor. }
    apply (goes_app _ _ _ _ _ G0). econstructor; [constructor|]. exact (goes_app _ _ _ _ _ G1 G2).
  Qed.
End Made.

(** * Windows are deleted *)
Lemma del_goes h hn s p : holds h s -> set_in p -> hfile hn = hfile h -> hnext hn = hnext h -> Permutation (wins_in h) (wins_of p ++ wins_in hn) -> exists s', goes s (del p) s' /\ holds hn s'.
Proof.
  intros (S1 & S2 & N & W & E & B) P F X Q. assert (N' := Permutation_NoDup Q N). destruct s as [w e sc f]. cbn in *. subst sc f.
  destruct p as [| |k]; cbn [del wins_of app] in *; [destruct P; reflexivity| |].
  - exists (mkAlive w e true (hfile h)). split; [constructor|]. repeat split; cbn; auto.
    + intros K. apply (Permutation_in _ Q), W, K.
    + intros K. apply W, (Permutation_in _ (Permutation_sym Q)), K.
    + rewrite X. exact E.
    + intros k K. rewrite X. apply B, (Permutation_in _ (Permutation_sym Q)), K.
  - apply NoDup_cons_iff in N'. destruct N' as [N1 N2].
    exists (mkAlive (wins_in hn) e true (hfile h)). split.
    + econstructor; [|constructor]. constructor.
      * apply W, (Permutation_in _ (Permutation_sym Q)). left. reflexivity.
      * intros x. split.
        -- intros K. split; [apply W, (Permutation_in _ (Permutation_sym Q)); right; exact K|]. intros ->. exact (N1 K).
        -- intros [K D]. apply W in K. apply (Permutation_in _ Q) in K. destruct K as [K|K]; [destruct D; symmetry; exact K|exact K].
    + repeat split; cbn; auto.
      * rewrite X. exact E.
      * intros x K. rewrite X. apply B, (Permutation_in _ (Permutation_sym Q)). right. exact K.
Qed.
Lemma destroy_list l b f n : forall s, holds (mkHeld l b f n) s -> all_set (mkHeld l b f n) ->
  exists s', goes s (flat_map (fun w => on (fst w) ++ on (fst w) ++ del (fst w) ++ del (snd w)) l) s' /\ holds (mkHeld [] b f n) s'.
Proof.
  induction l as [|[o i] l IH]; intros s H A; [exists s; split; [constructor|exact H]|]. cbn [flat_map fst snd].
  destruct (proj1 A (o, i) (or_introl eq_refl)) as [A1 A2]. cbn [fst snd] in A1, A2.
  destruct (sub_uses _ (o, i) A (or_introl eq_refl)) as [U _]. cbn [fst] in U. assert (G0 := goes_uses _ s _ H U).
  destruct (del_goes _ (mkHeld ((Null, i) :: l) b f n) s o H A1 eq_refl eq_refl) as (s1 & G1 & H1).
  { unfold wins_in, sub_wins. cbn [hsubs hbottom flat_map fst snd wins_of app]. rewrite <- !app_assoc. reflexivity. }
  destruct (del_goes _ (mkHeld l b f n) s1 i H1 A2 eq_refl eq_refl) as (s2 & G2 & H2).
  { unfold wins_in, sub_wins. cbn [hsubs hbottom flat_map fst snd wins_of app]. rewrite <- !app_assoc. reflexivity. }
  destruct (IH s2 H2) as (s3 & G3 & H3). { destruct A as [A3 A4]. split; [|exact A4]. intros w K. apply A3. right. exact K. }
  exists s3. split; [|exact H3]. apply (goes_app _ _ s2); [|exact G3]. apply (goes_app _ _ s); [exact G0|]. apply (goes_app _ _ s); [exact G0|]. exact (goes_app _ _ _ _ _ G1 G2).
Qed.
Lemma nulls_wins (l : list (ptr * ptr)) : flat_map sub_wins (map (fun _ => (Null, Null)) l) = [].
Proof. induction l as [|x l IH]; [reflexivity|exact IH]. Qed.
Lemma destroy_goes h s : holds h s -> all_set h -> exists s', goes s (fst (destroyAllSubWin h)) s' /\ holds (snd (destroyAllSubWin h)) s' /\ all_set (snd (destroyAllSubWin h)).
Proof.
  intros I A. destruct h as [l b f n]. destruct (destroy_list l b f n s I A) as (s' & G & H). exists s'. unfold destroyAllSubWin. cbn [fst snd hsubs hbottom hfile hnext].
  split; [exact G|]. split.
  - unfold holds, wins_in in *. cbn [hsubs hbottom hfile hnext] in *. rewrite nulls_wins. exact H.
  - split; [|apply A]. cbn [hsubs]. intros w K. apply in_map_iff in K. destruct K as (x & <- & _). split; discriminate.
Qed.
(** The rest of shutdown(), once the windows of the documents are gone. *)
Lemma rest_goes h s : holds h s -> all_set h -> flat_map sub_wins (hsubs h) = [] -> exists e, goes s (fst (statements (seq 1 4) h) ++ [ResizeTerm]) (mkAlive [] e false false).
Proof.
  intros I A Z. destruct (del_goes h (mkHeld [] Null (hfile h) (hnext h)) s (hbottom h) I (proj2 A) eq_refl eq_refl) as (s1 & G1 & S1 & S2 & _ & W & _).
  { unfold wins_in. cbn [hsubs hbottom flat_map wins_of app]. rewrite Z. cbn. rewrite app_nil_r. reflexivity. }
  destruct s1 as [w e sc f]. cbn in S1, S2, W. subst sc f. destruct w as [|k w]; [|destruct (proj1 (W k)); left; reflexivity].
  exists e. cbn [seq statements statement fst]. rewrite <- !app_assoc. apply (goes_app _ _ _ _ _ G1). cbn [app]. econstructor; [constructor|]. econstructor; [constructor|].
  destruct (hfile h); cbn [app]; repeat (econstructor; [constructor|]); constructor.
Qed.
Lemma destroyed_none h : flat_map sub_wins (hsubs (snd (destroyAllSubWin h))) = [].
Proof. apply nulls_wins. Qed.

Lemma destructor_goes h s : holds h s -> all_set h -> exists e, goes s (destructor h) (mkAlive [] e false false).
Proof.
  intros I A. destruct (destroy_goes h s I A) as (s1 & G1 & H1 & A1). destruct (rest_goes _ s1 H1 A1 (destroyed_none h)) as [e G2]. exists e.
  unfold destructor. change (seq 0 5) with (0 :: seq 1 4). cbn [statements]. unfold statement at 1.
  destruct (destroyAllSubWin h) as [l h1]. cbn [fst snd] in *. destruct (statements (seq 1 4) h1) as [l' h2]. cbn [fst] in *. rewrite <- app_assoc. exact (goes_app _ _ _ _ _ G1 G2).
Qed.
Lemma destructor_signal_goes j ws h s : j <= 1 -> holds h s -> all_set h -> exists e, goes s (destructor_signal j ws h) (mkAlive [] e false false).
Proof.
  intros J I A. unfold destructor_signal. destruct j as [|[|j]]; [| |lia].
  - change (statements (seq 0 0) h) with (@nil call, h). cbv iota beta. change (5 - 0) with 5. destruct (destructor_goes h s I A) as [e G]. exists e. cbn [app].
    apply (goes_app _ _ s); [|exact G]. apply (goes_uses h s _ I), acts1_uses, A.
  - destruct (destroy_goes h s I A) as (s1 & G1 & H1 & A1). destruct (rest_goes _ s1 H1 A1 (destroyed_none h)) as [e G2]. exists e.
    change (seq 0 1) with [0]. change (5 - 1) with 4. cbn [statements]. unfold statement at 1. destruct (destroyAllSubWin h) as [l h1]. cbn [fst snd] in *. rewrite app_nil_r.
    apply (goes_app _ _ _ _ _ G1). apply (goes_app _ _ s1); [|exact G2]. apply (goes_uses h1 s1 _ H1), acts1_uses, A1.
Qed.

Lemma comparison_back made tty n l : given_back (comparison made tty n l).
Proof.
  destruct (opened_goes made tty n) as (s & G & I & A). unfold comparison. destruct (opened made tty n) as [c h]. cbn [fst snd] in *.
  destruct (destructor_goes h s I A) as [e D]. exists e. apply (goes_app _ _ _ _ _ G). apply (goes_app _ _ s); [|exact D]. apply (goes_uses h s _ I), acts_uses, A.
Qed.
Lemma comparison_signal_back made tty n l j ws : j <= 1 -> given_back (comparison_signal made tty n l j ws).
Proof.
  intros J. destruct (opened_goes made tty n) as (s & G & I & A). unfold comparison_signal. destruct (opened made tty n) as [c h]. cbn [fst snd] in *.
  destruct (destructor_signal_goes j ws h s J I A) as [e D]. exists e. apply (goes_app _ _ _ _ _ G). apply (goes_app _ _ s); [|exact D]. apply (goes_uses h s _ I), acts_uses, A.
Qed.
Lemma back_orderly l k : given_back l -> orderly (firstn k l).
Proof. intros [e G]. destruct (goes_prefix _ _ _ G k) as [s1 G1]. exists s1. exact G1. Qed.

(** * A window that is deleted stays so *)
Lemma may_ever s c s' : may s c s' -> incl (awins s) (aever s) -> incl (awins s') (aever s').
Proof.
  intros M I. inversion M; subst; cbn in *; try assumption.
  - intros x [<-|K]; [left; reflexivity|right; apply I, K].
  - intros x K. apply I. apply H0 in K. apply K.
Qed.
Lemma goes_ever s l s' : goes s l s' -> incl (awins s) (aever s) -> incl (awins s') (aever s').
Proof. induction 1 as [s|s c s1 l s2 M H IH]; intros I; [exact I|]. apply IH, (may_ever _ _ _ M I). Qed.
Lemma may_gone k s c s' : may s c s' -> In k (aever s) /\ ~ In k (awins s) -> In k (aever s') /\ ~ In k (awins s').
Proof.
  intros M [I N]. inversion M; subst; cbn in *; auto.
  - split; [right; exact I|]. intros [->|K]; contradiction.
  - split; [exact I|]. intros K. apply H0 in K. apply N, K.
Qed.
Lemma goes_gone k s l s' : goes s l s' -> In k (aever s) /\ ~ In k (awins s) -> In k (aever s') /\ ~ In k (awins s').
Proof. induction 1 as [s|s c s1 l s2 M H IH]; intros I; [exact I|]. apply IH, (may_gone _ _ _ _ M I). Qed.
Lemma goes_inv s l l' s' : goes s (l ++ l') s' -> exists s1, goes s l s1 /\ goes s1 l' s'.
Proof.
  revert s. induction l as [|c l IH]; intros s G; [exists s; split; [constructor|exact G]|]. cbn in G. inversion G as [|s0 c0 s1 l0 s2 M H]; subst.
  destruct (IH s1 H) as (s2 & G1 & G2). exists s2. split; [econstructor; eassumption|exact G2].
Qed.
Lemma deleted_used x k y z : ~ orderly (x ++ Delwin k :: y ++ OnWin k :: z).
Proof.
  intros [s G]. apply goes_inv in G. destruct G as (s1 & G1 & G2). inversion G2 as [|s0 c0 s2 l0 s3 M H]; subst. apply goes_inv in H. destruct H as (s3 & G3 & G4).
  inversion G4 as [|s0 c0 s4 l0 s5 M' H]; subst. assert (E : incl (awins s1) (aever s1)) by (apply (goes_ever _ _ _ G1); intros q []).
  assert (D : In k (aever s2) /\ ~ In k (awins s2)).
  { inversion M; subst; cbn in *. split; [apply E; assumption|]. intros K. apply H3 in K. destruct K as [_ K]. apply K. reflexivity. }
  apply (goes_gone _ _ _ _ G3) in D. inversion M'; subst; cbn in D. tauto.
Qed.
Lemma open_all_bottom made n : forall h, hbottom (snd (open_all made n h)) = hbottom h.
Proof.
  induction n as [|n IH]; intros h; [reflexivity|]. cbn [open_all]. unfold open_one. specialize (IH (mkHeld (hsubs h ++ [(newwin made (hnext h), newwin made (S (hnext h)))]) (hbottom h) (hfile h) (S (S (hnext h))))).
  destruct (open_all made n _) as [l' h']. exact IH.
Qed.
Lemma opened_bottom made tty n : hbottom (snd (opened made tty n)) = newwin made 0.
Proof.
  unfold opened, constructor, open_run, destroyAllSubWin. cbn [hsubs hbottom hfile hnext flat_map map app]. assert (B := open_all_bottom made n (mkHeld [] (newwin made 0) tty 1)).
  destruct (open_all made n _) as [l' h']. exact B.
Qed.
Lemma statement_bottom j h : hbottom (snd (statement j h)) = hbottom h.
Proof. destruct j as [|[|[|[|j]]]]; reflexivity. Qed.
Lemma statements_bottom js : forall h, hbottom (snd (statements js h)) = hbottom h.
Proof.
  induction js as [|j js IH]; intros h; [reflexivity|]. cbn [statements]. assert (B := statement_bottom j h). destruct (statement j h) as [l h1]. cbn [snd] in B.
  specialize (IH h1). destruct (statements js h1) as [l' h2]. cbn [snd] in *. congruence.
Qed.
Lemma comparison_signal_late made tty n l j ws : made 0 = true -> 2 <= j <= 5 -> ~ orderly (comparison_signal made tty n l j ws).
Proof.
  intros M J. unfold comparison_signal. assert (B := opened_bottom made tty n). destruct (opened made tty n) as [c h]. cbn [snd] in B. unfold newwin in B. rewrite M in B.
  unfold destructor_signal. assert (B2 := statements_bottom (seq 0 j) h). rewrite B in B2.
  assert (E : exists x y, fst (statements (seq 0 j) h) = x ++ Delwin 0 :: y).
  { destruct j as [|[|j]]; try lia. change (seq 0 (S (S j))) with (0 :: 1 :: seq 2 j). cbn [statements]. unfold statement at 1.
    assert (B3 : hbottom (snd (destroyAllSubWin h)) = Win 0) by exact B. destruct (destroyAllSubWin h) as [x h1]. cbn [snd] in B3. unfold statement at 1. rewrite B3. cbn [del].
    destruct (statements (seq 2 j) h1) as [y h2]. exists x, y. reflexivity. }
  destruct E as (x & y & E). destruct (statements (seq 0 j) h) as [c1 h1]. cbn [fst snd] in E, B2. subst c1.
  cbn [acts1]. unfold resize. rewrite B2. cbn [on]. intros O. eapply (deleted_used (c ++ acts h l ++ x) 0 (y ++ (if hfile h1 then [OnFile] else []) ++ [ResizeTerm; OnScreen])).
  repeat (rewrite <- app_assoc in O; cbn [app] in O). repeat (rewrite <- app_assoc; cbn [app]). exact O.
Qed.
(** resize_term in the destructor *)
Lemma comparison_screenless made tty n l : exists c s, comparison made tty n l = c ++ [ResizeTerm] /\ goes nothing c s /\ ascreen s = false.
Proof.
  destruct (comparison_back made tty n l) as [e G]. assert (E : exists c, comparison made tty n l = c ++ [ResizeTerm]).
  { unfold comparison, destructor. destruct (opened made tty n) as [c h]. exists (c ++ acts h l ++ fst (statements (seq 0 5) h)). rewrite <- !app_assoc. reflexivity. }
  destruct E as [c E]. rewrite E in *. destruct (goes_inv _ _ _ _ G) as (s & G1 & G2). exists c, s. split; [reflexivity|]. split; [exact G1|].
  inversion G2 as [|s0 c0 s1 l0 s2 M H]; subst. inversion H; subst. inversion M; subst. reflexivity.
Qed.
Lemma viewer1_goes tty a : goes (mkAlive [] [] true tty) (viewer1 tty a) (mkAlive [] [] true tty).
Proof.
  destruct a as [ws| |k| |ws]; try (destruct tty; cbn; repeat (econstructor; [constructor|]); constructor). cbn [viewer1]. econstructor; [constructor|].
  apply (goes_app _ _ (mkAlive [] [] true tty)); [|repeat (econstructor; [constructor|]); constructor].
  induction (seq 0 k) as [|x r IH]; [constructor|]. cbn [flat_map app]. repeat (econstructor; [constructor|]). exact IH.
Qed.
Lemma viewer_shows_goes tty l : goes nothing (viewer_shows tty l) (mkAlive [] [] true tty).
Proof.
  unfold viewer_shows, constructor. cbn [fst]. apply (goes_app _ _ (mkAlive [] [] true tty)).
  { unfold nothing. destruct tty; cbn; repeat (econstructor; [constructor|]); constructor. }
  induction l as [|a l IH]; [constructor|]. cbn [flat_map]. apply (goes_app _ _ (mkAlive [] [] true tty)); [apply viewer1_goes|exact IH].
Qed.
Lemma viewer_back tty l : given_back (viewer tty l).
Proof. exists []. apply (goes_app _ _ _ _ _ (viewer_shows_goes tty l)). destruct tty; cbn; repeat (econstructor; [constructor|]); constructor. Qed.

(** * The mode of the terminal *)
Lemma not_visual a c : ~ visual (a ++ Endwin :: Delscreen :: c).
Proof.
  intros (x & y & E & _ & D & N). apply app_eq_app in E. destruct E as [l [[-> E]|[-> E]]].
  - destruct l as [|c1 l]; [injection E; intros; subst; apply N; left; discriminate|]. cbn in E. injection E as <- E. apply N. rewrite E. apply in_or_app. right. left. reflexivity.
  - destruct l as [|c1 [|c2 l]]; [discriminate E|discriminate E|]. injection E as <- <- _. apply D, in_or_app. right. right. left. reflexivity.
Qed.
Lemma viewer_mode tty l : ~ visual (viewer tty l).
Proof. apply not_visual. Qed.
Lemma viewer_signal_mode tty l j : j <> 1 -> j <= 3 -> ~ visual (viewer_signal tty l j).
Proof.
  intros N J. unfold viewer_signal. destruct j as [|[|[|[|j]]]]; try lia; cbn [viewer_shutdown firstn skipn concat app].
  - rewrite app_assoc. apply not_visual.
  - apply not_visual.
  - rewrite <- app_assoc. apply not_visual.
Qed.
Lemma shows_no_delscreen tty l : ~ In Delscreen (viewer_shows tty l).
Proof.
  unfold viewer_shows, constructor. cbn [fst]. rewrite in_app_iff. intros [I|I].
  - destruct tty; cbn in I; intuition discriminate.
  - apply in_flat_map in I. destruct I as (a & _ & I). destruct a as [ws| |k| |ws]; cbn [viewer1] in I; try (destruct tty; cbn in I; intuition discriminate).
    destruct I as [I|I]; [discriminate I|]. apply in_app_iff in I. destruct I as [I|[I|[]]]; [|discriminate I]. apply in_flat_map in I. destruct I as (x & _ & I). cbn in I. intuition discriminate.
Qed.
Lemma viewer_signal_visual tty l : visual (viewer_signal tty l 1).
Proof.
  exists (viewer_shows tty l ++ Endwin :: (if tty then [OnFile] else []) ++ [ResizeTerm; OnScreen]), (Delscreen :: (if tty then [Fclose] else []) ++ [ResizeTerm]).
  split; [|split; [|split]].
  - unfold viewer_signal. rewrite <- app_assoc. f_equal. destruct tty; reflexivity.
  - apply in_or_app. left. unfold viewer_shows, constructor. cbn [fst]. apply in_or_app. left. apply in_or_app. right. left. reflexivity.
  - rewrite in_app_iff. intros [I|I]; [exact (shows_no_delscreen tty l I)|]. destruct tty; cbn in I; intuition discriminate.
  - destruct tty; cbn; intuition discriminate.
Qed.
Lemma not_visual_window a c : ~ visual_window (a ++ Endwin :: Delscreen :: c).
Proof.
  intros (x & k & y & E & D & N). apply app_eq_app in E. destruct E as [l [[-> E]|[-> E]]].
  - destruct l as [|c1 l]; [discriminate E|]. cbn in E. injection E as <- E. apply N. rewrite E. apply in_or_app. right. left. reflexivity.
  - destruct l as [|c1 [|c2 l]]; [discriminate E|discriminate E|]. injection E as <- <- _. apply D, in_or_app. right. right. left. reflexivity.
Qed.
Lemma shutdown_ends h : exists a c, fst (statements (seq 0 5) h) = a ++ Endwin :: Delscreen :: c.
Proof.
  exists (fst (statements [0; 1] h)). cbn [seq statements statement fst snd]. destruct (destroyAllSubWin h) as [l h1]. cbn [fst snd statements statement]. eexists. rewrite <- !app_assoc. cbn [app]. reflexivity.
Qed.
Lemma comparison_mode made tty n l : ~ visual_window (comparison made tty n l).
Proof.
  unfold comparison, destructor. destruct (opened made tty n) as [c h]. destruct (shutdown_ends h) as (a & d & ->). rewrite <- !app_assoc. cbn [app].
  rewrite (app_assoc (acts h l)), app_assoc. apply not_visual_window.
Qed.
Lemma rest_ends j h : j <= 2 -> exists a c, fst (statements (seq j (5 - j)) h) = a ++ Endwin :: Delscreen :: c.
Proof.
  intros J. destruct j as [|[|[|j]]]; try lia.
  - apply shutdown_ends.
  - exists (del (hbottom h)). eexists. cbn. reflexivity.
  - exists []. eexists. cbn. reflexivity.
Qed.
Lemma comparison_signal_mode made tty n l j ws : j <= 2 -> ~ visual_window (comparison_signal made tty n l j ws).
Proof.
  intros J. unfold comparison_signal, destructor_signal. destruct (opened made tty n) as [c h]. destruct (statements (seq 0 j) h) as [c1 h1]. destruct (rest_ends j h1 J) as (a & d & ->).
  rewrite <- (app_assoc a). cbn [app]. rewrite (app_assoc _ a), (app_assoc c1), (app_assoc (acts h l)), app_assoc. apply not_visual_window.
Qed.

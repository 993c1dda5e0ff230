(** Lives of streams (Model/Life.v). *)
From Coq Require Import Lia Sorting.Permutation.
From Verif Require Export Spec.LifeSpec Proofs.SessionProofs.
Open Scope Z_scope.
Open Scope lio_scope.

(** * Nothing else changes *)
Lemma lbind_fst {A B} (m : lio A) (k : A -> lio B) :
  fst (lbind m k) = fst m ++ match snd m with Val a => fst (k a) | _ => [] end.
Proof. destruct m as [l [a|d|]]; cbn; try now rewrite app_nil_r. now destruct (k a). Qed.
Lemma lbind_snd {A B} (m : lio A) (k : A -> lio B) :
  snd (lbind m k) = match snd m with Val a => snd (k a) | Die d => Die d | Hang => Hang end.
Proof. destruct m as [l [a|d|]]; cbn; try reflexivity. now destruct (k a). Qed.

Lemma session_app a b : session_of (a ++ b) = session_of a ++ session_of b.
Proof. apply flat_map_app. Qed.
Lemma session_tells l : session_of (map Tell l) = l.
Proof. induction l as [|x l IH]; cbn; [reflexivity|]. f_equal. exact IH. Qed.

(** [m] is [t] with other events in between. *)
Definition same {A} (m : lio A) (t : tio A) : Prop := session_of (fst m) = fst t /\ snd m = snd t.

Lemma same_tells {A} (t : tio A) : same (tells t) t.
Proof. split; [apply session_tells|reflexivity]. Qed.
Lemma same_ret {A} (a : A) : same (lret a) (tret a).
Proof. split; reflexivity. Qed.
Lemma same_bind {A B} (m : lio A) (t : tio A) (k : A -> lio B) (k' : A -> tio B) :
  same m t -> (forall a, same (k a) (k' a)) -> same (lbind m k) (tbind t k').
Proof.
  intros [H1 H2] K. split.
  - rewrite lbind_fst, tbind_fst, session_app, H1, H2. f_equal. destruct (snd t); auto. apply K.
  - rewrite lbind_snd, tbind_snd, H2. destruct (snd t); auto. apply K.
Qed.
Lemma same_skip {A} l (m : lio A) (t : tio A) : session_of l = [] -> same m t -> same (lemit l -;; m) t.
Proof.
  intros E [H1 H2]. split.
  - rewrite lbind_fst, session_app. cbn [lemit fst snd]. rewrite E. exact H1.
  - rewrite lbind_snd. exact H2.
Qed.
Lemma same_eq {A} (m : lio A) (t t' : tio A) : same m t -> t = t' -> same m t'.
Proof. now intros H <-. Qed.
Lemma same_one {A} x (m : lio A) (t : tio A) : same m t -> same (lemit [Tell x] -;; m) (tbind (temit x) (fun _ => t)).
Proof. intros H. apply same_bind; [split; reflexivity|]. auto. Qed.

Lemma lift_bind {A B} (m : io A) (k : A -> io B) : lift (ibind m k) = tbind (lift m) (fun a => lift (k a)).
Proof. destruct m as [l [a|d|]]; cbn; [|reflexivity|reflexivity]. unfold lift. cbn [fst snd]. destruct (k a) as [l' o]. cbn. now rewrite map_app. Qed.

Lemma session_deletes ks : session_of (map Delete ks) = [].
Proof. induction ks; auto. Qed.

Section S.
  Variables (e : env) (w : world) (sits : list (bytes * tree) -> outcome unit) (order : list nat -> list nat).

  Lemma same_read p k i : same (readOne_life e w p k i) (lift (readOneFile e w p i)).
  Proof. apply same_skip; [reflexivity|]. apply same_tells. Qed.

  Lemma same_prettify p : forall inputs k names ws,
    same (prettify_life e w p k inputs names ws) (lift (prettify e w p inputs names ws)).
  Proof.
    induction inputs as [|i r IH]; intros k names ws; [apply same_ret|]. cbn [prettify_life prettify].
    eapply same_eq; [|symmetry; apply lift_bind]. apply same_bind; [apply same_read|]. intros [[root ws']|]; [|apply same_ret].
    eapply same_eq; [|symmetry; apply lift_bind]. apply same_bind; [apply same_tells|]. intros fname.
    apply same_skip; [reflexivity|]. eapply same_eq; [|symmetry; apply lift_bind]. apply same_bind; [apply same_tells|]. intros _.
    apply same_skip; [reflexivity|]. apply IH.
  Qed.

  Lemma same_external p d : same (external_life e w p d) (lift (runExternalDiff e w p d)).
  Proof.
    unfold external_life, runExternalDiff. eapply same_eq; [|symmetry; apply lift_bind]. apply same_bind; [apply same_prettify|].
    intros [[names ws]|names]; apply same_tells.
  Qed.

  Lemma same_readAll p : forall inputs k docs ws,
    same (readAll_life e w order p k inputs docs ws) (lift (readAll e w p inputs docs ws)).
  Proof.
    induction inputs as [|i r IH]; intros k docs ws; [apply same_ret|]. cbn [readAll_life readAll].
    eapply same_eq; [|symmetry; apply lift_bind]. apply same_bind; [apply same_read|]. intros [[root ws']|]; [apply IH|].
    apply same_skip; [apply session_deletes|apply same_ret].
  Qed.

  Lemma same_diff p : same (diff_life e w sits order p) (diff_session e w sits p).
  Proof.
    unfold diff_life, diff_session. apply same_bind; [apply same_readAll|]. intros [[docs ws]|[]]; [|apply same_ret].
    cbv zeta. apply same_bind; [split; reflexivity|]. intros _. apply same_bind.
    - destruct (length docs =? 3)%nat; [split; reflexivity|]. apply same_skip; [reflexivity|apply same_tells].
    - intros _. apply same_one. apply same_skip; [apply session_deletes|apply same_tells].
  Qed.

  Lemma same_writeAll p : forall inputs k ws,
    same (writeAll_life e w p k inputs ws) (lift (showAll e w (fun _ t => EOut (display (p_compress p) t)) p inputs ws)).
  Proof.
    induction inputs as [|i r IH]; intros k ws; [apply same_ret|]. cbn [writeAll_life showAll].
    eapply same_eq; [|symmetry; apply lift_bind]. apply same_bind; [apply same_read|]. intros [[root ws']|]; [|apply same_ret].
    eapply same_eq; [|symmetry; apply lift_bind]. apply same_bind; [split; reflexivity|]. intros _. apply IH.
  Qed.

  Lemma same_stdout p : same (stdout_life e w p) (lift (runStdout e w p)).
  Proof.
    unfold stdout_life, runStdout. eapply same_eq; [|symmetry; apply lift_bind]. apply same_bind; [apply same_writeAll|]. intros; apply same_tells.
  Qed.

  Lemma same_viewAll p : forall inputs k ws, same (viewAll_life e w sits p k inputs ws) (viewAll e w sits p inputs ws).
  Proof.
    induction inputs as [|i r IH]; intros k ws; [apply same_ret|]. cbn [viewAll_life viewAll].
    apply same_bind; [apply same_read|]. intros [[root ws']|]; [|apply same_ret].
    apply same_skip; [reflexivity|]. apply same_bind; [apply same_tells|]. intros _. apply same_skip; [reflexivity|]. apply IH.
  Qed.

  Lemma same_run p : same (run_life e w sits p) (run_session e w sits p).
  Proof.
    apply same_one. apply same_bind; [apply same_viewAll|]. intros ws. apply same_one, same_tells.
  Qed.

  Lemma same_main opens args : same (main_life e w sits order opens args) (main_session e w sits opens args).
  Proof.
    unfold main_life, main_session. destruct (Params_read opens args) as [p| |]; try apply same_ret.
    apply same_bind; [|intros; apply same_ret].
    destruct (p_cmd p); [apply same_external|]. destruct (p_diff p); [apply same_diff|].
    destruct (negb (p_compress p) && tty w); [apply same_run|apply same_stdout].
  Qed.
End S.

(** * An automaton for the lives of streams *)
Inductive place : Type := Before | Bare | Took (ks : list nat) | Shows (ks : list nat) | Gone (k : nat) | After.
Record lives : Type := mkLives { made_ : nat; alive : list nat; at_place : place }.
Definition rm (k : nat) (l : list nat) : list nat := filter (fun x => negb (Nat.eqb x k)) l.

Definition idle (q : place) : Prop := match q with Before | Bare | Gone _ => True | _ => False end.
Definition free (q : place) : Prop := match q with Bare | Gone _ => True | _ => False end.
Definition shut (q : place) : Prop := match q with Before | After => True | _ => False end.

Inductive go : lives -> levent -> lives -> Prop :=
| G_new n al q : idle q -> go (mkLives n al q) (New n) (mkLives (S n) (n :: al) q)
| G_use0 n al ks : incl ks al -> go (mkLives n al Before) (Use ks) (mkLives n al Before)
| G_use n al q ks : free q -> incl ks al -> go (mkLives n al q) (Use ks) (mkLives n al (Took ks))
| G_ready n al ks : go (mkLives n al (Took ks)) Ready (mkLives n al (Shows ks))
| G_open n al : go (mkLives n al Before) (Tell Opened) (mkLives n al Bare)
| G_close n al q : ~ shut q -> go (mkLives n al q) (Tell Closed) (mkLives n al After)
| G_shown n al ks ev : interactive ev -> go (mkLives n al (Shows ks)) (Tell (Did ev)) (mkLives n al (Shows ks))
| G_told n al q ev : ~ interactive ev -> free q \/ shut q -> go (mkLives n al q) (Tell (Did ev)) (mkLives n al q)
| G_gone n al k : In k al -> go (mkLives n al (Shows [k])) (Delete k) (mkLives n (rm k al) (Gone k))
| G_del n al q k : In k al -> shut q -> go (mkLives n al q) (Delete k) (mkLives n (rm k al) q).

Inductive gos : lives -> list levent -> lives -> Prop :=
| GS_nil s : gos s [] s
| GS_cons s x s1 l s2 : go s x s1 -> gos s1 l s2 -> gos s (x :: l) s2.

Lemma gos_app s a s1 b s2 : gos s a s1 -> gos s1 b s2 -> gos s (a ++ b) s2.
Proof. induction 1; cbn; [auto|]. intros. econstructor; eauto. Qed.
Lemma gos_split s a b s2 : gos s (a ++ b) s2 -> exists s1, gos s a s1 /\ gos s1 b s2.
Proof.
  revert s. induction a as [|x a IH]; intros s H; cbn in H; [exists s; split; [constructor|exact H]|].
  inversion H as [|s0 x0 s1 l0 s3 G1 G2]; subst. destruct (IH _ G2) as (s' & A & B). exists s'. split; [econstructor; eauto|exact B].
Qed.
Lemma gos_one s x s' : go s x s' -> gos s [x] s'.
Proof. intros. econstructor; [eassumption|constructor]. Qed.

Lemma in_rm k x l : In x (rm k l) <-> In x l /\ x <> k.
Proof. unfold rm. rewrite filter_In, negb_true_iff, Nat.eqb_neq. tauto. Qed.

(** What a state says about the events that led to it. *)
Definition start : lives := mkLives 0 [] Before.
Definition is_open (q : place) : bool := match q with Before | After => false | _ => true end.
Definition view_of (q : place) : viewer :=
  match q with Before | After => NoViewer | Bare => Unset | Took ks => Taken ks | Shows ks => Drawing ks | Gone k => Drawing [k] end.

Record about (l : list levent) (s : lives) : Prop := {
  ab_new : forall k, In (New k) l <-> (k < made_ s)%nat;
  ab_alive : forall k, In k (alive s) <-> (k < made_ s)%nat /\ ~ In (Delete k) l;
  ab_deleted : forall k, In (Delete k) l -> (k < made_ s)%nat;
  ab_view : fold_left viewer_step l NoViewer = view_of (at_place s);
  ab_mode : mode_after (session_of l) (is_open (at_place s));
  ab_held : match at_place s with
            | Took ks | Shows ks => incl ks (alive s)
            | Gone k => In (Delete k) l
            | _ => True
            end;
  ab_last : in_view l <-> exists ks, at_place s = Shows ks }.

Lemma about_start : about [] start.
Proof.
  split; cbn; try reflexivity; try tauto.
  - intros k. split; [tauto|lia].
  - intros k. split; [tauto|intros [H _]; lia].
  - constructor.
  - split; [intros (b & x & H & _); destruct b; discriminate|intros (ks & H); discriminate].
Qed.

Lemma in_view_snoc l x : in_view (l ++ [x]) <-> x = Ready \/ exists ev, x = Tell (Did ev) /\ interactive ev.
Proof.
  split; [intros (b & y & H & K); apply app_inj_tail in H; destruct H as [_ ->]; exact K|]. intros K. exists l, x. auto.
Qed.

Lemma about_go l s x s' : about l s -> go s x s' -> about (l ++ [x]) s'.
Proof.
  intros [A1 A2 A3 A4 A5 A6 A7] G.
  assert (V : fold_left viewer_step (l ++ [x]) NoViewer = viewer_step (view_of (at_place s)) x).
  { rewrite fold_left_app, A4. reflexivity. }
  assert (M : session_of (l ++ [x]) = session_of l ++ match x with Tell t => [t] | _ => [] end).
  { rewrite session_app. cbn. now rewrite app_nil_r. }
  assert (ND : forall k, x <> Delete k -> In (Delete k) (l ++ [x]) <-> In (Delete k) l).
  { intros k N. rewrite in_app_iff. cbn. intuition congruence. }
  assert (NN : forall k, x <> New k -> In (New k) (l ++ [x]) <-> In (New k) l).
  { intros k N. rewrite in_app_iff. cbn. intuition congruence. }
  assert (same_ : forall q, (forall k, x <> Delete k) -> (forall k, x <> New k) -> s' = mkLives (made_ s) (alive s) q ->
     (forall k, In (New k) (l ++ [x]) <-> (k < made_ s')%nat) /\
     (forall k, In k (alive s') <-> (k < made_ s')%nat /\ ~ In (Delete k) (l ++ [x])) /\
     (forall k, In (Delete k) (l ++ [x]) -> (k < made_ s')%nat)).
  { intros q H1 H2 ->. cbn [made_ alive]. split; [|split]; intros k; rewrite ?(ND k (H1 k)), ?(NN k (H2 k)); auto. }
  destruct G as [n al q I|n al ks I|n al q ks F I|n al ks|n al|n al q F|n al ks ev I|n al q ev I F|n al k I|n al q k I F];
    cbn [made_ alive at_place] in *.
  - (* New *) split; cbn [made_ alive at_place].
    + intros k. rewrite in_app_iff, A1. cbn. split; [intros [H|[[= <-]|[]]]; lia|].
      intros H. destruct (Nat.eq_dec k n) as [->|N]; [auto|]. left. lia.
    + intros k. rewrite ND by discriminate. cbn. rewrite A2. split.
      * intros [<-|[H1 H2]]; [|split; [lia|exact H2]]. split; [lia|]. intros H. apply A3 in H. lia.
      * intros [H1 H2]. destruct (Nat.eq_dec k n) as [->|N]; [auto|]. right. split; [lia|exact H2].
    + intros k H. rewrite ND in H by discriminate. apply A3 in H. lia.
    + rewrite V. destruct q; reflexivity || destruct I.
    + rewrite M, app_nil_r. exact A5.
    + destruct q; cbn in *; auto; try tauto. rewrite ND by discriminate. exact A6.
    + rewrite in_view_snoc. split; [intros [H|(ev & H & _)]; discriminate|]. intros (ks & ->). destruct I.
  - destruct (same_ Before ltac:(discriminate) ltac:(discriminate) eq_refl) as (B1 & B2 & B3).
    split; cbn [at_place]; [exact B1|exact B2|exact B3| | | |].
    + rewrite V. reflexivity.
    + rewrite M, app_nil_r. exact A5.
    + exact Logic.I.
    + rewrite in_view_snoc. split; [intros [H|(ev & H & _)]; discriminate|]. intros (ks' & H); discriminate.
  - destruct (same_ (Took ks) ltac:(discriminate) ltac:(discriminate) eq_refl) as (B1 & B2 & B3).
    split; cbn [at_place]; [exact B1|exact B2|exact B3| | | |].
    + rewrite V. destruct q; reflexivity || destruct F.
    + rewrite M, app_nil_r. destruct q; exact A5 || destruct F.
    + exact I.
    + rewrite in_view_snoc. split; [intros [H|(ev & H & _)]; discriminate|]. intros (ks' & H); discriminate.
  - destruct (same_ (Shows ks) ltac:(discriminate) ltac:(discriminate) eq_refl) as (B1 & B2 & B3).
    split; cbn [at_place]; [exact B1|exact B2|exact B3| | | |].
    + rewrite V. reflexivity.
    + rewrite M, app_nil_r. exact A5.
    + exact A6.
    + rewrite in_view_snoc. split; [eauto|auto].
  - destruct (same_ Bare ltac:(discriminate) ltac:(discriminate) eq_refl) as (B1 & B2 & B3).
    split; cbn [at_place]; [exact B1|exact B2|exact B3| | | |].
    + rewrite V. reflexivity.
    + rewrite M. eapply M_opened, A5.
    + exact Logic.I.
    + rewrite in_view_snoc. split; [intros [H|(ev & H & _)]; discriminate|]. intros (ks' & H); discriminate.
  - destruct (same_ After ltac:(discriminate) ltac:(discriminate) eq_refl) as (B1 & B2 & B3).
    split; cbn [at_place]; [exact B1|exact B2|exact B3| | | |].
    + rewrite V. destruct q; reflexivity.
    + rewrite M. eapply M_closed, A5.
    + exact Logic.I.
    + rewrite in_view_snoc. split; [intros [H|(ev & H & _)]; discriminate|]. intros (ks' & H); discriminate.
  - destruct (same_ (Shows ks) ltac:(discriminate) ltac:(discriminate) eq_refl) as (B1 & B2 & B3).
    split; cbn [at_place]; [exact B1|exact B2|exact B3| | | |].
    + rewrite V. reflexivity.
    + rewrite M. apply M_did, A5.
    + exact A6.
    + rewrite in_view_snoc. split; [eauto|]. intros _. right. eauto.
  - destruct (same_ q ltac:(discriminate) ltac:(discriminate) eq_refl) as (B1 & B2 & B3).
    split; cbn [at_place]; [exact B1|exact B2|exact B3| | | |].
    + rewrite V. destruct q; reflexivity.
    + rewrite M. apply M_did, A5.
    + destruct q; auto. rewrite ND by discriminate. exact A6.
    + rewrite in_view_snoc. split; [intros [H|(ev' & [= <-] & K)]; [discriminate|tauto]|]. intros (ks & ->). cbn in F. tauto.
  - (* Delete while shown *) split; cbn [made_ alive at_place].
    + intros j. rewrite NN by discriminate. apply A1.
    + intros j. rewrite in_rm, A2, in_app_iff. cbn. intuition congruence.
    + intros j H. rewrite in_app_iff in H. destruct H as [H|[[= <-]|[]]]; [apply A3, H|]. apply A2 in I. tauto.
    + rewrite V. reflexivity.
    + rewrite M, app_nil_r. exact A5.
    + apply in_or_app. right. left. reflexivity.
    + rewrite in_view_snoc. split; [intros [H|(ev & H & _)]; discriminate|]. intros (ks' & H); discriminate.
  - split; cbn [made_ alive at_place].
    + intros j. rewrite NN by discriminate. apply A1.
    + intros j. rewrite in_rm, A2, in_app_iff. cbn. intuition congruence.
    + intros j H. rewrite in_app_iff in H. destruct H as [H|[[= <-]|[]]]; [apply A3, H|]. apply A2 in I. tauto.
    + rewrite V. destruct q; reflexivity || destruct F.
    + rewrite M, app_nil_r. exact A5.
    + destruct q; auto; destruct F.
    + rewrite in_view_snoc. split; [intros [H|(ev & H & _)]; discriminate|]. intros (ks & ->). destruct F.
Qed.

Lemma about_gos l s : gos start l s -> about l s.
Proof.
  assert (G : forall s0 l s, gos s0 l s -> forall l0, about l0 s0 -> about (l0 ++ l) s).
  { intros s0 l1 s1. induction 1 as [s0|s0 x s1 l1 s2 G1 G2 IH]; intros l0 A; [now rewrite app_nil_r|].
    replace (l0 ++ x :: l1) with ((l0 ++ [x]) ++ l1) by (rewrite <- app_assoc; reflexivity). apply IH. eapply about_go; eauto. }
  intros H. apply (G start l s H []). apply about_start.
Qed.

(** * The program's runs are runs of the automaton *)
Lemma gos_told n al q evs : (forall x, In x evs -> ~ interactive x) -> free q \/ shut q ->
  gos (mkLives n al q) (map Tell (map Did evs)) (mkLives n al q).
Proof.
  intros H F. induction evs as [|x evs IH]; cbn; [constructor|]. econstructor; [apply G_told; auto; apply H; now left|].
  apply IH. intros y Y. apply H. now right.
Qed.

Definition rm_all (ks al : list nat) : list nat := filter (fun x => negb (existsb (Nat.eqb x) ks)) al.
Lemma in_rm_all ks x l : In x (rm_all ks l) <-> In x l /\ ~ In x ks.
Proof.
  unfold rm_all. rewrite filter_In, negb_true_iff. split; intros [A B]; split; auto.
  - intros K. assert (E : existsb (Nat.eqb x) ks = true) by (apply existsb_exists; exists x; split; [exact K|apply Nat.eqb_refl]). congruence.
  - apply Bool.not_true_is_false. intros E. apply existsb_exists in E. destruct E as (y & Y & E). apply Nat.eqb_eq in E. subst. tauto.
Qed.

Lemma gos_deletes ks : forall n al q, shut q -> NoDup ks -> incl ks al ->
  exists al', gos (mkLives n al q) (map Delete ks) (mkLives n al' q) /\ forall k, In k al' <-> In k al /\ ~ In k ks.
Proof.
  induction ks as [|k ks IH]; intros n al q F N I; cbn [map].
  - exists al. split; [constructor|]. cbn. tauto.
  - apply NoDup_cons_iff in N. destruct N as [N1 N2].
    destruct (IH n (rm k al) q F N2) as (al' & G & A).
    { intros x X. apply in_rm. split; [apply I; now right|]. intros ->. tauto. }
    exists al'. split; [econstructor; [apply G_del; [apply I; now left|exact F]|exact G]|].
    intros x. rewrite A, in_rm. cbn. intuition.
Qed.

Lemma reports_told evs : Forall report evs -> forall x, In x evs -> ~ interactive x.
Proof. intros F x I. exact (reports_quiet _ _ F I). Qed.

Lemma sit_fst sits ev docs : fst (tells (sit sits ev docs)) = [Tell (Did ev)].
Proof. unfold sit. destruct (sits docs) as [[]|d|] eqn:E; cbn; rewrite ?E; reflexivity. Qed.
Lemma sit_snd sits ev docs : snd (tells (sit sits ev docs)) = sits docs.
Proof. unfold sit. destruct (sits docs) as [[]|d|] eqn:E; cbn; rewrite ?E; reflexivity. Qed.

Section Runs.
  Variables (e : env) (w : world) (sits : list (bytes * tree) -> outcome unit) (order : list nat -> list nat).
  Hypothesis order_ok : forall l, Permutation (order l) l.

  Lemma one_report p i : Forall report (fst (readOneFile e w p i)).
  Proof. destruct (proj1 (one_tells e w p i)) as [->|(r & -> & R)]; auto. Qed.

  Lemma read_gos p n i al q : idle q ->
    gos (mkLives n al q) (fst (readOne_life e w p n i)) (mkLives (S n) (n :: al) q).
  Proof.
    intros I. unfold readOne_life. rewrite lbind_fst. cbn [lemit fst snd]. eapply gos_app; [apply gos_one, G_new, I|].
    cbn [tells fst]. rewrite lift_fst. apply gos_told; [apply reports_told, one_report|]. destruct q; cbn in *; tauto.
  Qed.
  Lemma read_val p n i : snd (readOne_life e w p n i) = snd (readOneFile e w p i).
  Proof. reflexivity. Qed.

  (** The input at [k], the first of [inputs] being at [n], is not read. *)
  Definition unread_in (p : params) (n : nat) (inputs : list (bytes * src)) (k : nat) : Prop :=
    exists j i, k = (n + j)%nat /\ nth_error inputs j = Some i /\ snd (readOneFile e w p i) = Val None.

  Lemma unread_S p n i r k : unread_in p (S n) r k -> unread_in p n (i :: r) k.
  Proof. intros (j & i' & -> & A & B). exists (S j), i'. split; [lia|]. auto. Qed.
  Lemma unread_0 p n i r : snd (readOneFile e w p i) = Val None -> unread_in p n (i :: r) n.
  Proof. intros H. exists O, i. split; [lia|]. auto. Qed.

  (** One document after the other, in a viewer or written. *)
  Definition one_by_one {A} (p : params) (n : nat) (inputs : list (bytes * src)) (al : list nat) (q : place) (ok : place -> Prop) (m : lio A) : Prop :=
    exists s, gos (mkLives n al q) (fst m) s /\
      (forall a, snd m = Val a -> ok (at_place s) /\ forall k, In k (alive s) -> In k al \/ unread_in p n inputs k).

  Lemma write_gos p : forall inputs n ws al,
    one_by_one p n inputs al Before shut (writeAll_life e w p n inputs ws).
  Proof.
    induction inputs as [|i r IH]; intros n ws al; cbn [writeAll_life].
    { eexists. split; [constructor|]. cbn. auto. }
    unfold one_by_one. rewrite lbind_fst, lbind_snd, read_val.
    pose proof (read_gos p n i al Before Logic.I) as R.
    destruct (snd (readOneFile e w p i)) as [[[root ws']|]|d|] eqn:E.
    - rewrite lbind_fst, lbind_snd. cbn [lemit fst snd]. destruct (IH (S n) (ws ++ ws') (rm n (n :: al))) as (s & G & K).
      exists s. split.
      + eapply gos_app; [exact R|]. eapply gos_app; [|exact G].
        econstructor; [apply G_use0; intros x [<-|[]]; now left|]. econstructor; [apply G_told; cbn; auto|].
        apply gos_one, G_del; [now left|exact Logic.I].
      + intros a Ha. destruct (K a Ha) as [K1 K2]. split; [exact K1|]. intros k Hk. destruct (K2 k Hk) as [H|H].
        * apply in_rm in H. destruct H as [[<-|H] N]; [tauto|]. now left.
        * right. now apply unread_S.
    - eexists. split; [eapply gos_app; [exact R|constructor]|]. intros a _. split; [exact Logic.I|].
      intros k [<-|H]; [right; apply unread_0, E|now left].
    - eexists. split; [rewrite app_nil_r; exact R|]. discriminate.
    - eexists. split; [rewrite app_nil_r; exact R|]. discriminate.
  Qed.

  Lemma view_gos p : forall inputs n ws al q, free q ->
    one_by_one p n inputs al q free (viewAll_life e w sits p n inputs ws).
  Proof.
    induction inputs as [|i r IH]; intros n ws al q F; cbn [viewAll_life].
    { eexists. split; [constructor|]. cbn. auto. }
    unfold one_by_one. rewrite lbind_fst, lbind_snd, read_val.
    assert (I : idle q) by (destruct q; cbn in *; tauto).
    pose proof (read_gos p n i al q I) as R.
    destruct (snd (readOneFile e w p i)) as [[[root ws']|]|d|] eqn:E.
    - rewrite lbind_fst, lbind_snd. cbn [lemit fst snd].
      assert (U : gos (mkLives (S n) (n :: al) q) [Use [n]; Ready] (mkLives (S n) (n :: al) (Shows [n]))).
      { econstructor; [apply G_use; [exact F|intros x [<-|[]]; now left]|]. apply gos_one, G_ready. }
      rewrite lbind_fst, lbind_snd. rewrite sit_fst, sit_snd.
      set (ev := EView (fst i) (erase root)).
      assert (V : gos (mkLives (S n) (n :: al) (Shows [n])) [Tell (Did ev)] (mkLives (S n) (n :: al) (Shows [n]))).
      { apply gos_one, G_shown. exact Logic.I. }
      destruct (sits [(fst i, erase root)]) as [[]|d|].
      + rewrite lbind_fst, lbind_snd. cbn [lemit fst snd].
        destruct (IH (S n) (ws ++ ws') (rm n (n :: al)) (Gone n) Logic.I) as (s & G & K).
        exists s. split.
        * eapply gos_app; [exact R|]. eapply gos_app; [exact U|]. eapply gos_app; [exact V|]. eapply gos_app; [|exact G].
          apply gos_one, G_gone. now left.
        * intros a Ha. destruct (K a Ha) as [K1 K2]. split; [exact K1|]. intros k Hk. destruct (K2 k Hk) as [H|H].
          -- apply in_rm in H. destruct H as [[<-|H] N]; [tauto|]. now left.
          -- right. now apply unread_S.
      + eexists. split; [eapply gos_app; [exact R|]; eapply gos_app; [exact U|]; rewrite app_nil_r; exact V|]. discriminate.
      + eexists. split; [eapply gos_app; [exact R|]; eapply gos_app; [exact U|]; rewrite app_nil_r; exact V|]. discriminate.
    - eexists. split; [eapply gos_app; [exact R|constructor]|]. intros a _. split; [exact F|].
      intros k [<-|H]; [right; apply unread_0, E|now left].
    - eexists. split; [rewrite app_nil_r; exact R|]. discriminate.
    - eexists. split; [rewrite app_nil_r; exact R|]. discriminate.
  Qed.

  Lemma create_tells f : fst (getOutputFile w f) = [].
  Proof. unfold getOutputFile. destruct (delay w (tmp_name f 0)); reflexivity. Qed.

  Lemma prettify_gos p : forall inputs n names ws al,
    one_by_one p n inputs al Before (fun q => q = Before) (prettify_life e w p n inputs names ws).
  Proof.
    induction inputs as [|i r IH]; intros n names ws al; cbn [prettify_life].
    { eexists. split; [constructor|]. cbn. auto. }
    unfold one_by_one. rewrite lbind_fst, lbind_snd, read_val.
    pose proof (read_gos p n i al Before Logic.I) as R.
    destruct (snd (readOneFile e w p i)) as [[[root ws']|]|d|] eqn:E.
    - rewrite lbind_fst, lbind_snd. cbn [tells fst snd]. rewrite lift_fst, lift_snd, create_tells. cbn [map app].
      destruct (snd (getOutputFile w (fst i))) as [fname|d|]; cbn [app].
      + rewrite lbind_fst, lbind_snd. cbn [lemit fst snd]. rewrite lbind_fst, lbind_snd. cbn [tells lift emit fst snd map].
        rewrite lbind_fst, lbind_snd. cbn [lemit fst snd].
        destruct (IH (S n) (names ++ [fname]) (ws ++ ws') (rm n (n :: al))) as (s & G & K).
        exists s. split.
        * eapply gos_app; [exact R|]. eapply gos_app; [apply gos_one, G_use0; intros x [<-|[]]; now left|].
          eapply gos_app; [apply gos_one, G_told; cbn; auto|]. eapply gos_app; [|exact G]. apply gos_one, G_del; [now left|exact Logic.I].
        * intros a Ha. destruct (K a Ha) as [K1 K2]. split; [exact K1|]. intros k Hk. destruct (K2 k Hk) as [H|H].
          -- apply in_rm in H. destruct H as [[<-|H] N]; [tauto|]. now left.
          -- right. now apply unread_S.
      + eexists. split; [rewrite app_nil_r; exact R|]. discriminate.
      + eexists. split; [rewrite app_nil_r; exact R|]. discriminate.
    - eexists. split; [eapply gos_app; [exact R|constructor]|]. intros a _. split; [reflexivity|].
      intros k [<-|H]; [right; apply unread_0, E|now left].
    - eexists. split; [rewrite app_nil_r; exact R|]. discriminate.
    - eexists. split; [rewrite app_nil_r; exact R|]. discriminate.
  Qed.

  (** The inputs of a comparison. *)
  Lemma readAll_gos p : forall inputs n docs ws al, (forall k, In k al <-> (k < n)%nat) ->
    exists s, gos (mkLives n al Before) (fst (readAll_life e w order p n inputs docs ws)) s /\ at_place s = Before /\
      match snd (readAll_life e w order p n inputs docs ws) with
      | Val (inl _) => made_ s = (n + length inputs)%nat /\ forall k, In k (alive s) <-> (k < n + length inputs)%nat
      | Val (inr _) => forall k, In k (alive s) -> unread_in p n inputs k
      | _ => True
      end.
  Proof.
    induction inputs as [|i r IH]; intros n docs ws al A; cbn [readAll_life].
    { eexists. split; [constructor|]. cbn. split; [reflexivity|]. split; [lia|]. intros k. rewrite A. lia. }
    rewrite lbind_fst, lbind_snd, read_val. pose proof (read_gos p n i al Before Logic.I) as R.
    assert (A' : forall k, In k (n :: al) <-> (k < S n)%nat).
    { intros k. cbn. rewrite A. lia. }
    destruct (snd (readOneFile e w p i)) as [[[root ws']|]|d|] eqn:E.
    - destruct (IH (S n) (docs ++ [(fst i, erase root)]) (ws ++ ws') (n :: al) A') as (s & G & P & K). exists s.
      split; [eapply gos_app; [exact R|exact G]|]. split; [exact P|].
      destruct (snd (readAll_life e w order p (S n) r _ _)) as [[x|x]|d|]; auto.
      + destruct K as [K1 K2]. cbn [length]. split; [lia|]. intros k. rewrite K2. lia.
      + intros k Hk. apply unread_S, K, Hk.
    - rewrite lbind_fst, lbind_snd. cbn [lemit fst snd lret].
      assert (NO : NoDup (order (seq 0 n))) by (eapply Permutation_NoDup; [symmetry; apply order_ok|apply seq_NoDup]).
      assert (IN : forall k, In k (order (seq 0 n)) <-> (k < n)%nat).
      { intros k. split; intros H.
        - eapply Permutation_in in H; [|apply order_ok]. apply in_seq in H. lia.
        - eapply Permutation_in; [symmetry; apply order_ok|]. apply in_seq. lia. }
      destruct (gos_deletes (order (seq 0 n)) (S n) (n :: al) Before Logic.I NO) as (al' & G & B).
      { intros k Hk. apply A'. apply IN in Hk. lia. }
      eexists. split; [eapply gos_app; [exact R|]; rewrite app_nil_r; exact G|]. split; [reflexivity|]. cbn [alive].
      intros k Hk. apply B in Hk. destruct Hk as [H1 H2]. apply A' in H1. rewrite IN in H2. replace k with n by lia. apply unread_0, E.
    - eexists. split; [rewrite app_nil_r; exact R|]. split; [reflexivity|exact Logic.I].
    - eexists. split; [rewrite app_nil_r; exact R|]. split; [reflexivity|exact Logic.I].
  Qed.

  Definition ends (p : params) (m : lio unit) : Prop :=
    exists s, gos start (fst m) s /\ forall a, snd m = Val a -> forall k, In k (alive s) -> unread_in p 0 (getInputs p) k.

  Lemma diff_gos p : ends p (diff_life e w sits order p).
  Proof.
    unfold diff_life, ends. rewrite lbind_fst, lbind_snd.
    destruct (readAll_gos p (getInputs p) 0 [] [] []) as (s & G & P & K).
    { intros k. cbn. split; [tauto|lia]. }
    change (mkLives 0 [] Before) with start in G.
    destruct (snd (readAll_life e w order p 0 (getInputs p) [] [])) as [[[docs ws]|[]]|d|].
    - destruct K as [K1 K2]. destruct s as [n al q]. cbn [made_ alive at_place] in *. subst q.
      set (ks := seq 0 (length (getInputs p))).
      assert (IK : incl ks al) by (intros x X; apply K2; apply in_seq in X; lia).
      cbv zeta. rewrite lbind_fst, lbind_snd. cbn [lemit fst snd].
      assert (O : gos (mkLives n al Before) [Tell Opened; Use ks] (mkLives n al (Took ks))).
      { econstructor; [apply G_open|]. apply gos_one, G_use; [exact Logic.I|exact IK]. }
      rewrite lbind_fst, lbind_snd. destruct (length docs =? 3)%nat.
      + cbn [fst snd app]. eexists. split; [eapply gos_app; [exact G|exact O]|]. discriminate.
      + rewrite lbind_fst, lbind_snd. cbn [lemit fst snd]. rewrite sit_fst, sit_snd.
        assert (V : gos (mkLives n al (Took ks)) [Ready; Tell (Did (ECompare docs))] (mkLives n al (Shows ks))).
        { econstructor; [apply G_ready|]. apply gos_one, G_shown. exact Logic.I. }
        destruct (sits docs) as [[]|d|].
        * rewrite lbind_fst, lbind_snd. cbn [lemit fst snd]. rewrite lbind_fst, lbind_snd. cbn [lemit fst snd tells].
          assert (NO : NoDup (order ks)) by (eapply Permutation_NoDup; [symmetry; apply order_ok|apply seq_NoDup]).
          destruct (gos_deletes (order ks) n al After Logic.I NO) as (al' & D & B).
          { intros x X. apply IK. eapply Permutation_in; [apply order_ok|exact X]. }
          eexists. split.
          -- eapply gos_app; [exact G|]. eapply gos_app; [exact O|]. eapply (gos_app _ [Ready; Tell (Did (ECompare docs))]); [exact V|].
             econstructor; [apply G_close; cbn; tauto|]. eapply gos_app; [exact D|]. rewrite lift_fst.
             apply gos_told; [apply reports_told, warnings_tell|right; exact Logic.I].
          -- intros a _ k Hk. cbn [alive] in Hk. apply B in Hk. destruct Hk as [H1 H2]. exfalso. apply H2.
             eapply Permutation_in; [symmetry; apply order_ok|]. apply in_seq. apply K2 in H1. lia.
        * eexists. split; [eapply gos_app; [exact G|]; eapply gos_app; [exact O|]; exact V|]. discriminate.
        * eexists. split; [eapply gos_app; [exact G|]; eapply gos_app; [exact O|]; exact V|]. discriminate.
    - exists s. split; [rewrite app_nil_r; exact G|]. intros a _. exact K.
    - exists s. split; [rewrite app_nil_r; exact G|]. discriminate.
    - exists s. split; [rewrite app_nil_r; exact G|]. discriminate.
  Qed.

  Lemma stdout_gos p : ends p (stdout_life e w p).
  Proof.
    unfold stdout_life, ends. rewrite lbind_fst, lbind_snd. destruct (write_gos p (getInputs p) 0 [] []) as (s & G & K).
    destruct (snd (writeAll_life e w p 0 (getInputs p) [])) as [ws|d|].
    - destruct (K ws eq_refl) as [K1 K2]. destruct s as [n al q]. cbn [alive at_place] in *. eexists. split.
      + eapply gos_app; [exact G|]. cbn [tells fst]. rewrite lift_fst. apply gos_told; [apply reports_told, warnings_tell|now right].
      + intros a _ k Hk. destruct (K2 k Hk) as [[]|H]. exact H.
    - exists s. split; [rewrite app_nil_r; exact G|]. discriminate.
    - exists s. split; [rewrite app_nil_r; exact G|]. discriminate.
  Qed.

  Lemma run_gos p : ends p (run_life e w sits p).
  Proof.
    unfold run_life, ends. rewrite lbind_fst, lbind_snd. cbn [lemit fst snd]. rewrite lbind_fst, lbind_snd.
    destruct (view_gos p (getInputs p) 0 [] [] Bare Logic.I) as (s & G & K).
    assert (O : gos start [Tell Opened] (mkLives 0 [] Bare)) by apply gos_one, G_open.
    destruct (snd (viewAll_life e w sits p 0 (getInputs p) [])) as [ws|d|].
    - destruct (K ws eq_refl) as [K1 K2]. destruct s as [n al q]. cbn [alive at_place] in *.
      rewrite lbind_fst, lbind_snd. cbn [lemit fst snd tells]. eexists. split.
      + eapply gos_app; [exact O|]. eapply gos_app; [exact G|]. econstructor; [apply G_close; destruct q; cbn in *; tauto|].
        rewrite lift_fst. apply gos_told; [apply reports_told, warnings_tell|right; exact Logic.I].
      + intros a _ k Hk. destruct (K2 k Hk) as [[]|H]. exact H.
    - exists s. split; [rewrite app_nil_r; eapply gos_app; [exact O|exact G]|]. discriminate.
    - exists s. split; [rewrite app_nil_r; eapply gos_app; [exact O|exact G]|]. discriminate.
  Qed.

  Lemma unlink_quiet names x : In x (fst (unlink_all names)) -> ~ interactive x.
  Proof. unfold unlink_all. cbn [fst]. intros H. apply in_map_iff in H. destruct H as (y & <- & _). cbn. tauto. Qed.

  Lemma external_gos p d : ends p (external_life e w p d).
  Proof.
    unfold external_life, ends. rewrite lbind_fst, lbind_snd. destruct (prettify_gos p (getInputs p) 0 [] [] []) as (s & G & K).
    destruct (snd (prettify_life e w p 0 (getInputs p) [] [])) as [[[names ws]|names]|dd|].
    - destruct (K _ eq_refl) as [K1 K2]. destruct s as [n al q]. cbn [alive at_place] in *. subst q. eexists. split.
      + eapply gos_app; [exact G|]. cbn [tells fst]. rewrite lift_fst. apply gos_told; [|right; exact Logic.I].
        intros x X. revert X. rewrite bind_fst. intros X. apply in_app_iff in X. destruct X as [X|X]; [exact (reports_told _ (warnings_tell ws) x X)|].
        destruct (snd (displayWarnings ws)); [|destruct X|destruct X].
        destruct (computeArgv d names); [|destruct X]. destruct (fork_ok w); [|exact (unlink_quiet _ _ X)].
        rewrite bind_fst in X. cbn [emit fst snd app] in X. destruct X as [<-|X]; [cbn; tauto|]. rewrite bind_fst in X. apply in_app_iff in X.
        assert (WP : forall c, fst (wait_parent c) = []) by (intros [[]|]; reflexivity).
        destruct X as [X|X].
        * destruct (exec_ok w); [rewrite WP in X; destruct X|]. destruct (garbage_exited w); [|destruct X].
          rewrite bind_fst in X. apply in_app_iff in X. destruct X as [X|X]; [exact (unlink_quiet _ _ X)|]. destruct X.
        * match type of X with context [match ?o with Val _ => _ | _ => _ end] => destruct o end; [exact (unlink_quiet _ _ X)|destruct X|destruct X].
      + intros a _ k Hk. destruct (K2 k Hk) as [[]|H]. exact H.
    - destruct (K _ eq_refl) as [K1 K2]. destruct s as [n al q]. cbn [alive at_place] in *. subst q. eexists. split.
      + eapply gos_app; [exact G|]. cbn [tells fst]. rewrite lift_fst. apply gos_told; [apply unlink_quiet|right; exact Logic.I].
      + intros a _ k Hk. destruct (K2 k Hk) as [[]|H]. exact H.
    - exists s. split; [rewrite app_nil_r; exact G|]. discriminate.
    - exists s. split; [rewrite app_nil_r; exact G|]. discriminate.
  Qed.

  Lemma main_gos opens args : exists s, gos start (fst (main_life e w sits order opens args)) s /\
    forall a, snd (main_life e w sits order opens args) = Val a -> forall k, In k (alive s) -> unread e w opens args k.
  Proof.
    unfold main_life. destruct (Params_read opens args) as [p| |] eqn:EP.
    - assert (E : ends p (match p_cmd p with
         | Some d => external_life e w p d
         | None =>
             if p_diff p then diff_life e w sits order p
             else if negb (p_compress p) && tty w then run_life e w sits p else stdout_life e w p
         end)).
      { destruct (p_cmd p); [apply external_gos|]. destruct (p_diff p); [apply diff_gos|].
        destruct (negb (p_compress p) && tty w); [apply run_gos|apply stdout_gos]. }
      destruct E as (s & G & K). exists s. rewrite lbind_fst, lbind_snd.
      destruct (snd _) as [[]|d|].
      + cbn [lret fst snd]. rewrite app_nil_r. split; [exact G|]. intros a _ k Hk.
        destruct (K tt eq_refl k Hk) as (j & i & -> & A & B). exists p, i. cbn. auto.
      + rewrite app_nil_r. split; [exact G|]. discriminate.
      + rewrite app_nil_r. split; [exact G|]. discriminate.
    - exists start. split; [constructor|]. intros a _ k [].
    - exists start. split; [constructor|]. intros a _ k [].
  Qed.

  Lemma main_about opens args a c : fst (main_life e w sits order opens args) = a ++ c -> exists s, about a s /\ exists s', gos s c s'.
  Proof.
    intros E. destruct (main_gos opens args) as (s & G & _). rewrite E in G. apply gos_split in G. destruct G as (s1 & G1 & G2).
    exists s1. split; [apply about_gos, G1|eauto].
  Qed.

  (** * Streams *)
  Lemma streams_once opens args a x c : fst (main_life e w sits order opens args) = a ++ x :: c ->
    match x with
    | New k => ~ In (New k) a
    | Use ks => forall k, In k ks -> In (New k) a /\ ~ In (Delete k) a
    | Delete k => In (New k) a /\ ~ In (Delete k) a
    | _ => True
    end.
  Proof.
    intros E. destruct (main_about opens args a (x :: c) E) as (s & [A1 A2 A3 A4 A5 A6 A7] & s' & G).
    inversion G as [|s0 x0 s1 l0 s3 G1 G2]; subst.
    assert (L : forall k, In k (alive s) -> In (New k) a /\ ~ In (Delete k) a).
    { intros k H. apply A2 in H. rewrite A1. exact H. }
    destruct G1; cbn [made_ alive] in *; auto.
    rewrite A1. lia.
  Qed.

  (** What is not read is not deleted. *)
  Definition never (p : params) (n : nat) (inputs : list (bytes * src)) (l : list levent) : Prop :=
    forall k, In (Delete k) l -> ~ unread_in p n inputs k.
  Lemma never_app p n inputs a b : never p n inputs a -> never p n inputs b -> never p n inputs (a ++ b).
  Proof. intros A B k H. apply in_app_iff in H. destruct H; auto. Qed.
  Lemma never_none p n inputs l : (forall k, ~ In (Delete k) l) -> never p n inputs l.
  Proof. intros A k H. destruct (A k H). Qed.
  Lemma told_none evs k : ~ In (Delete k) (map Tell evs).
  Proof. intros H. apply in_map_iff in H. destruct H as (x & E & _). discriminate E. Qed.
  Lemma read_none p n i k : ~ In (Delete k) (fst (readOne_life e w p n i)).
  Proof.
    unfold readOne_life. rewrite lbind_fst. cbn [lemit fst snd]. intros [H|H]; [discriminate H|]. exact (told_none _ _ H).
  Qed.
  Lemma never_S p n i r v l : snd (readOneFile e w p i) = Val (Some v) -> never p (S n) r l -> never p n (i :: r) l.
  Proof.
    intros E N k H (j & i' & -> & A & B). destruct j as [|j]; cbn in A.
    - injection A as <-. congruence.
    - apply (N _ H). exists j, i'. split; [lia|]. auto.
  Qed.
  Lemma never_0 p n i r v : snd (readOneFile e w p i) = Val (Some v) -> ~ unread_in p n (i :: r) n.
  Proof.
    intros E (j & i' & K & A & B). replace j with O in A by lia. injection A as <-. congruence.
  Qed.

  Lemma write_never p : forall inputs n ws, never p n inputs (fst (writeAll_life e w p n inputs ws)).
  Proof.
    induction inputs as [|i r IH]; intros n ws; cbn [writeAll_life]; [intros k []|].
    rewrite lbind_fst, read_val. apply never_app; [apply never_none, read_none|].
    destruct (snd (readOneFile e w p i)) as [[[root ws']|]|d|] eqn:E; try solve [intros k []].
    rewrite lbind_fst. cbn [lemit fst snd]. apply never_app; [|eapply never_S; [exact E|apply IH]].
    intros k [H|[H|[H|[]]]]; try discriminate H. injection H as <-. eapply never_0, E.
  Qed.
  Lemma view_never p : forall inputs n ws, never p n inputs (fst (viewAll_life e w sits p n inputs ws)).
  Proof.
    induction inputs as [|i r IH]; intros n ws; cbn [viewAll_life]; [intros k []|].
    rewrite lbind_fst, read_val. apply never_app; [apply never_none, read_none|].
    destruct (snd (readOneFile e w p i)) as [[[root ws']|]|d|] eqn:E; try solve [intros k []].
    rewrite lbind_fst. cbn [lemit fst snd]. apply never_app; [intros k [H|[H|[]]]; discriminate H|].
    rewrite lbind_fst, sit_fst, sit_snd. apply never_app; [intros k [H|[]]; discriminate H|].
    destruct (sits [(fst i, erase root)]) as [[]|d|]; try solve [intros k []].
    rewrite lbind_fst. cbn [lemit fst snd]. apply never_app; [|eapply never_S; [exact E|apply IH]].
    intros k [H|[]]. injection H as <-. eapply never_0, E.
  Qed.
  Lemma prettify_never p : forall inputs n names ws, never p n inputs (fst (prettify_life e w p n inputs names ws)).
  Proof.
    induction inputs as [|i r IH]; intros n names ws; cbn [prettify_life]; [intros k []|].
    rewrite lbind_fst, read_val. apply never_app; [apply never_none, read_none|].
    destruct (snd (readOneFile e w p i)) as [[[root ws']|]|d|] eqn:E; try solve [intros k []].
    rewrite lbind_fst. cbn [tells fst snd]. apply never_app; [apply never_none; intros k; apply told_none|]. rewrite lift_snd.
    destruct (snd (getOutputFile w (fst i))) as [fname|d|]; try solve [intros k []].
    rewrite lbind_fst. cbn [lemit fst snd]. apply never_app; [intros k [H|[]]; discriminate H|].
    rewrite lbind_fst. cbn [tells lift emit fst snd map]. apply never_app; [intros k [H|[]]; discriminate H|].
    rewrite lbind_fst. cbn [lemit fst snd]. apply never_app; [|eapply never_S; [exact E|apply IH]].
    intros k [H|[]]. injection H as <-. eapply never_0, E.
  Qed.
  Lemma readAll_never p : forall inputs n docs ws, never p n inputs (fst (readAll_life e w order p n inputs docs ws)) /\
    (forall v, snd (readAll_life e w order p n inputs docs ws) = Val (inl v) -> forall k, ~ unread_in p n inputs k).
  Proof.
    induction inputs as [|i r IH]; intros n docs ws; cbn [readAll_life].
    { split; [intros k []|]. intros v _ k (j & i & _ & A & _). destruct j; discriminate A. }
    rewrite lbind_fst, lbind_snd, read_val.
    destruct (snd (readOneFile e w p i)) as [[[root ws']|]|d|] eqn:E.
    - destruct (IH (S n) (docs ++ [(fst i, erase root)]) (ws ++ ws')) as [N V]. split.
      + apply never_app; [apply never_none, read_none|]. eapply never_S; [exact E|exact N].
      + intros v Hv k (j & i' & -> & A & B). destruct j as [|j]; cbn in A; [injection A as <-; congruence|].
        apply (V v Hv (n + S j)%nat). exists j, i'. split; [lia|]. auto.
    - split; [|rewrite lbind_snd; discriminate]. apply never_app; [apply never_none, read_none|].
      rewrite lbind_fst. cbn [lemit fst snd lret]. rewrite app_nil_r. intros k H (j & i' & K & _). subst k.
      apply in_map_iff in H. destruct H as (x & X & H). injection X as ->. eapply Permutation_in in H; [|apply order_ok].
      apply in_seq in H. lia.
    - split; [|discriminate]. rewrite app_nil_r. apply never_none, read_none.
    - split; [|discriminate]. rewrite app_nil_r. apply never_none, read_none.
  Qed.

  Ltac quiet := apply never_none; let k := fresh in intros k; apply told_none.
  Lemma main_never opens args k : In (Delete k) (fst (main_life e w sits order opens args)) -> ~ unread e w opens args k.
  Proof.
    unfold main_life. intros H (p & i & EP & A & B). rewrite EP in H. rewrite lbind_fst in H. apply in_app_iff in H.
    destruct H as [H|H]; [|destruct (snd _); destruct H].
    assert (U : unread_in p 0 (getInputs p) k) by (exists k, i; auto). revert U. revert k A H. 
    assert (X : never p 0 (getInputs p) (fst (match p_cmd p with
         | Some d => external_life e w p d
         | None =>
             if p_diff p then diff_life e w sits order p
             else if negb (p_compress p) && tty w then run_life e w sits p else stdout_life e w p
         end))).
    { destruct (p_cmd p) as [d|]; [|destruct (p_diff p); [|destruct (negb (p_compress p) && tty w)]].
      - unfold external_life. rewrite lbind_fst. apply never_app; [apply prettify_never|].
        destruct (snd (prettify_life e w p 0 (getInputs p) [] [])) as [[[names ws]|names]|dd|]; try solve [intros k []]; quiet.
      - unfold diff_life. rewrite lbind_fst. destruct (readAll_never p (getInputs p) 0 [] []) as [N V].
        apply never_app; [exact N|].
        destruct (snd (readAll_life e w order p 0 (getInputs p) [] [])) as [[[docs ws]|[]]|d|]; try solve [intros k []].
        intros k _. exact (V _ eq_refl k).
      - unfold run_life. rewrite lbind_fst. cbn [lemit fst snd]. apply never_app; [intros k [H|[]]; discriminate H|].
        rewrite lbind_fst. apply never_app; [apply view_never|].
        destruct (snd (viewAll_life e w sits p 0 (getInputs p) [])) as [ws|d|]; try solve [intros k []].
        rewrite lbind_fst. cbn [lemit fst snd]. apply never_app; [intros k [H|[]]; discriminate H|]. quiet.
      - unfold stdout_life. rewrite lbind_fst. apply never_app; [apply write_never|].
        destruct (snd (writeAll_life e w p 0 (getInputs p) [])) as [ws|d|]; try solve [intros k []]. quiet. }
    intros k _ H. exact (X k H).
  Qed.

  Lemma streams_deleted opens args l status k : main_life e w sits order opens args = (l, Val status) -> In (New k) l ->
    (In (Delete k) l <-> ~ unread e w opens args k).
  Proof.
    intros E N. split.
    - intros D. apply main_never. rewrite E. exact D.
    - intros U. destruct (main_gos opens args) as (s & G & K). rewrite E in G, K. cbn [fst snd] in *. pose proof (about_gos _ _ G) as [A1 A2 A3 _ _ _ _].
      destruct (in_dec Nat.eq_dec k (alive s)) as [I|I]; [destruct (U (K _ eq_refl k I))|].
      destruct (in_dec Nat.eq_dec k (deleted l)) as [D|D].
      + apply in_flat_map in D. destruct D as (x & X & D). destruct x; try destruct D as [<-|[]]; auto; destruct D.
      + destruct I. apply A2. split; [apply A1, N|]. intros H. apply D. apply in_flat_map. exists (Delete k). split; [exact H|now left].
  Qed.

  (** * The signal *)
  Lemma resize_of a s : about a s -> resize_at a = match at_place s with
    | Before | After => Ignored | Shows ks => Redraws ks | _ => Dangling end.
  Proof.
    intros [A1 A2 A3 A4 A5 A6 A7]. unfold resize_at. rewrite A4. destruct (at_place s) as [| |ks|ks|k|]; cbn [view_of]; auto.
    - destruct (existsb _ ks) eqn:E; auto. apply existsb_exists in E. destruct E as (k & K & E).
      apply existsb_exists in E. destruct E as (x & X & E). apply Nat.eqb_eq in E. subst x.
      apply A6, A2 in K. destruct K as [_ K]. destruct K. apply in_flat_map in X. destruct X as (y & Y & X).
      destruct y; try destruct X as [<-|[]]; auto; destruct X.
    - destruct (existsb _ [k]) eqn:E; auto. exfalso. revert E. cbn. rewrite orb_false_r. intros E.
      assert (E' : existsb (Nat.eqb k) (deleted a) = true); [|congruence].
      apply existsb_exists. exists k. split; [|apply Nat.eqb_refl]. apply in_flat_map. exists (Delete k). split; [exact A6|now left].
  Qed.

  Lemma resize_closed opens args a c : fst (main_life e w sits order opens args) = a ++ c ->
    (resize_at a = Ignored <-> mode_after (session_of a) false).
  Proof.
    intros E. destruct (main_about opens args a c E) as (s & A & _). rewrite (resize_of a s A). pose proof (ab_mode _ _ A) as M.
    split; intros H.
    - destruct (at_place s); try discriminate H; exact M.
    - assert (O : is_open (at_place s) = false) by (eapply mode_unique; eauto). destruct (at_place s); auto; discriminate O.
  Qed.
  Lemma resize_open opens args a c : fst (main_life e w sits order opens args) = a ++ c -> mode_after (session_of a) true ->
    (resize_at a = Dangling <-> ~ in_view a) /\ (forall ks, resize_at a = Redraws ks -> forall k, In k ks -> In (New k) a /\ ~ In (Delete k) a).
  Proof.
    intros E M. destruct (main_about opens args a c E) as (s & A & _). rewrite (resize_of a s A). destruct A as [A1 A2 A3 A4 A5 A6 A7].
    assert (O : is_open (at_place s) = true) by (eapply mode_unique; eauto). rewrite A7. split.
    - destruct (at_place s) as [| |ks|ks|k|]; try discriminate O; (split; [intros H (ks' & K); discriminate|]); auto.
      intros H. destruct H. eauto.
    - destruct (at_place s) as [| |ks|ks|k|]; try discriminate. intros ks' H k K. injection H as <-. apply A6, A2 in K. rewrite A1. exact K.
  Qed.

  (** * What is displayed is in use *)
  Definition used_before (p : params) (a : list levent) (x : event) : Prop :=
    exists b ks docs, (a = b ++ [Use ks] \/ a = b ++ [Use ks; Ready]) /\ documents e w p ks docs /\ displays p x docs.
  Definition in_use (p : params) (l : list levent) : Prop :=
    forall a x c, l = a ++ Tell (Did x) :: c -> display_event x -> used_before p a x.

  Lemma in_use_app p l1 l2 : in_use p l1 -> in_use p l2 -> in_use p (l1 ++ l2).
  Proof.
    intros A B a x c E D. apply app_eq_app in E. destruct E as (l & [[E1 E2]|[E1 E2]]).
    - destruct l as [|y l]; cbn in E2.
      + rewrite app_nil_r in E1. subst l1. destruct (B [] x c (eq_sym E2) D) as (b & ks & docs & H & _).
        destruct H as [H|H]; destruct b; discriminate H.
      + injection E2 as <- E2. apply (A a x l); auto.
    - subst a. destruct (B l x c E2 D) as (b & ks & docs & H & H'). exists (l1 ++ b), ks, docs. split; [|exact H'].
      destruct H as [->| ->]; rewrite !app_assoc; auto.
  Qed.
  Lemma in_use_none p l : (forall x, In (Tell (Did x)) l -> ~ display_event x) -> in_use p l.
  Proof. intros H a x c -> D. destruct (H x); auto. apply in_elt. Qed.
  Lemma in_use_nil p : in_use p [].
  Proof. apply in_use_none. intros x []. Qed.
  Lemma in_use_told p evs : (forall x, In x evs -> ~ display_event x) -> in_use p (map Tell (map Did evs)).
  Proof.
    intros H. apply in_use_none. intros x I. apply in_map_iff in I. destruct I as (y & E & I). injection E as ->.
    apply in_map_iff in I. destruct I as (z & E & I). injection E as ->. auto.
  Qed.
  Lemma report_shows x : report x -> ~ display_event x.
  Proof. destruct x; cbn; tauto. Qed.
  Lemma reports_use p evs : Forall report evs -> in_use p (map Tell (map Did evs)).
  Proof. intros F. apply in_use_told. intros x I. apply report_shows. eapply Forall_forall in F; eauto. Qed.
  Lemma read_use p n i : in_use p (fst (readOne_life e w p n i)).
  Proof.
    unfold readOne_life. rewrite lbind_fst. cbn [lemit fst snd tells]. apply in_use_app.
    - apply in_use_none. intros x [H|[]]; discriminate H.
    - rewrite lift_fst. apply reports_use, one_report.
  Qed.
  Lemma in_use_block p l b ks docs x : documents e w p ks docs -> displays p x docs -> (l = b ++ [Use ks; Tell (Did x)] \/ l = b ++ [Use ks; Ready; Tell (Did x)]) ->
    (forall y, In (Tell (Did y)) b -> ~ display_event y) -> in_use p l.
  Proof.
    intros D S L N a y c E K.
    assert (P : exists m, l = (b ++ m) ++ [Tell (Did x)] /\ (m = [Use ks] \/ m = [Use ks; Ready])).
    { destruct L as [->| ->]; [exists [Use ks]|exists [Use ks; Ready]]; rewrite <- app_assoc; auto. }
    destruct P as (m & P & M). rewrite E in P.
    destruct (exists_last (l := Tell (Did y) :: c)) as (c' & z & C); [discriminate|].
    rewrite C, app_assoc in P. apply app_inj_tail in P. destruct P as [P ->].
    destruct c' as [|y' c'].
    - injection C as -> ->. rewrite app_nil_r in P. subst a. exists b, ks, docs. split; [|auto].
      destruct M as [->| ->]; auto.
    - exfalso. injection C as <- _. assert (I : In (Tell (Did y)) (b ++ m)) by (rewrite <- P; apply in_elt).
      apply in_app_iff in I. destruct I as [I|I]; [exact (N y I K)|].
      destruct M as [->| ->]; cbn in I; intuition discriminate.
  Qed.
  Lemma in_use_del p ks : in_use p (map Delete ks).
  Proof. apply in_use_none. intros x I. apply in_map_iff in I. destruct I as (k & E & _). discriminate E. Qed.

  Section Inputs.
    Variable p : params.
    Definition tail_at (n : nat) (inputs : list (bytes * src)) : Prop := forall j, nth_error inputs j = nth_error (getInputs p) (n + j).
    Lemma tail_S n i r : tail_at n (i :: r) -> tail_at (S n) r.
    Proof. intros T j. transitivity (nth_error (i :: r) (S j)); [reflexivity|]. rewrite T. f_equal. lia. Qed.
    Lemma tail_doc n i r root ws : tail_at n (i :: r) -> snd (readOneFile e w p i) = Val (Some (root, ws)) -> documents e w p [n] [(fst i, erase root)].
    Proof.
      intros T E. constructor; [|constructor]. exists i, root, ws. split; [|auto]. rewrite <- (Nat.add_0_r n), <- (T O). reflexivity.
    Qed.

    Lemma write_use : forall inputs n ws, tail_at n inputs -> in_use p (fst (writeAll_life e w p n inputs ws)).
    Proof.
      induction inputs as [|i r IH]; intros n ws T; cbn [writeAll_life]; [apply in_use_nil|].
      rewrite lbind_fst, read_val. apply in_use_app; [apply read_use|].
      destruct (snd (readOneFile e w p i)) as [[[root ws']|]|d|] eqn:E; try apply in_use_nil.
      rewrite lbind_fst. cbn [lemit fst snd]. apply in_use_app; [|apply IH; eapply tail_S; eauto].
      apply (in_use_app p [Use [n]; Tell (Did (EOut (display (p_compress p) (erase root))))] [Delete n]); [|apply (in_use_del p [n])].
      eapply (in_use_block p _ []); [eapply tail_doc; eauto| |left; reflexivity|intros y []]. cbn. eauto.
    Qed.
    Lemma view_use : forall inputs n ws, tail_at n inputs -> in_use p (fst (viewAll_life e w sits p n inputs ws)).
    Proof.
      induction inputs as [|i r IH]; intros n ws T; cbn [viewAll_life]; [apply in_use_nil|].
      rewrite lbind_fst, read_val. apply in_use_app; [apply read_use|].
      destruct (snd (readOneFile e w p i)) as [[[root ws']|]|d|] eqn:E; try apply in_use_nil.
      rewrite lbind_fst. cbn [lemit fst snd]. rewrite lbind_fst, sit_fst, sit_snd, app_assoc. apply in_use_app.
      - eapply (in_use_block p _ []); [eapply tail_doc; eauto| |right; reflexivity|intros y []]. reflexivity.
      - destruct (sits [(fst i, erase root)]) as [[]|d|]; try apply in_use_nil.
        rewrite lbind_fst. cbn [lemit fst snd]. apply in_use_app; [apply (in_use_del p [n])|apply IH; eapply tail_S; eauto].
    Qed.
    Lemma prettify_use : forall inputs n names ws, tail_at n inputs -> in_use p (fst (prettify_life e w p n inputs names ws)).
    Proof.
      induction inputs as [|i r IH]; intros n names ws T; cbn [prettify_life]; [apply in_use_nil|].
      rewrite lbind_fst, read_val. apply in_use_app; [apply read_use|].
      destruct (snd (readOneFile e w p i)) as [[[root ws']|]|d|] eqn:E; try apply in_use_nil.
      rewrite lbind_fst. cbn [tells fst snd]. rewrite lift_fst, lift_snd, create_tells. apply in_use_app; [apply in_use_nil|].
      destruct (snd (getOutputFile w (fst i))) as [fname|d|]; try apply in_use_nil.
      rewrite lbind_fst. cbn [lemit fst snd]. rewrite lbind_fst. cbn [tells lift emit fst snd map]. rewrite app_assoc. apply in_use_app.
      - eapply (in_use_block p _ []); [eapply tail_doc; eauto| |left; reflexivity|intros y []]. cbn. eauto.
      - rewrite lbind_fst. cbn [lemit fst snd]. apply in_use_app; [apply (in_use_del p [n])|apply IH; eapply tail_S; eauto].
    Qed.
    Lemma readAll_use : forall inputs n docs ws, tail_at n inputs -> documents e w p (seq 0 n) docs ->
      in_use p (fst (readAll_life e w order p n inputs docs ws)) /\
      (forall docs' ws', snd (readAll_life e w order p n inputs docs ws) = Val (inl (docs', ws')) -> documents e w p (seq 0 (n + length inputs)) docs').
    Proof.
      induction inputs as [|i r IH]; intros n docs ws T D; cbn [readAll_life].
      { split; [apply in_use_nil|]. intros docs' ws' H. injection H as <- <-. cbn [length]. rewrite Nat.add_0_r. exact D. }
      rewrite lbind_fst, lbind_snd, read_val.
      destruct (snd (readOneFile e w p i)) as [[[root ws']|]|d|] eqn:E.
      - destruct (IH (S n) (docs ++ [(fst i, erase root)]) (ws ++ ws')) as [U V]; [eapply tail_S; eauto| |].
        { rewrite seq_S. apply Forall2_app; [exact D|]. eapply tail_doc; eauto. }
        split; [apply in_use_app; [apply read_use|exact U]|]. intros docs' ws2 H. cbn [length].
        replace (n + S (length r))%nat with (S n + length r)%nat by lia. eapply V; eauto.
      - split; [|rewrite lbind_snd; discriminate]. apply in_use_app; [apply read_use|]. rewrite lbind_fst. cbn [lemit fst snd lret].
        rewrite app_nil_r. apply in_use_del.
      - split; [|discriminate]. rewrite app_nil_r. apply read_use.
      - split; [|discriminate]. rewrite app_nil_r. apply read_use.
    Qed.

    Lemma diff_use : in_use p (fst (diff_life e w sits order p)).
    Proof.
      unfold diff_life. rewrite lbind_fst.
      destruct (readAll_use (getInputs p) 0 [] []) as [U V]; [intros j; reflexivity|constructor|].
      apply in_use_app; [exact U|].
      destruct (snd (readAll_life e w order p 0 (getInputs p) [] [])) as [[[docs ws]|[]]|d|]; try apply in_use_nil.
      specialize (V docs ws eq_refl). cbn [Nat.add] in V.
      cbv zeta. rewrite lbind_fst. cbn [lemit fst snd]. rewrite lbind_fst. destruct (length docs =? 3)%nat.
      - cbn [fst snd]. apply in_use_none. cbn. intros x [H|[H|[]]]; discriminate H.
      - rewrite lbind_fst, lbind_snd. cbn [lemit fst snd]. rewrite sit_fst, sit_snd, app_assoc. apply in_use_app.
        + eapply (in_use_block p _ [Tell Opened]); [exact V| |right; reflexivity|intros y [H|[]]; discriminate H]. reflexivity.
        + destruct (sits docs) as [[]|d|]; try apply in_use_nil.
          rewrite lbind_fst. cbn [lemit fst snd]. rewrite lbind_fst. cbn [lemit fst snd tells]. apply in_use_app.
          * apply in_use_none. intros x [H|[]]; discriminate H.
          * apply in_use_app; [apply in_use_del|]. rewrite lift_fst. apply reports_use, warnings_tell.
    Qed.
  End Inputs.

  Lemma displayed_used opens args a x c : fst (main_life e w sits order opens args) = a ++ Tell (Did x) :: c -> display_event x ->
    exists p b ks docs, Params_read opens args = PNext p /\ (a = b ++ [Use ks] \/ a = b ++ [Use ks; Ready]) /\
      documents e w p ks docs /\ displays p x docs.
  Proof.
    unfold main_life. destruct (Params_read opens args) as [p| |] eqn:EP.
    2, 3: intros H; destruct a; discriminate H.
    intros H D.
    assert (U : in_use p (fst (match p_cmd p with
         | Some d => external_life e w p d
         | None =>
             if p_diff p then diff_life e w sits order p
             else if negb (p_compress p) && tty w then run_life e w sits p else stdout_life e w p
         end))).
    { destruct (p_cmd p) as [d|]; [|destruct (p_diff p); [|destruct (negb (p_compress p) && tty w)]].
      - unfold external_life. rewrite lbind_fst. apply in_use_app; [apply prettify_use; intros j; reflexivity|].
        destruct (snd (prettify_life e w p 0 (getInputs p) [] [])) as [[[names ws]|names]|dd|]; try apply in_use_nil.
        + cbn [tells fst]. rewrite lift_fst. apply in_use_told.
          assert (UL : forall ns y, In y (fst (unlink_all ns)) -> ~ display_event y).
          { intros ns y Y. apply in_map_iff in Y. destruct Y as (z & <- & _). cbn. tauto. }
          intros y X. rewrite bind_fst in X. apply in_app_iff in X.
          destruct X as [X|X]; [apply report_shows; exact (proj1 (Forall_forall _ _) (warnings_tell ws) y X)|].
          destruct (snd (displayWarnings ws)); [|destruct X|destruct X].
          destruct (computeArgv d names); [|destruct X]. destruct (fork_ok w); [|exact (UL _ _ X)].
          rewrite bind_fst in X. cbn [emit fst snd app] in X. destruct X as [<-|X]; [cbn; tauto|]. rewrite bind_fst in X. apply in_app_iff in X.
          assert (WP : forall c, fst (wait_parent c) = []) by (intros [[]|]; reflexivity).
          destruct X as [X|X].
          * destruct (exec_ok w); [rewrite WP in X; destruct X|]. destruct (garbage_exited w); [|destruct X].
            rewrite bind_fst in X. apply in_app_iff in X. destruct X as [X|X]; [exact (UL _ _ X)|]. destruct X.
          * match type of X with context [match ?o with Val _ => _ | _ => _ end] => destruct o end; [exact (UL _ _ X)|destruct X|destruct X].
        + cbn [tells fst]. rewrite lift_fst. apply in_use_told. intros y Y. apply in_map_iff in Y. destruct Y as (z & <- & _). cbn. tauto.
      - apply diff_use.
      - unfold run_life. rewrite lbind_fst. cbn [lemit fst snd]. apply in_use_app; [apply in_use_none; intros y [Y|[]]; discriminate Y|].
        rewrite lbind_fst. apply in_use_app; [apply view_use; intros j; reflexivity|].
        destruct (snd (viewAll_life e w sits p 0 (getInputs p) [])) as [ws|d|]; try apply in_use_nil.
        rewrite lbind_fst. cbn [lemit fst snd tells]. apply in_use_app; [apply in_use_none; intros y [Y|[]]; discriminate Y|].
        rewrite lift_fst. apply reports_use, warnings_tell.
      - unfold stdout_life. rewrite lbind_fst. apply in_use_app; [apply write_use; intros j; reflexivity|].
        destruct (snd (writeAll_life e w p 0 (getInputs p) [])) as [ws|d|]; try apply in_use_nil.
        cbn [tells fst]. rewrite lift_fst. apply reports_use, warnings_tell. }
    rewrite lbind_fst in H.
    match type of H with _ ++ ?r = _ => assert (Y : r = []) end.
    { match goal with |- match ?o with _ => _ end = [] => destruct o end; reflexivity. }
    rewrite Y, app_nil_r in H. destruct (U a x c H D) as (b & ks & docs & R). exists p, b, ks, docs. auto.
  Qed.
End Runs.

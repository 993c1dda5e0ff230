(** What each key does in the comparison. *)
From Verif Require Import Proofs.RowProofs Proofs.DrawProofs Proofs.ViewProofs Proofs.KeyProofs Proofs.SplitMem Proofs.PressProofs Proofs.InvProofs Proofs.ShownProofs.
From Verif Require Export Proofs.SplitRows.
From Coq Require Import Lia ZifyBool.
Open Scope Z_scope.

(** The redraw that ended the loop. *)
Lemma redraws_last h m f : forall sc p p', redraws h m f sc p = Done p' ->
  pact p' = pact p /\ pcoll p' = pcoll p /\ map core (pwins p') = map core (pwins p) /\ exists ws, redraw_all h sc (pcoll p) m ws = Done (true, pwins p').
Proof.
  induction f as [|f IH]; intros sc p p' E; [discriminate E|]. cbn [redraws] in E. assert (C := redraw_core h sc (pcoll p) m (pwins p)).
  destruct (redraw_all h sc (pcoll p) m (pwins p)) as [[b ws]|] eqn:R; [|discriminate E]. cbn [SplitView.bind ok snd] in *. destruct b.
  - injection E as <-. cbn [pact pcoll pwins]. repeat split; [exact C|eauto].
  - destruct (IH _ _ _ E) as (E1 & E2 & E3 & ws' & E4). cbn [pact pcoll pwins] in *. rewrite E2 in *. repeat split; [exact E1|congruence|eauto].
Qed.

Definition sides (a b : node) (p : SplitView.split) (r r' : node) (w v : win) : Prop :=
  (pact p = 0 /\ r = a /\ r' = b /\ pwins p = [w; v]) \/ (pact p = 1 /\ r = b /\ r' = a /\ pwins p = [v; w]).

Section Press.
  Variable (rx : bytes -> bool -> bytes -> bool) (f : nat) (a b : node) (m : mat) (len : elem -> Z) (sc : screen).
  Hypothesis OK : comparable a b m len f.
  Hypothesis G : roomy_windows sc.
  Hypothesis LEN : slen sc = len.
  Notation h := (split_memory a b).

  Lemma ok_ma : in_memory a. Proof. apply OK. Qed.
  Lemma ok_mb : in_memory b. Proof. apply OK. Qed.
  Lemma ok_dis : NoDup (ids a ++ ids b). Proof. apply OK. Qed.
  Lemma good : good_screen len sc.
  Proof. destruct G as [G1 G2]. split; [exact G1|]. split; [exact G2|exact LEN]. Qed.

  Lemma settle p : J a b m p -> exists p', redraws h m f sc p = Done p' /\ compares a b m sc p' /\ pact p' = pact p /\ pcoll p' = pcoll p /\ map core (pwins p') = map core (pwins p).
  Proof.
    intros JP. assert (OK' := OK). destruct OK' as (MA & MB & FA & FB & D & B & SL & BK & FU).
    assert (X := redraws_J a b m MA MB D len f SL BK FU sc p good JP). destruct (redraws h m f sc p) as [p'|] eqn:R; [|destruct X]. destruct X as [J' _]. exists p'. split; [reflexivity|].
    destruct (redraws_last _ _ _ _ _ _ R) as (E1 & E2 & E3 & ws & E4). split; [|auto]. split; [exists ws; rewrite E2; exact E4|].
    assert (JR := J_row a b m p' J'). assert (JF := J_folds a b m p' J'). destruct J' as (w0 & w1 & E & H).
    assert (BS : base a b m (pcoll p') w0 w1) by (destruct H as [[_ H]|[_ H]]; [exact (proj1 H)|apply base_sym, (proj1 H)]).
    destruct BS as (P0 & P1 & S0 & S1 & H0 & H1 & CL).
    split. { exists w0, w1. split; [exact E|]. destruct P0 as (Q1 & Q2 & Q3), P1 as (Q4 & Q5 & Q6). split; repeat split; assumption. }
    split. { intros w i I. rewrite E in I. destruct I as [<-|[<-|[]]]; [apply H0|apply H1]. }
    split. { unfold two_windows. rewrite E. split; [reflexivity|]. destruct H as [[-> _]|[-> _]]; auto. }
    split; [exact JR|]. split; [|exact JF]. exists w0, w1. split; [exact E|]. destruct H as [[-> (_ & _ & X)]|[-> (_ & _ & X)]]; auto.
  Qed.

  (** A resting state: the active side and the other one. *)
  Lemma compares_led p w : compares a b m sc p -> active p = Some w -> exists r r' v, sides a b p r r' w v /\ led r r' m (pcoll p) w v /\ wroot w = r.
  Proof.
    intros (_ & (w0 & w1 & E & R0 & R1) & H & (_ & T) & (w' & i & A' & S & _) & (v0 & v1 & E' & MI) & F) A. rewrite A in A'. injection A' as <-.
    rewrite E in E'. injection E' as <- <-. destruct R0 as (Q0 & L0 & I0 & T0), R1 as (Q1 & L1 & I1 & T1).
    assert (CL : SplitKeys.closed m (pcoll p)). { intros x y Q. apply F in Q. rewrite <- !mem_In in Q. destruct (mem x _), (mem y _); intuition congruence. }
    assert (H0 : held w0) by (intros x; apply H; rewrite E; left; reflexivity). assert (H1 : held w1) by (intros x; apply H; rewrite E; right; left; reflexivity).
    unfold active in A. rewrite E in A. destruct MI as [[P MI]|[P MI]]; rewrite P in A; cbn in A; injection A as <-.
    - exists a, b, w1. split; [left; auto|]. split; [|exact Q0]. split; [|split; [eauto|exact MI]]. repeat split; assumption.
    - exists b, a, w0. split; [right; auto|]. split; [|exact Q1]. split; [|split; [eauto|exact MI]]. repeat split; assumption.
  Qed.
  Lemma compares_J p : compares a b m sc p -> J a b m p.
  Proof.
    intros C. assert (C' := C). destruct C' as (_ & _ & _ & _ & (w & i & A & _) & _). destruct (compares_led p w C A) as (r & r' & v & S & L & _).
    destruct S as [(P & -> & -> & E)|(P & -> & -> & E)]; [exists w, v|exists v, w]; auto.
  Qed.

  Lemma sides_at p r r' w v : sides a b p r r' w v -> at_ p (pact p) = Done w.
  Proof. unfold at_. intros [(-> & _ & _ & ->)|(-> & _ & _ & ->)]; reflexivity. Qed.
  Lemma sides_mem p r r' w v : sides a b p r r' w v -> in_memory r /\ (forall i, In i (ids r) -> lookup h i = lookup (elems r) i) /\ (length (elems r) <= length h)%nat /\
    (forall x y, getEquivalence m x = Some y -> In x (ids r) -> ~ In y (ids r)).
  Proof.
    assert (OK' := OK). destruct OK' as (MA & MB & FA & FB & D & B & _).
    intros [(_ & -> & _)|(_ & -> & _)].
    - split; [exact MA|]. split; [apply lk_a, MA|]. split; [apply len_a|]. intros x y Q I J. exact (not_b a b D _ J (side_a a b m FA FB D B _ _ Q I)).
    - split; [exact MB|]. split; [apply lk_b; assumption|]. split; [apply len_b|]. intros x y Q I J. exact (not_a a b D _ J (side_b a b m FA FB D B _ _ Q I)).
  Qed.

  (** Both windows are drawn. *)
  Lemma compares_drawn p w : compares a b m sc p -> In w (pwins p) ->
    exists r l, in_memory r /\ wroot w = r /\ wlast w = Some l /\ drawn_all r (pcoll p) l w.
  Proof.
    assert (OK' := OK). destruct OK' as (MA & MB & FA & FB & D & B & _).
    intros ((ws & R) & (w0 & w1 & E & R0 & R1) & H & _) I. assert (C := redraw_core h sc (pcoll p) m ws). rewrite R in C. cbn [ok snd] in C. rewrite E in C.
    destruct ws as [|u0 [|u1 [|]]]; try discriminate C. cbn [map] in C. unfold core in C. injection C as C1 C2 C3 _ C5 C6 C7 _.
    destruct R0 as (Q0 & (l0 & L0 & I0) & _), R1 as (Q1 & (l1 & L1 & I1) & _).
    assert (H0 : held u0) by (intros x; rewrite <- C2, <- C3; apply H; rewrite E; left; reflexivity). assert (H1 : held u1) by (intros x; rewrite <- C6, <- C7; apply H; rewrite E; right; left; reflexivity).
    assert (N : forall x : node * Z, x = (a, l0) \/ x = (b, l1) -> in_memory (fst x) /\ (forall i, In i (ids (fst x)) -> lookup h i = lookup (elems (fst x)) i) /\
      (length (elems (fst x)) <= length h)%nat /\ In (snd x) (rows (pcoll p) (fst x))).
    { intros x [-> | ->]; cbn [fst snd]; (split; [assumption|]); (split; [first [apply lk_a; assumption|apply lk_b; assumption]|]); (split; [first [apply len_a|apply len_b]|]); assumption. }
    assert (W := each_window h sc (pcoll p) m (node * Z) (fun x w => (x = (a, l0) \/ x = (b, l1)) /\ under_way (fst x) (pcoll p) (snd x) w) (fun x w => drawn_all (fst x) (pcoll p) (snd x) w)).
    assert (F2 : Forall2 (fun x w => drawn_all (fst x) (pcoll p) (snd x) w) [(a, l0); (b, l1)] (pwins p)).
    { apply (W) with (ws := [u0; u1]); try exact R.
      - intros x u [X U]. destruct (N x X) as (N1 & N2 & N3 & N4). eapply ok_mono; [apply (one_rows (fst x) h sc (pcoll p) m N1 N2 N3 (snd x) u N4 U)|]. intros [[[|]|] u'] K; cbn [item_ok] in *; auto.
      - intros x u y U. exact U.
      - intros x u y U. exact U.
      - intros x u y U. exact U.
      - intros x u y U. exact U.
      - constructor; [|constructor; [|constructor]]; (split; [auto|]); cbn [fst snd]; apply start_under_way; congruence || assumption. }
    rewrite E in F2, I. inversion F2 as [|? ? ? ? F0 F3]; subst. inversion F3 as [|? ? ? ? F1 _]; subst.
    destruct I as [<-|[<-|[]]]; [exists (wroot w0), l0|exists (wroot w1), l1]; cbn [fst snd] in *; auto.
  Qed.

  Lemma drawn_aims r coll l w : drawn_all r coll l w -> ready_rows r coll w.
  Proof.
    intros (_ & pre & q & rest & _ & E & U & d & DN & O). exists (hd l (rev pre)), d. split; [exact U|]. split; [exact DN|]. rewrite E. split.
    - apply in_or_app. assert (X := hd_rev_in pre l). destruct (rev pre); cbn [hd] in *; apply in_app_or in X; destruct X as [X|[X|[]]]; [auto|right; left; exact X|auto|right; left; exact X].
    - apply in_or_app. right. destruct O as [-> | (-> & [-> | O] & _)]; [|left; reflexivity|right; exact O].
      destruct (q ++ rest); [left; reflexivity|right; left; reflexivity].
  Qed.
  Lemma compares_aims p : compares a b m sc p -> aims2 a b p.
  Proof.
    intros C. assert (C' := C). destruct C' as (_ & (w0 & w1 & E & (Q0 & _) & (Q1 & _)) & _). exists w0, w1. split; [exact E|].
    split.
    - destruct (compares_drawn p w0 C ltac:(rewrite E; left; reflexivity)) as (r & l & _ & R & _ & X). rewrite <- Q0, R. exact (drawn_aims _ _ _ _ X).
    - destruct (compares_drawn p w1 C ltac:(rewrite E; right; left; reflexivity)) as (r & l & _ & R & _ & X). rewrite <- Q1, R. exact (drawn_aims _ _ _ _ X).
  Qed.

  Lemma core_res ws vs : map core vs = map core ws -> map wres vs = map wres ws.
  Proof. revert vs. induction ws as [|w ws IH]; intros [|v vs] E; try discriminate E; [reflexivity|]. cbn [map] in *. injection E as _ _ _ E1 E2. rewrite E1, (IH _ E2). reflexivity. Qed.

  Lemma press_redraw k p o p1 : compares a b m sc p -> str k <> str "/" -> str k <> str "N" -> o = Redraw \/ o = RedrawAll ->
    (forall q, split_key h m rx sc (str k) q p = Done (o, p1)) -> map wres (pwins p1) = map wres (pwins p) ->
    exists p', presses rx f a b m sc k p p' /\ pact p' = pact p1 /\ pcoll p' = pcoll p1 /\ map core (pwins p') = map core (pwins p1).
  Proof.
    intros C K1 K2 O E W. assert (OK' := OK). destruct OK' as (MA & MB & FA & FB & D & B & _).
    assert (X := key_J a b m MA MB FA FB D B rx sc (str k) None p (compares_J p C) (compares_aims p C) K1 K2). rewrite E in X. cbn [ok] in X.
    assert (J1 : J a b m p1) by (destruct O as [-> | ->]; exact X).
    destruct (settle p1 J1) as (p' & R & C' & E1 & E2 & E3). exists p'. split; [|auto]. split; [|split; [exact C'|rewrite <- W; apply core_res, E3]].
    intros q. cbn [split_wait]. rewrite E. cbn [SplitView.bind]. rewrite R. destruct O as [-> | ->]; reflexivity.
  Qed.
  Lemma press_nothing k p : compares a b m sc p -> (forall q, split_key h m rx sc (str k) q p = Done (NextInput, p)) -> presses rx f a b m sc k p p.
  Proof. intros C E. split; [|auto]. intros q. cbn [split_wait]. rewrite E. reflexivity. Qed.

  Lemma select_core p r r' w v s : sides a b p r r' w v -> map wres (pwins (setSelection m p (Some s))) = map wres (pwins p) /\
    forall p', pact p' = pact p -> pcoll p' = pcoll p -> map core (pwins p') = map core (pwins (setSelection m p (Some s))) -> selects p p' s.
  Proof.
    intros [(P & _ & _ & E)|(P & _ & _ & E)]; unfold setSelection; rewrite P, E; cbn [pwins]; cbn -[set_wsel getEquivalence core map]; (split; [reflexivity|]); intros p' E1 E2 E3; cbn [map] in E3;
      destruct (pwins p') as [|v0 [|v1 [|]]] eqn:W; try discriminate E3; cbn [map] in E3; unfold core in E3; cbn [set_wsel wroot wsel wlast wres] in E3; injection E3 as E4 E5 E6 E7 E8 E9 E10 E11;
      unfold selects, active, inactive; rewrite E, W, E1, P; (split; [reflexivity|]); (split; [exact E2|]).
    - split; [exists v0; split; [reflexivity|exact E5]|]. exists v, v1. split; [reflexivity|]. split; [reflexivity|]. rewrite E9, E10. intros ->. reflexivity.
    - split; [exists v1; split; [reflexivity|exact E9]|]. exists v, v0. split; [reflexivity|]. split; [reflexivity|]. rewrite E5, E6. intros ->. reflexivity.
  Qed.
  Lemma press_select k p w s : compares a b m sc p -> active p = Some w -> str k <> str "/" -> str k <> str "N" ->
    (forall q, split_key h m rx sc (str k) q p = Done (Redraw, setSelection m p (Some s))) ->
    exists p', presses rx f a b m sc k p p' /\ selects p p' s.
  Proof.
    intros C A K1 K2 E. destruct (compares_led p w C A) as (r & r' & v & S & _). destruct (select_core p r r' w v s S) as (W & X).
    destruct (press_redraw k p Redraw _ C K1 K2 (or_introl eq_refl) E W) as (p' & P & E1 & E2 & E3). exists p'. split; [exact P|]. apply X; assumption.
  Qed.

  (** The active window's rows. *)
  Lemma chosen_drawn p w pre i post : compares a b m sc p -> chosen p w pre i post ->
    exists q rest, drawn_rows (wroot w) (pcoll p) w = pre ++ i :: q /\ post = q ++ rest /\ wup w = Some (hd i (rev pre)) /\
    exists d, wdown w = Some d /\ (d = hd i post \/
      q = [] /\ (d = i \/ In d post) /\ forall n, nid n = i -> In (ENode n) (elems (wroot w)) -> inside (pcoll p) n = []).
  Proof.
    intros C (A & S & E). assert (IW : In w (pwins p)) by (unfold active in A; apply nth_error_In in A; exact A).
    destruct (compares_drawn p w C IW) as (r & l & M & R & L & X). assert (l = i) by (destruct C as (_ & _ & H & _); specialize (H w i IW S); congruence). subst l r.
    destruct X as (_ & pre' & q & rest & D & E' & U & d & DN & O).
    assert (Y : pre = pre' /\ post = q ++ rest).
    { rewrite E in E'. assert (ND := rows_NoDup (wroot w) M (pcoll p)). rewrite E in ND. clear - E' ND. revert pre' E' ND. induction pre as [|x pre IH]; intros [|y pre'] X N; cbn [app] in *.
      - injection X as X. auto.
      - injection X as <- X. exfalso. inversion N as [|? ? N1 _]; subst. apply N1. apply in_or_app. right. left. reflexivity.
      - injection X as -> X. exfalso. inversion N as [|? ? N1 _]; subst. apply N1, in_or_app. right. left. reflexivity.
      - injection X as <- X. inversion N as [|? ? _ N2]; subst. destruct (IH pre' X N2) as [-> ->]. auto. }
    destruct Y as [<- ->]. exists q, rest. split; [exact D|]. split; [reflexivity|]. split; [exact U|]. exists d. split; [exact DN|].
    destruct O as [O|(-> & O & N)]; [left; exact O|right]. split; [reflexivity|]. split; [exact O|]. intros n. exact (N n S).
  Qed.

  Lemma press_up k p w pre i post : compares a b m sc p -> chosen p w pre i post -> k = "K"%string \/ k = "KEY_UP"%string ->
    exists p', presses rx f a b m sc k p p' /\ selects p p' (hd i (rev pre)).
  Proof.
    intros C H K. destruct (chosen_drawn p w pre i post C H) as (_ & _ & _ & _ & U & _). destruct H as (A & _). destruct (compares_led p w C A) as (r & r' & v & S & _).
    apply (press_select k p w _ C A); [destruct K as [-> | ->]; discriminate|destruct K as [-> | ->]; discriminate|].
    assert (E : split_up m p = Done (Redraw, setSelection m p (Some (hd i (rev pre))))) by (unfold split_up; rewrite (sides_at _ _ _ _ _ S); cbn [SplitView.bind]; rewrite U; reflexivity).
    intros q. destruct K as [-> | ->]; exact E.
  Qed.

  Lemma drawn_undrawn r coll w pre i post : in_memory r -> rows coll r = pre ++ i :: post -> drawn_rows r coll w = pre ++ [i] -> undrawn w post.
  Proof.
    intros M E D x y I J. assert (X : In x (drawn_rows r coll w)).
    { unfold drawn_rows. rewrite <- in_rev. apply in_map_iff. exists (x, false, y). split; [reflexivity|]. apply filter_In. split; [exact I|]. unfold is_drawn. cbn [fst snd negb andb].
      apply mem_In. rewrite E. apply in_or_app. right. right. exact J. }
    rewrite D in X. assert (ND := rows_NoDup r M coll). rewrite E in ND. replace (pre ++ i :: post) with ((pre ++ [i]) ++ post) in ND by (rewrite <- app_assoc; reflexivity).
    exact (NoDup_app_not _ _ x ND X J).
  Qed.

  Lemma down_result p w pre i post : compares a b m sc p -> chosen p w pre i post -> exists s, split_down m p = Done (Redraw, setSelection m p (Some s)) /\
    (s = hd i post \/ undrawn w post /\ (s = i \/ In s post) /\ forall n, nid n = i -> In (ENode n) (elems (wroot w)) -> inside (pcoll p) n = []).
  Proof.
    intros C H. destruct (chosen_drawn p w pre i post C H) as (q & rest & D & E & _ & d & DN & O). destruct H as (A & SS & ER). destruct (compares_led p w C A) as (r & r' & v & S & _ & R).
    exists d. split; [unfold split_down; rewrite (sides_at _ _ _ _ _ S); cbn [SplitView.bind]; rewrite DN; reflexivity|].
    destruct O as [O|(-> & O & N)]; [left; exact O|right]. split; [|auto]. apply (drawn_undrawn (wroot w) (pcoll p) w pre i); [|exact ER|exact D]. rewrite R. apply (sides_mem _ _ _ _ _ S).
  Qed.
  Lemma press_down k p w pre i post : compares a b m sc p -> chosen p w pre i post -> k = "J"%string \/ k = "KEY_DOWN"%string ->
    exists p' s, presses rx f a b m sc k p p' /\ selects p p' s /\
      (s = hd i post \/ undrawn w post /\ (s = i \/ In s post) /\ forall n, nid n = i -> In (ENode n) (elems (wroot w)) -> inside (pcoll p) n = []).
  Proof.
    intros C H K. destruct (down_result p w pre i post C H) as (s & E & O). destruct H as (A & _).
    destruct (press_select k p w s C A) as (p' & P & Q); [destruct K as [-> | ->]; discriminate|destruct K as [-> | ->]; discriminate|intros q; destruct K as [-> | ->]; exact E|].
    exists p', s. auto.
  Qed.

  (** What is known of the active window. *)
  Lemma active_side p w i : compares a b m sc p -> active p = Some w -> wsel w = Some i ->
    in_memory (wroot w) /\ (forall i, In i (ids (wroot w)) -> lookup h i = lookup (elems (wroot w)) i) /\ (length (elems (wroot w)) <= length h)%nat /\
    at_ p (pact p) = Done w /\ In i (rows (pcoll p) (wroot w)) /\ (forall x y, getEquivalence m x = Some y -> In x (ids (wroot w)) -> ~ In y (ids (wroot w))).
  Proof.
    intros C A S. destruct (compares_led p w C A) as (r & r' & v & SD & L & R). subst r. destruct (sides_mem _ _ _ _ _ SD) as (M & LK & LE & NE).
    repeat split; try assumption; try apply M; [apply (sides_at _ _ _ _ _ SD)|]. destruct L as (((_ & _ & Q) & _) & _). exact (Q i S).
  Qed.

  Lemma press_page_up p w r before i : compares a b m sc p -> active p = Some w -> wsel w = Some i -> held_by (wroot w) r before i ->
    exists p', presses rx f a b m sc "KEY_PPAGE" p p' /\ selects p p' (match rev before with s :: _ => s | [] => r end).
  Proof.
    intros C A S H. destruct (active_side p w i C A S) as (M & LK & LE & AT & V & _).
    destruct (held_place (wroot w) M _ r before i H V) as (k & pre & q & post & l1 & e & l2 & P & CC & K & <- & <- & <-).
    assert (IV := value_in (wroot w) _ (place_in (wroot w) _ _ _ _ _ P)). assert (J : In e (children (value_of q))) by (rewrite K; apply in_elt).
    assert (IE := kid_in (wroot w) _ _ IV J).
    apply (press_select "KEY_PPAGE" p w _ C A); [discriminate|discriminate|]. intros p0. change (split_pup h m p = Done (Redraw, setSelection m p (Some (match rev (map eid l1) with s :: _ => s | [] => eid q end)))).
    unfold split_pup. rewrite AT. cbn [SplitView.bind]. rewrite S. cbn [lift SplitView.bind]. rewrite (findPrev_h (wroot w) h M LK _ (elem_id (wroot w) _ IE)).
    rewrite (findPrev_child (wroot w) M _ _ _ _ IV K). cbn [lift SplitView.bind]. destruct (rev (map eid l1)) as [|x l]; cbn [hd_error]; [|reflexivity].
    rewrite (lookup_h (wroot w) h M LK _ IE). cbn [lift SplitView.bind]. rewrite (child_parent (wroot w) M _ _ IV J). unfold is_cont_at.
    rewrite (lookup_h (wroot w) h M LK _ IV : lookup h (nid (value_of q)) = _). cbn [lift SplitView.bind]. rewrite (container_child _ _ J).
    rewrite (row_at_place (wroot w) h M LK _ _ _ _ _ P). reflexivity.
  Qed.
  Lemma press_page_up_root p w : compares a b m sc p -> active p = Some w -> wsel w = Some (nid (wroot w)) -> presses rx f a b m sc "KEY_PPAGE" p p.
  Proof.
    intros C A S. destruct (active_side p w _ C A S) as (M & LK & LE & AT & V & _). apply press_nothing; [exact C|]. intros q. change (split_pup h m p = Done (NextInput, p)).
    unfold split_pup. rewrite AT. cbn [SplitView.bind]. rewrite S. cbn [lift SplitView.bind]. rewrite (findPrev_h (wroot w) h M LK _ (elem_id (wroot w) _ (root_in _)) : findPrev h (nid (wroot w)) = _).
    rewrite (findPrev_root (wroot w) M : findPrev (elems (wroot w)) (eid (ENode (wroot w))) = _). cbn [lift SplitView.bind]. rewrite (lookup_h (wroot w) h M LK _ (root_in _) : lookup h (nid (wroot w)) = _). cbn [lift SplitView.bind].
    rewrite (root_parent (wroot w) M). reflexivity.
  Qed.

  Lemma findNext_enough g : forall hh i o g', findNext g hh i = Some o -> (g <= g')%nat -> findNext g' hh i = Some o.
  Proof.
    induction g as [|g IH]; intros hh i o g' E L; [discriminate E|]. destruct g' as [|g']; [lia|]. cbn [findNext] in *.
    destruct (lookup hh i) as [e|]; [|discriminate E]. cbn [obind] in *. destruct (epar e) as [q|]; [|exact E].
    destruct (lookup hh q) as [[c|]|]; cbn [obind] in *; try exact E. destruct (is_container c); [|exact E]. destruct (after _ _); [exact E|]. apply IH; [exact E|lia].
  Qed.
  Lemma page_down_key p w i o : compares a b m sc p -> active p = Some w -> wsel w = Some i -> findNext (deep (wroot w)) (elems (wroot w)) i = Some o ->
    split_pdown h m p = Done (match o with Some s => (Redraw, setSelection m p (Some s)) | None => (NextInput, p) end).
  Proof.
    intros C A S FN. destruct (active_side p w i C A S) as (M & LK & LE & AT & V & _). unfold split_pdown. rewrite AT. cbn [SplitView.bind]. rewrite S. cbn [lift SplitView.bind].
    rewrite (findNext_h (wroot w) h M LK _ _ (rows_ids (wroot w) _ _ V)).
    rewrite (findNext_enough _ _ _ _ (far h) FN) by (unfold far, deep, mem_of; lia). destruct o; reflexivity.
  Qed.
  Lemma press_page_down p w t i n : compares a b m sc p -> active p = Some w -> wsel w = Some i -> In t (wroot w :: entry_values (wroot w)) -> In (i, n) (ViewSpec.level t) ->
    exists pre post p', inside [] t = pre ++ i :: inside [] n ++ post /\ presses rx f a b m sc "KEY_NPAGE" p p' /\
      match post with s :: _ => selects p p' s | [] => p' = p end.
  Proof.
    intros C A S T I. destruct (active_side p w i C A S) as (M & _). destruct (findNext_level (wroot w) M t i n T I) as (pre & post & E & FN). exists pre, post.
    assert (EV := page_down_key p w i _ C A S FN). destruct post as [|s post]; cbn [hd_error] in EV.
    - exists p. split; [exact E|]. split; [|reflexivity]. apply press_nothing; [exact C|]. intros q. exact EV.
    - destruct (press_select "KEY_NPAGE" p w s C A ltac:(discriminate) ltac:(discriminate) (fun _ => EV)) as (p' & P & Q). exists p'. auto.
  Qed.
  Lemma press_page_down_root p w : compares a b m sc p -> active p = Some w -> wsel w = Some (nid (wroot w)) -> presses rx f a b m sc "KEY_NPAGE" p p.
  Proof.
    intros C A S. destruct (active_side p w _ C A S) as (M & _). apply press_nothing; [exact C|]. intros q. exact (page_down_key p w _ None C A S (findNext_root (wroot w) M _)).
  Qed.

  (** Left and Right. *)
  Lemma press_folds k p c : compares a b m sc p -> str k <> str "/" -> str k <> str "N" -> (forall q, split_key h m rx sc (str k) q p = Done (Redraw, mkSplit (pwins p) (pact p) c)) ->
    exists p', presses rx f a b m sc k p p' /\ same_selections p p' /\ pcoll p' = c.
  Proof.
    intros C K1 K2 E. destruct (press_redraw k p Redraw _ C K1 K2 (or_introl eq_refl) E eq_refl) as (p' & P & E1 & E2 & E3). cbn [pact pcoll pwins] in *. exists p'. split; [exact P|]. split; [|exact E2].
    split; [exact E1|]. revert E3. generalize (pwins p). generalize (pwins p'). induction l as [|x l IH]; intros [|y l'] X; try discriminate X; [split; reflexivity|].
    cbn [map] in *. unfold core in X at 1 3. injection X as _ X1 X2 _ X. destruct (IH l' X) as [Y1 Y2]. split; congruence.
  Qed.

  Lemma other_rows r c y : (forall x, y = Some x -> ~ In x (ids r)) -> rows (insert_opt y c) r = rows c r /\ rows (erase_opt y c) r = rows c r.
  Proof.
    intros N. destruct y as [y|]; [|split; reflexivity]. cbn [insert_opt erase_opt]. specialize (N y eq_refl).
    split; apply (rows_elsewhere r y); [intros j; apply mem_insert|exact N|intros j; apply mem_remove|exact N].
  Qed.

  Lemma press_fold k p w i n : compares a b m sc p -> active p = Some w -> wsel w = Some i -> In (i, n) (shown (nid (wroot w)) (wroot w)) -> inside (pcoll p) n <> [] ->
    k = "H"%string \/ k = "KEY_LEFT"%string ->
    exists p' pre post, presses rx f a b m sc k p p' /\ same_selections p p' /\
      (forall j, In j (pcoll p') <-> j = nid n \/ getEquivalence m (nid n) = Some j \/ In j (pcoll p)) /\
      rows (pcoll p) (wroot w) = pre ++ i :: inside (pcoll p) n ++ post /\ rows (pcoll p') (wroot w) = pre ++ i :: post.
  Proof.
    intros C A S SH NE K. destruct (active_side p w i C A S) as (M & LK & LE & AT & V & NO).
    destruct (shown_visible (wroot w) M _ _ _ SH V) as (k1 & pre & e & post & P & <- & <-). assert (IE := place_in (wroot w) _ _ _ _ _ P).
    assert (EV : split_collapse h m p = Done (Redraw, mkSplit (pwins p) (pact p) (insert_opt (equivalent m (Some (nid (value_of e)))) (insert (nid (value_of e)) (pcoll p))))).
    { unfold split_collapse. rewrite AT. cbn [SplitView.bind]. rewrite S. cbn [lift SplitView.bind]. rewrite (lookup_h (wroot w) h M LK _ IE). cbn [lift SplitView.bind]. cbv zeta.
      rewrite inside_children in NE. destruct (mem _ _); [contradiction NE; reflexivity|]. destruct (children (value_of e)) as [|x xs] eqn:CH; [contradiction NE; reflexivity|].
      rewrite (container_child (value_of e) x) by (rewrite CH; left; reflexivity). rewrite andb_false_r. reflexivity. }
    destruct (press_folds k p _ C ltac:(destruct K as [-> | ->]; discriminate) ltac:(destruct K as [-> | ->]; discriminate) ltac:(intros q; destruct K as [-> | ->]; exact EV)) as (p' & Q1 & Q2 & Q3).
    exists p', pre, post. split; [exact Q1|]. split; [exact Q2|]. rewrite Q3. split.
    { intros j. cbn [equivalent]. destruct (getEquivalence m _) as [y|]; cbn [insert_opt]; rewrite ?insert_In; intuition congruence. }
    split; [rewrite (place_rows (wroot w) _ _ _ _ _ P); reflexivity|].
    rewrite (proj1 (other_rows (wroot w) _ _ (fun x Q => NO _ x Q (elem_id (wroot w) _ (value_in _ _ IE))))).
    rewrite (place_rows (wroot w) (insert (nid (value_of e)) (pcoll p)) k1 pre e post).
    - unfold rows_elem. rewrite inside_children. assert (Q : mem (nid (value_of e)) (insert (nid (value_of e)) (pcoll p)) = true) by (apply mem_In, insert_In; auto). rewrite Q. reflexivity.
    - apply (place_agree (wroot w) M (nid (value_of e)) (pcoll p)); [intros j; apply mem_insert|exact P|apply own_id].
  Qed.

  Lemma press_leave k p w r before i n : compares a b m sc p -> active p = Some w -> wsel w = Some i -> held_by (wroot w) r before i ->
    In (i, n) (shown (nid (wroot w)) (wroot w)) -> inside (pcoll p) n = [] -> k = "H"%string \/ k = "KEY_LEFT"%string ->
    exists p', presses rx f a b m sc k p p' /\ selects p p' r.
  Proof.
    intros C A S HB SH IE KK. destruct (active_side p w i C A S) as (M & LK & LE & AT & V & NO).
    destruct (held_place (wroot w) M _ r before i HB V) as (k0 & pre & q & post & l1 & e & l2 & P & CC & K & <- & <- & _).
    destruct (shown_visible (wroot w) M _ _ _ SH V) as (k1 & pre1 & e1 & post1 & P1 & EE & EV1).
    assert (IV := value_in (wroot w) _ (place_in (wroot w) _ _ _ _ _ P)). assert (J : In e (children (value_of q))) by (rewrite K; apply in_elt). assert (II := kid_in (wroot w) _ _ IV J).
    assert (e1 = e) by (apply (eid_inj (wroot w) M); [eapply place_in, P1|exact II|exact EE]). subst e1.
    assert (EV : split_collapse h m p = Done (Redraw, setSelection m p (Some (eid q)))).
    { unfold split_collapse. rewrite AT. cbn [SplitView.bind]. rewrite S. cbn [lift SplitView.bind]. rewrite (lookup_h (wroot w) h M LK _ II). cbn [lift SplitView.bind]. cbv zeta.
      assert (B : match mpar (node_meta (value_of e)) with Some _ => true | None => false end = true).
      { assert (CP := child_parent (wroot w) M _ _ IV J). destruct e as [x|x kk y]; cbn [value_of epar] in *; [rewrite CP; reflexivity|].
        assert (VP := value_parent (wroot w) M x kk y II). cbn [epar] in VP. rewrite VP. reflexivity. }
      rewrite B. rewrite inside_children in IE. rewrite EV1.
      assert (ST : negb (is_container n) || mem (nid n) (pcoll p) || match children n with [] => true | _ :: _ => false end = true).
      { destruct (mem (nid n) (pcoll p)); [rewrite orb_true_r; reflexivity|]. destruct (children n); [rewrite orb_true_r; reflexivity|discriminate IE]. }
      rewrite ST. cbn [andb]. rewrite (child_parent (wroot w) M _ _ IV J). cbn [lift SplitView.bind]. rewrite (row_at_place (wroot w) h M LK _ _ _ _ _ P). reflexivity. }
    apply (press_select k p w _ C A); [destruct KK as [-> | ->]; discriminate|destruct KK as [-> | ->]; discriminate|]. intros q0. destruct KK as [-> | ->]; exact EV.
  Qed.

  Lemma press_unfold k p w i n : compares a b m sc p -> active p = Some w -> wsel w = Some i -> In (i, n) (shown (nid (wroot w)) (wroot w)) -> is_container n = true -> In (nid n) (pcoll p) ->
    k = "L"%string \/ k = "KEY_RIGHT"%string ->
    exists p' pre post, presses rx f a b m sc k p p' /\ same_selections p p' /\
      (forall j, In j (pcoll p') <-> j <> nid n /\ getEquivalence m (nid n) <> Some j /\ In j (pcoll p)) /\
      rows (pcoll p) (wroot w) = pre ++ i :: post /\ rows (pcoll p') (wroot w) = pre ++ i :: inside (pcoll p') n ++ post.
  Proof.
    intros C A S SH IC IN K. destruct (active_side p w i C A S) as (M & LK & LE & AT & V & NO). apply mem_In in IN.
    destruct (shown_visible (wroot w) M _ _ _ SH V) as (k1 & pre & e & post & P & <- & <-). assert (IE := place_in (wroot w) _ _ _ _ _ P).
    set (c1 := Navigation.remove (nid (value_of e)) (pcoll p)). set (c := erase_opt (equivalent m (Some (nid (value_of e)))) c1).
    assert (EV : split_expand h m p = Done (Redraw, mkSplit (pwins p) (pact p) c)).
    { unfold split_expand. rewrite AT. cbn [SplitView.bind]. rewrite S. rewrite (lookup_h (wroot w) h M LK _ IE). cbn [lift SplitView.bind]. cbv zeta. rewrite IC, IN. reflexivity. }
    destruct (press_folds k p _ C ltac:(destruct K as [-> | ->]; discriminate) ltac:(destruct K as [-> | ->]; discriminate) ltac:(intros q; destruct K as [-> | ->]; exact EV)) as (p' & Q1 & Q2 & Q3).
    exists p', pre, post. split; [exact Q1|]. split; [exact Q2|]. rewrite Q3. split.
    { intros j. unfold c, c1. cbn [equivalent]. destruct (getEquivalence m _) as [y|]; cbn [erase_opt]; rewrite ?ViewProofs.remove_In.
      - split; [intros ((I1 & I2) & I3)|intros (I1 & I2 & I3)]; repeat split; try assumption; congruence.
      - split; [intros (I1 & I2)|intros (I1 & I2 & I3)]; repeat split; try assumption; congruence. }
    split; [rewrite (place_rows (wroot w) _ _ _ _ _ P); unfold rows_elem; rewrite inside_children, IN; reflexivity|].
    assert (P1 : place (wroot w) c1 k1 pre e post) by (apply (place_agree (wroot w) M (nid (value_of e)) (pcoll p)); [intros j; apply mem_remove|exact P|apply own_id]).
    assert (IV := value_in (wroot w) _ IE). assert (NY := fun y Q => NO _ y Q (elem_id (wroot w) _ IV) : ~ In y (ids (wroot w))).
    unfold c. rewrite (proj2 (other_rows (wroot w) c1 (equivalent m (Some (nid (value_of e)))) NY)).
    assert (IN2 : inside (erase_opt (equivalent m (Some (nid (value_of e)))) c1) (value_of e) = inside c1 (value_of e)).
    { cbn [equivalent]. destruct (getEquivalence m (nid (value_of e))) as [y|] eqn:GQ; cbn [erase_opt]; [|reflexivity]. apply (inside_agree y); [intros j; apply mem_remove|].
      intros Q. apply (NY y GQ). rewrite <- elems_eid in *. apply in_map_iff in Q. destruct Q as (x & <- & Q). apply in_map. exact (elems_trans (wroot w) _ x IV Q). }
    rewrite IN2, (place_rows (wroot w) _ _ _ _ _ P1). reflexivity.
  Qed.
  Lemma press_right_scalar k p w i n : compares a b m sc p -> active p = Some w -> wsel w = Some i -> In (i, n) (shown (nid (wroot w)) (wroot w)) -> members n = [] -> ~ In (nid n) (pcoll p) ->
    k = "L"%string \/ k = "KEY_RIGHT"%string -> presses rx f a b m sc k p p.
  Proof.
    intros C A S SH ME NC KK. destruct (active_side p w i C A S) as (M & LK & LE & AT & V & NO). apply mem_not in NC.
    destruct (shown_visible (wroot w) M _ _ _ SH V) as (k1 & pre & e & post & P & <- & <-). assert (IE := place_in (wroot w) _ _ _ _ _ P).
    assert (EV : split_expand h m p = Done (NextInput, p)).
    { unfold split_expand. rewrite AT. cbn [SplitView.bind]. rewrite S. rewrite (lookup_h (wroot w) h M LK _ IE). cbn [lift SplitView.bind]. cbv zeta. rewrite NC.
      rewrite members_eid in ME. apply map_eq_nil in ME. rewrite ME. destruct (negb _); reflexivity. }
    apply press_nothing; [exact C|]. intros q. destruct KK as [-> | ->]; exact EV.
  Qed.
  Lemma press_right k p w pre i post n : compares a b m sc p -> chosen p w pre i post -> In (i, n) (shown (nid (wroot w)) (wroot w)) -> members n <> [] -> ~ In (nid n) (pcoll p) ->
    k = "L"%string \/ k = "KEY_RIGHT"%string ->
    exists p' s, presses rx f a b m sc k p p' /\ selects p p' s /\ (hd_error (members n) = Some s \/ i <> nid n /\ undrawn w post).
  Proof.
    intros C H SH ME NC KK. destruct (down_result p w pre i post C H) as (s & ED & O). destruct H as (A & S & ER). destruct (active_side p w i C A S) as (M & LK & LE & AT & V & NO). apply mem_not in NC.
    destruct (shown_visible (wroot w) M _ _ _ SH V) as (k1 & pre1 & e & post1 & P & EI & EV). assert (IE := place_in (wroot w) _ _ _ _ _ P). subst i n. rewrite members_eid in *.
    destruct (children (value_of e)) as [|x xs] eqn:CH; [destruct (ME eq_refl)|].
    assert (EX : split_expand h m p = split_down m p).
    { unfold split_expand. rewrite AT. cbn [SplitView.bind]. rewrite S. rewrite (lookup_h (wroot w) h M LK _ IE). cbn [lift SplitView.bind]. cbv zeta. rewrite NC, CH.
      rewrite (container_child (value_of e) x) by (rewrite CH; left; reflexivity). reflexivity. }
    destruct (press_select k p w s C A) as (p' & Q1 & Q2); [destruct KK as [-> | ->]; discriminate|destruct KK as [-> | ->]; discriminate|intros q; rewrite <- ED, <- EX; destruct KK as [-> | ->]; reflexivity|].
    exists p', s. split; [exact Q1|]. split; [exact Q2|]. cbn [map hd_error].
    destruct (place_split (wroot w) (pcoll p) M _ _ _ ER) as (k2 & e2 & post2 & P2 & EI2 & EP). assert (e2 = e) by (apply (eid_inj (wroot w) M); [eapply place_in, P2|exact IE|exact EI2]). subst e2.
    rewrite inside_children, NC, CH, rowsL_cons in EP. unfold rows_elem in EP. cbn [app] in EP.
    destruct O as [O|(U & _ & O)]; [left; rewrite O, EP; reflexivity|].
    destruct e as [n|mm kk v]; cbn [value_of eid] in *.
    - exfalso. specialize (O n eq_refl IE). rewrite inside_children, NC, CH, rowsL_cons in O. discriminate O.
    - right. split; [|exact U]. intros Q. assert (X : ENode v = EEntry mm kk v) by (apply (eid_inj (wroot w) M); [apply (value_in (wroot w) _ IE)|exact IE|cbn [eid]; congruence]). discriminate X.
  Qed.

  (** Switching windows. *)
  Lemma switched k p w v d c : compares a b m sc p -> active p = Some w -> inactive p = Some v -> d = 1 \/ d = -1 /\ c = false ->
    str k <> str "/" -> str k <> str "N" -> (forall q, split_key h m rx sc (str k) q p = changeWindow m d c p) ->
    c = true \/ 0 <= pact p + d <= 1 ->
    exists p', presses rx f a b m sc k p p' /\ pact p' = 1 - pact p /\ pcoll p' = pcoll p /\
      exists w', active p' = Some w' /\ wsel w' = match wsel v with Some i => Some i | None => wlast v end /\ wroot w' = wroot v.
  Proof.
    intros C A I DC K1 K2 E CD. destruct (compares_led p w C A) as (r & r' & v' & S & L & R).
    assert (PV : (pact p = 0 /\ pwins p = [w; v]) \/ (pact p = 1 /\ pwins p = [v; w])).
    { unfold inactive in I. destruct S as [(P & _ & _ & EW)|(P & _ & _ & EW)]; rewrite P, EW in I; cbn in I; injection I as <-; auto. }
    set (p0 := mkSplit (pwins p) (1 - pact p) (pcoll p)).
    assert (EC : changeWindow m d c p = Done (RedrawAll, match wsel v with Some _ => p0 | None => setSelection m p0 (wlast v) end)).
    { unfold changeWindow, p0. destruct PV as [(P & ->)|(P & ->)]; rewrite P in *; cbn [length]; change (Z.of_nat 2) with 2; cbv zeta.
      - assert (d = 1) by (destruct DC as [->|[-> ->]]; [reflexivity|destruct CD as [Q|Q]; [discriminate Q|lia]]). subst d. cbn. reflexivity.
      - destruct DC as [-> | [-> ->]]; [|cbn; reflexivity]. destruct CD as [-> | CD]; [|lia]. cbn. reflexivity. }
    assert (W : map wres (pwins match wsel v with Some _ => p0 | None => setSelection m p0 (wlast v) end) = map wres (pwins p)).
    { destruct (wsel v); [reflexivity|]. unfold setSelection, p0. destruct PV as [(P & ->)|(P & ->)]; rewrite P; cbn [pwins pact]; reflexivity. }
    destruct (press_redraw k p RedrawAll _ C K1 K2 (or_intror eq_refl) (fun q => eq_trans (E q) EC) W) as (p' & Q1 & Q2 & Q3 & Q4).
    exists p'. split; [exact Q1|]. split; [rewrite Q2; destruct (wsel v); reflexivity|]. split; [rewrite Q3; destruct (wsel v); reflexivity|].
    assert (Q2' : pact p' = 1 - pact p) by (rewrite Q2; destruct (wsel v); reflexivity). unfold active. rewrite Q2'.
    destruct PV as [(P & EW)|(P & EW)]; rewrite P in *; unfold p0, setSelection in Q4; rewrite EW, P in Q4; destruct (wsel v) as [i|] eqn:SV; cbn [pwins pact map] in Q4;
      cbn -[set_wsel core getEquivalence] in Q4; destruct (pwins p') as [|w0 [|w1 [|]]]; try discriminate Q4; cbn [map] in Q4; unfold core in Q4; cbn [set_wsel wroot wsel wlast wres] in Q4; injection Q4 as Z1 Z2 Z3 Z4 Z5 Z6 Z7 Z8;
      [exists w1|exists w1|exists w0|exists w0]; (split; [reflexivity|]); split; congruence.
  Qed.
  Lemma press_switch p w v : compares a b m sc p -> active p = Some w -> inactive p = Some v ->
    (forall k, k = "^W-W"%string \/ pact p = 0 /\ (k = "^W-L" \/ k = "^W-KEY_RIGHT")%string \/ pact p = 1 /\ (k = "^W-H" \/ k = "^W-KEY_LEFT")%string ->
       exists p', presses rx f a b m sc k p p' /\ pact p' = 1 - pact p /\ pcoll p' = pcoll p /\
         exists w', active p' = Some w' /\ wsel w' = match wsel v with Some i => Some i | None => wlast v end /\ wroot w' = wroot v) /\
    (forall k, pact p = 1 /\ (k = "^W-L" \/ k = "^W-KEY_RIGHT")%string \/ pact p = 0 /\ (k = "^W-H" \/ k = "^W-KEY_LEFT")%string -> presses rx f a b m sc k p p).
  Proof.
    intros C A I. split.
    - intros k [-> | [(P & K)|(P & K)]].
      + apply (switched "^W-W" p w v 1 true C A I); [auto|discriminate|discriminate|reflexivity|auto].
      + apply (switched k p w v 1 false C A I); [auto|destruct K as [-> | ->]; discriminate|destruct K as [-> | ->]; discriminate|destruct K as [-> | ->]; reflexivity|right; lia].
      + apply (switched k p w v (-1) false C A I); [auto|destruct K as [-> | ->]; discriminate|destruct K as [-> | ->]; discriminate|destruct K as [-> | ->]; reflexivity|right; lia].
    - intros k K. apply press_nothing; [exact C|]. intros q. assert (L : length (pwins p) = 2%nat) by (destruct C as (_ & _ & _ & (L & _) & _); exact L).
      destruct K as [(P & K)|(P & K)].
      + assert (X : changeWindow m 1 false p = Done (NextInput, p)) by (unfold changeWindow; rewrite P, L; reflexivity). destruct K as [-> | ->]; exact X.
      + assert (X : changeWindow m (-1) false p = Done (NextInput, p)) by (unfold changeWindow; rewrite P, L; reflexivity). destruct K as [-> | ->]; exact X.
  Qed.

  (** Other keys, and a signal. *)
  Lemma press_quit p q t : split_wait h m rx f sc p false (EvKey (str "Q") q :: t) = Done (Ends sc p).
  Proof. reflexivity. Qed.
  Definition bound : list string := ["Q"; "K"; "KEY_UP"; "J"; "KEY_DOWN"; "KEY_PPAGE"; "KEY_NPAGE"; "L"; "KEY_RIGHT"; "H"; "KEY_LEFT"; "/"; "N"; "^W-W"; "^W-L"; "^W-KEY_RIGHT"; "^W-H"; "^W-KEY_LEFT"]%string.
  Lemma press_other p k q : ~ In k (map str bound) -> split_wait h m rx f sc p false [EvKey k q] = Done (Waits sc p).
  Proof.
    intros N. cbn [split_wait]. unfold split_key. cbn [map In bound] in N.
    assert (B : forall s, (str s = k -> False) -> beqb k (str s) = false) by (intros s Q; destruct (beqb k (str s)) eqn:E; [apply beqb_eq in E; exfalso; apply Q; congruence|reflexivity]).
    rewrite !B by tauto. reflexivity.
  Qed.
  Lemma press_stop p k q t : compares a b m sc p -> k <> str "/" -> k <> str "N" -> exists p', split_wait h m rx f sc p false (EvStop :: EvKey k q :: t) = Done (Ends sc p').
  Proof.
    intros C K1 K2. assert (OK' := OK). destruct OK' as (MA & MB & FA & FB & D & B & _). cbn [split_wait].
    assert (X := key_J a b m MA MB FA FB D B rx sc k q p (compares_J p C) (compares_aims p C) K1 K2). destruct (split_key h m rx sc k q p) as [[o p1]|]; [|destruct X]. cbn [ok SplitView.bind] in *.
    destruct o; try (eexists; reflexivity); destruct (settle p1 X) as (p' & -> & _); eexists; reflexivity.
  Qed.
End Press.

Lemma sized_screen w hh p sc : length (pwins p) = 2%nat -> room w hh -> split_screen w hh p sc = mkScreen (w / 2) (hh - 2) (slen sc).
Proof. intros L R. unfold split_screen. rewrite L. unfold usub. rewrite Z.mod_small; [reflexivity|]. destruct R; lia. Qed.

Lemma press_size rx f a b m len sc p w hh : comparable a b m len f -> slen sc = len -> compares a b m sc p -> room w hh ->
  exists p', split_wait (split_memory a b) m rx f sc p false [EvSize w hh] = Done (Waits (mkScreen (w / 2) (hh - 2) len) p') /\ compares a b m (mkScreen (w / 2) (hh - 2) len) p' /\
    same_selections p p' /\ pcoll p' = pcoll p.
Proof.
  intros OK LEN C R. assert (L : length (pwins p) = 2%nat) by (destruct C as (_ & _ & _ & (L & _) & _); exact L).
  assert (SCR : split_screen w hh p sc = mkScreen (w / 2) (hh - 2) len). { unfold split_screen. rewrite L, LEN. unfold usub. rewrite Z.mod_small; [reflexivity|]. destruct R; lia. }
  assert (G : roomy_windows (mkScreen (w / 2) (hh - 2) len)). { destruct R as [R1 R2]. split; cbn [sw sh]; [|lia]. split; [apply Z.div_le_lower_bound; lia|apply Z.div_lt_upper_bound; lia]. }
  destruct (settle f a b m len _ OK G eq_refl p (compares_J a b m sc p C)) as (p' & E & C' & E1 & E2 & E3).
  exists p'. split; [cbn [split_wait]; cbv zeta; rewrite SCR, E; reflexivity|]. split; [exact C'|]. split; [|exact E2]. split; [exact E1|].
  revert E3. generalize (pwins p). generalize (pwins p'). induction l as [|x l IH]; intros [|y l'] X; try discriminate X; [split; reflexivity|].
  cbn [map] in *. unfold core in X at 1 3. injection X as _ X1 X2 _ X. destruct (IH l' X) as [Y1 Y2]. split; congruence.
Qed.

(** The comparison rests whenever it waits. *)
Lemma wait_compares rx f a b m len evs : comparable a b m len f -> forall sc p stop, roomy_windows sc -> slen sc = len -> unsearched evs -> rooms evs -> compares a b m sc p ->
  match split_wait (split_memory a b) m rx f sc p stop evs with Done (Waits sc' p') => roomy_windows sc' /\ slen sc' = len /\ compares a b m sc' p' | Done (Ends _ _) => True | Bad _ => False end.
Proof.
  intros OK. assert (OK' := OK). destruct OK' as (MA & MB & FA & FB & D & B & _).
  induction evs as [|[k q|w hh|] t IH]; intros sc p stop G LEN U R C; [cbn [split_wait]; auto| | |];
    (assert (Ut : unsearched t) by (intros k' q' I; apply (U k' q'); right; exact I)); (assert (Rt : rooms t) by (intros w' hh' I; apply R; right; exact I)); cbn [split_wait].
  - destruct (U k q (or_introl eq_refl)) as [K1 K2].
    assert (X := key_J a b m MA MB FA FB D B rx sc k q p (compares_J a b m sc p C) (compares_aims f a b m len sc OK LEN p C) K1 K2).
    destruct (split_key (split_memory a b) m rx sc k q p) as [[o p1]|]; [|destruct X]. cbn [ok SplitView.bind] in *. unfold kept_or_led in X. cbn [fst snd] in X.
    destruct o; try exact Logic.I; try (subst p1; destruct stop; [exact Logic.I|apply IH; assumption]);
      destruct (settle f a b m len sc OK G LEN p1 X) as (p' & E & C' & _); rewrite E; cbn [SplitView.bind]; (destruct stop; [exact Logic.I|apply IH; assumption]).
  - cbv zeta. assert (RW := R w hh (or_introl eq_refl)). destruct (press_size rx f a b m len sc p w hh OK LEN C RW) as (p' & E & C' & _). cbn [split_wait] in E. cbv zeta in E.
    assert (L : length (pwins p) = 2%nat) by (destruct C as (_ & _ & _ & (L & _) & _); exact L). rewrite (sized_screen w hh p sc L RW), LEN in *.
    destruct (redraws _ _ _ _ _) as [p2|]; [|discriminate E]. cbn [SplitView.bind] in *. injection E as ->. apply IH; try assumption; [|reflexivity].
    destruct RW as [R1 R2]. split; cbn [sw sh]; [|lia]. split; [apply Z.div_le_lower_bound; lia|apply Z.div_lt_upper_bound; lia].
  - apply IH; assumption.
Qed.
Lemma run_compares rx f a b m len w hh evs : comparable a b m len f -> room w hh -> rooms evs -> unsearched evs ->
  match split_run rx f len w hh a b evs with Done (Waits sc' p') => roomy_windows sc' /\ slen sc' = len /\ compares a b m sc' p' | Done (Ends _ _) => True | Bad _ => False end.
Proof.
  intros OK RW R U. assert (OK' := OK). destruct OK' as (MA & MB & FA & FB & D & B & SL & BK & FU). unfold split_run. rewrite B. cbv zeta.
  assert (SCR : split_screen w hh (setSelection m (mkSplit [new_win a; new_win b] 0 []) (Some (nid a))) (mkScreen 0 0 len) = mkScreen (w / 2) (hh - 2) len).
  { unfold split_screen, setSelection. cbn [pwins length slen]. unfold usub. rewrite Z.mod_small; [reflexivity|]. destruct RW; lia. }
  rewrite SCR.
  assert (G : roomy_windows (mkScreen (w / 2) (hh - 2) len)). { destruct RW as [R1 R2]. split; cbn [sw sh]; [|lia]. split; [apply Z.div_le_lower_bound; lia|apply Z.div_lt_upper_bound; lia]. }
  assert (J0 : J a b m (setSelection m (mkSplit [new_win a; new_win b] 0 []) (Some (nid a)))).
  { apply (select_J a b m MA MB FA FB D B _ (new_win a) (new_win b)); [reflexivity| |left; split; [reflexivity|left; reflexivity]]. cbn [pcoll].
    assert (PL : forall r, placed r [] (new_win r)). { intros r. split; [reflexivity|]. split; [exists (nid r); split; [reflexivity|left; reflexivity]|]. intros i Q. discriminate Q. }
    split; [apply PL|]. split; [apply PL|]. cbn. split; [lia|]. split; [lia|]. split; [intros x Q; discriminate Q|]. split; [intros x Q; discriminate Q|]. intros x y _. reflexivity. }
  destruct (settle f a b m len _ OK G eq_refl _ J0) as (p' & E & C' & _). rewrite E. cbn [SplitView.bind]. apply wait_compares; auto.
Qed.

Lemma in_order f a b m len sc p w : comparable a b m len f -> slen sc = len -> compares a b m sc p -> In w (pwins p) ->
  exists rest, rows (pcoll p) (wroot w) =
    rev (map (fun x => fst (fst x)) (filter (fun x => negb (snd (fst x)) && existsb (Z.eqb (fst (fst x))) (rows (pcoll p) (wroot w))) (wlog w))) ++ rest.
Proof.
  intros OK L C I. destruct (compares_drawn f a b m len sc OK L p w C I) as (r & l & _ & <- & _ & X). destruct X as (_ & pre & q & rest & D & E & _).
  exists rest. change (rev _) with (drawn_rows (wroot w) (pcoll p) w). rewrite D, <- app_assoc. exact E.
Qed.

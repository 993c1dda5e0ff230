(** One redraw of the comparison: it ends, without undefined behaviour, and when
    it succeeds both windows know rows above and below. *)
From Verif Require Export Proofs.SplitDraw.
From Verif Require Import Proofs.RowProofs.
From Coq Require Import Lia ZifyBool.
Open Scope Z_scope.

(** What drawing does to the scroll position of a window: nothing, or it goes
    back to the line of the selection. *)
Definition keeps (w v : win) : Prop :=
  wy w <= wy v /\ (wfound w = true -> wfound v = true) /\
  (wscroll v = wscroll w \/ (wfound w = false /\ wfound v = true /\ wy w <= wscroll v + 1 <= wscroll w)).
(** A window that fails has not found its selection and scrolls by a line. *)
Definition fails (w v : win) : Prop := wfound w = false /\ wfound v = false /\ wscroll v = wscroll w + 1 /\ wscroll w <= wy v.

Lemma keeps_refl w : keeps w w.
Proof. repeat split; auto. lia. Qed.
Lemma keeps_trans u v w : keeps u v -> keeps v w -> keeps u w.
Proof.
  intros (A1 & A2 & A3) (B1 & B2 & B3). split; [lia|]. split; [auto|]. destruct A3 as [A3|(A3 & A4 & A5)], B3 as [B3|(B3 & B4 & B5)].
  - left. congruence.
  - right. split; [destruct (wfound u); [rewrite A2 in B3; auto|reflexivity]|]. split; [exact B4|]. lia.
  - right. split; [exact A3|]. split; [auto|]. lia.
  - congruence.
Qed.
Lemma keeps_fails u v w : keeps u v -> fails v w -> fails u w.
Proof.
  intros (A1 & A2 & A3) (B1 & B2 & B3 & B4). assert (F : wfound u = false) by (destruct (wfound u) eqn:E; [rewrite A2 in B1; auto|reflexivity]).
  destruct A3 as [A3|(_ & A4 & _)]; [|congruence]. unfold fails. repeat split; auto; lia.
Qed.
Lemma keeps_y w v y : keeps w v -> wy v <= y -> keeps w (set_wy v y).
Proof. intros (A1 & A2 & A3) Y. unfold keeps. cbn [wy wfound wscroll set_wy]. repeat split; auto; lia. Qed.

Lemma gap_wy k : forall w, wy (gap_lines k w) = wy w + Z.of_nat k.
Proof. induction k as [|k IH]; intros w; [cbn; lia|]. cbn [gap_lines]. rewrite IH. cbn [wy set_wy displayDiffOp add_mark]. lia. Qed.
Definition rest (w : win) := (core w, wup w, wdown w, wscroll w, wx w, wstack w, wfound w).
Lemma gap_rest k : forall w, rest (gap_lines k w) = rest w.
Proof. induction k as [|k IH]; intros w; [reflexivity|]. cbn [gap_lines]. rewrite IH. reflexivity. Qed.

Section Items.
  Variable (r : node) (h : list elem) (sc : screen) (coll : list Z) (dm : mat) (nn : nat).
  Hypothesis M : in_memory r.
  Hypothesis LK : forall i, In i (ids r) -> lookup h i = lookup (elems r) i.
  Hypothesis SW : 5 <= sw sc < 2 ^ 32.
  Hypothesis NS : (nesting r <= nn)%nat.
  Hypothesis SL : forall e, 0 <= slen sc e.
  Hypothesis BK : lines_of (slen sc) (4 * Z.of_nat nn + 16) (elems r) < 2 ^ 32.
  Hypothesis LH : (length (elems r) <= length h)%nat.

  Local Notation fine := (fine r coll).
  Local Notation placed := (placed r coll).
  Local Notation ready := (ready_rows r coll).
  Local Notation items := (items_left r).
  Local Notation lines := (lines_left r sc nn).

  Lemma items_pos w : (1 <= items w)%nat.
  Proof. clear. unfold items_left. destruct (wstack w) as [|[i c] t]; [rewrite elems_children|]; cbn; lia. Qed.
  Lemma lines_pos w : 0 <= lines w.
  Proof using SL.
    clear NS LH. unfold lines_left. destruct (wstack w) as [|]; [apply lines_nonneg; [exact SL|lia]|]. apply lines_in_nonneg; exact SL.
  Qed.

  Definition after_items (w : win) (x : option bool * win) : Prop :=
    core (snd x) = core w /\ wy w + 1 <= wy (snd x) <= wy w + lines w /\
    match fst x with
    | None => fails w (snd x)
    | Some true => keeps w (snd x) /\ ready (snd x)
    | Some false => keeps w (snd x) /\ fine (snd x) /\ (items (snd x) < items w)%nat /\ wy (snd x) + lines (snd x) <= wy w + lines w
    end.
  Lemma item_ok w : 1 <= wy w -> fine w -> placed w -> ok never (after_items w) (one_item h sc coll dm w).
  Proof.
    intros Y F P. eapply ok_mono; [apply (one_item_ok r h sc coll dm M LK SW nn NS SL BK LH w F P)|].
    intros [o v] (A1 & A2 & A3). cbn [fst snd] in *. split; [exact A1|]. split; [exact A2|]. cbn [fst snd].
    assert (KP : scroll_kept w v -> (wfound w = true -> wfound v = true) -> keeps w v).
    { intros [S|(S1 & S2 & S3 & S4)] FF; (split; [lia|split; [exact FF|]]); [left; exact S|]. right. destruct (wy w =? 0) eqn:E; lia. }
    destruct o as [[|]|].
    - destruct A3 as (B1 & B2 & B3). split; [apply KP; assumption|exact B3].
    - destruct A3 as (B1 & B2 & B3). split; [apply KP; assumption|exact B3].
    - destruct A3 as (B1 & B2 & B3 & B4). repeat split; auto.
  Qed.
  Lemma next_added_ok w : fine w -> ok never (fun _ => True) (next_added dm w).
  Proof.
    clear M LK SW NS SL BK LH. intros (F1 & F2 & _). unfold next_added. destruct (wstack w) as [|[i c] t]; [exact Logic.I|]. destruct F2 as (_ & C & _).
    destruct (_ <=? _) eqn:E; [exact Logic.I|]. destruct (nth_error _ _) eqn:NE; [exact Logic.I|]. apply nth_error_None in NE. lia.
  Qed.
  Lemma added_ok f : forall w, (items w <= f)%nat -> 1 <= wy w -> fine w -> placed w -> ok never (after_items w) (added_items h sc coll dm f w).
  Proof.
    induction f as [|f IH]; intros w IF Y F P; [assert (Q := items_pos w); lia|]. cbn [added_items].
    eapply ok_bind; [apply item_ok; assumption|]. intros [[[|]|] v] A; try exact A.
    destruct A as (A1 & A2 & A3 & A4 & A5 & A6). cbn [fst snd] in *.
    eapply ok_bind; [apply next_added_ok, A4|]. intros [|] _.
    - eapply ok_mono; [apply IH; [lia|lia|exact A4|eapply placed_core; eauto]|]. intros [o u] (B1 & B2 & B3). cbn [fst snd] in *.
      assert (LP := lines_pos u). split; [cbn [snd]; congruence|]. split; [cbn [snd]; lia|]. cbn [fst snd]. destruct o as [[|]|].
      + destruct B3. split; [eapply keeps_trans; eauto|assumption].
      + destruct B3 as (C1 & C2 & C3 & C4). split; [eapply keeps_trans; eauto|]. split; [exact C2|]. lia.
      + eapply keeps_fails; eauto.
    - split; [exact A1|]. split; [exact A2|]. cbn [fst snd]. auto.
  Qed.
End Items.

Section Loop.
  Variable (a b : node) (h : list elem) (sc : screen) (coll : list Z) (dm : mat) (nn : nat).
  Let half : Z := 4 * Z.of_nat nn + 16.
  Let total : Z := lines_of (slen sc) half (elems a ++ elems b).
  Hypothesis HH : h = elems a ++ elems b.
  Hypothesis MA : in_memory a.
  Hypothesis MB : in_memory b.
  Hypothesis D : NoDup (ids a ++ ids b).
  Hypothesis NA : (nesting a <= nn)%nat.
  Hypothesis NB : (nesting b <= nn)%nat.
  Hypothesis SW : 5 <= sw sc < 2 ^ 32.
  Hypothesis SL : forall e, 0 <= slen sc e.
  Hypothesis BK : total < 2 ^ 32.

  Lemma la_nonneg l : 0 <= lines_of (slen sc) half l.
  Proof. apply lines_nonneg; [exact SL|unfold half; lia]. Qed.
  Lemma LKA i : In i (ids a) -> lookup h i = lookup (elems a) i.
  Proof. rewrite HH. apply lookup_a, MA. Qed.
  Lemma LKB i : In i (ids b) -> lookup h i = lookup (elems b) i.
  Proof. rewrite HH. apply lookup_b; assumption. Qed.
  Lemma BKA : lines_of (slen sc) half (elems a) < 2 ^ 32.
  Proof. revert BK. unfold total. rewrite lines_app. assert (Q := la_nonneg (elems b)). lia. Qed.
  Lemma BKB : lines_of (slen sc) half (elems b) < 2 ^ 32.
  Proof. revert BK. unfold total. rewrite lines_app. assert (Q := la_nonneg (elems a)). lia. Qed.
  Lemma LHA : (length (elems a) <= length h)%nat.
  Proof. rewrite HH, app_length. lia. Qed.
  Lemma LHB : (length (elems b) <= length h)%nat.
  Proof. rewrite HH, app_length. lia. Qed.

  Definition added_a f := added_ok a h sc coll dm nn MA LKA SW NA SL BKA LHA f.
  Definition added_b f := added_ok b h sc coll dm nn MB LKB SW NB SL BKB LHB f.
  Definition item_a := item_ok a h sc coll dm nn MA LKA SW NA SL BKA LHA.
  Definition item_b := item_ok b h sc coll dm nn MB LKB SW NB SL BKB LHB.

  Definition part_ok (r : node) (p : part) : Prop := placed r coll (fst p) /\ if snd p then fine r coll (fst p) else ready_rows r coll (fst p).
  Definition iw (r : node) (p : part) : nat := if snd p then items_left r (fst p) else O.
  Definition lw (r : node) (p : part) : Z := if snd p then lines_left r sc nn (fst p) else 0.
  Lemma lw_pos r p : 0 <= lw r p.
  Proof. unfold lw. destruct (snd p); [apply lines_pos; exact SL|lia]. Qed.

  (** A part moved on, or stayed: [y] is the line reached. *)
  Definition part_rest (p q : part) : Prop := rest (fst q) = rest (fst p) /\ snd q = snd p.
  Lemma part_ok_rest r p q : part_rest p q -> part_ok r p -> part_ok r q.
  Proof.
    destruct p as [w x], q as [v y]. intros [E1 E2] [P F]. cbn [fst snd] in *. subst y. injection E1 as R1 R2 R3 R4 R5 R6 R7 R8 R9 R10.
    split; cbn [fst snd].
    - destruct P as (P1 & P2 & P3). unfold placed. rewrite R1, R2, R3. auto.
    - destruct x.
      + destruct F as (F1 & F2 & F3 & F4 & F5). unfold fine. rewrite R1, R5, R6, R8, R9. auto.
      + destruct F as (u & d & F). unfold ready_rows. rewrite R5, R6. eauto.
  Qed.
  Lemma iw_rest r p q : part_rest p q -> iw r q = iw r p.
  Proof. destruct p as [w x], q as [v y]. intros [E1 E2]. cbn [fst snd] in *. subst y. injection E1 as R1 R2 R3 R4 R5 R6 R7 R8 R9 R10. unfold iw, items_left. cbn [fst snd]. rewrite R9. reflexivity. Qed.
  Lemma lw_rest r p q : part_rest p q -> lw r q = lw r p.
  Proof. destruct p as [w x], q as [v y]. intros [E1 E2]. cbn [fst snd] in *. subst y. injection E1 as R1 R2 R3 R4 R5 R6 R7 R8 R9 R10. unfold lw, lines_left. cbn [fst snd]. rewrite R9. reflexivity. Qed.
  Lemma keeps_rest w v : rest v = rest w -> wy w <= wy v -> keeps w v.
  Proof. intros E Y. injection E as R1 R2 R3 R4 R5 R6 R7 R8 R9 R10. split; [exact Y|]. rewrite R7, R10. auto. Qed.

  (** Both windows at the same line, whatever is left fits. *)
  Definition inv (p q : part) : Prop :=
    part_ok a p /\ part_ok b q /\ wy (fst p) = wy (fst q) /\ 1 <= wy (fst p) /\ wy (fst p) + lw a p + lw b q <= total + 1.

  Definition outcome (p q : part) (x : bool * list win) : Prop :=
    exists v0 v1, snd x = [v0; v1] /\
      if fst x then keeps (fst p) v0 /\ keeps (fst q) v1 /\ ready_rows a coll v0 /\ ready_rows b coll v1
      else (fails (fst p) v0 /\ keeps (fst q) v1 /\ wscroll (fst p) <= total + 1) \/ (keeps (fst p) v0 /\ fails (fst q) v1 /\ wscroll (fst q) <= total + 1).

  Lemma outcome_trans p q p' q' x : keeps (fst p) (fst p') -> keeps (fst q) (fst q') -> outcome p' q' x -> outcome p q x.
  Proof.
    intros K1 K2 (v0 & v1 & E & H). exists v0, v1. split; [exact E|]. destruct (fst x).
    - destruct H as (H1 & H2 & H3 & H4). split; [eapply keeps_trans; eauto|]. split; [eapply keeps_trans; eauto|]. auto.
    - assert (T : forall w u v, keeps w u -> fails u v -> wscroll u = wscroll w).
      { intros w u v (_ & _ & [S|(_ & S & _)]) (F & _); [exact S|congruence]. }
      destruct H as [(H1 & H2 & H3)|(H1 & H2 & H3)]; [left|right].
      + split; [eapply keeps_fails; eauto|split; [eapply keeps_trans; eauto|]]. rewrite <- (T _ _ _ K1 H1). exact H3.
      + split; [eapply keeps_trans; eauto|split; [eapply keeps_fails; eauto|]]. rewrite <- (T _ _ _ K2 H2). exact H3.
  Qed.

  Lemma gap_part k p : part_rest p (gap_lines k (fst p), snd p).
  Proof. split; [apply gap_rest|reflexivity]. Qed.

  Definition gap_done (p q : part) (o : option (bool * list part)) : Prop :=
    match o with
    | None => True
    | Some (x, ps) => exists p' q', ps = [p'; q'] /\
        if x : bool then keeps (fst p) (fst p') /\ keeps (fst q) (fst q') /\ inv p' q' /\ (iw a p' + iw b q' < iw a p + iw b q)%nat
        else outcome p q (false, map fst ps)
    end.

  Lemma gap_ok f p q : inv p q -> (iw a p + iw b q <= f)%nat -> ok never (gap_done p q) (display_gap h sc coll dm f [] [p; q]).
  Proof.
    destruct p as [w0 b0], q as [w1 b1]. intros (PA & PB & EY & Y1 & T) IF. cbn [display_gap app].
    assert (FA : b0 = true -> fine a coll w0) by (intros ->; apply PA). assert (FB : b1 = true -> fine b coll w1) by (intros ->; apply PB).
    cbn [fst snd] in *. assert (LP0 := lw_pos a (w0, b0)). assert (LP1 := lw_pos b (w1, b1)).
    eapply ok_bind with (P := fun x => x = true -> b0 = true).
    { destruct b0; [|intros [=]]. eapply ok_mono; [apply (next_added_ok a coll dm), FA; reflexivity|]. auto. }
    intros [|] B0.
    - rewrite B0 in * by reflexivity. clear B0. eapply ok_bind; [apply added_a; [unfold iw in IF; cbn [fst snd] in IF; lia|exact Y1|apply FA; reflexivity|apply PA]|].
      intros [[fin|] v] (A1 & A2 & A3); cbn [fst snd] in *.
      + change (lw a (w0, true)) with (lines_left a sc nn w0) in *.
        assert (K : keeps w0 v) by (destruct fin; apply A3).
        assert (US : Z.of_nat (Z.to_nat (usub (wy v) (wy w0))) = wy v - wy w0) by (unfold usub; rewrite Z.mod_small by lia; lia).
        set (k := Z.to_nat _) in *. clearbody k. cbv zeta. cbn [map app]. eexists _, _. split; [reflexivity|]. cbn [fst snd].
        assert (KQ : keeps w1 (gap_lines k w1)) by (apply keeps_rest; [apply gap_rest|rewrite gap_wy; lia]).
        split; [exact K|]. split; [exact KQ|].
        assert (GP := gap_part k (w1, b1)). cbn [fst snd] in GP.
        assert (PV := placed_core a coll v w0 A1 (proj1 PA)).
        rewrite (iw_rest b _ _ GP). unfold inv. rewrite (lw_rest b _ _ GP). cbn [fst snd]. rewrite gap_wy.
        split; [|].
        * split; [|split; [eapply part_ok_rest; eassumption|]].
          { split; [exact PV|]. cbn [fst snd]. destruct fin; cbn [negb]; apply A3. }
          split; [lia|]. split; [lia|]. unfold lw at 1. cbn [fst snd]. destruct fin; cbn [negb]; [lia|]. lia.
        * unfold iw at 1 3. cbn [fst snd]. destruct fin; cbn [negb]; [assert (Q := items_pos a w0); lia|]. lia.
      + exists (v, true), (w1, b1). split; [reflexivity|]. exists v, w1. split; [reflexivity|]. left. cbn [fst snd]. split; [exact A3|]. split; [apply keeps_refl|].
        destruct A3 as (_ & _ & _ & A3). change (lw a (w0, true)) with (lines_left a sc nn w0) in *. lia.
    - eapply ok_bind with (P := fun x => x = true -> b1 = true).
      { destruct b1; [|intros [=]]. eapply ok_mono; [apply (next_added_ok b coll dm), FB; reflexivity|]. auto. }
      intros [|] B1; [|exact Logic.I].
      rewrite B1 in * by reflexivity. clear B1. eapply ok_bind; [apply added_b; [unfold iw in IF; cbn [fst snd] in IF; lia|lia|apply FB; reflexivity|apply PB]|].
      intros [[fin|] v] (A1 & A2 & A3); cbn [fst snd] in *.
      + change (lw b (w1, true)) with (lines_left b sc nn w1) in *.
        assert (K : keeps w1 v) by (destruct fin; apply A3).
        assert (US : Z.of_nat (Z.to_nat (usub (wy v) (wy w1))) = wy v - wy w1) by (unfold usub; rewrite Z.mod_small by lia; lia).
        set (k := Z.to_nat _) in *. clearbody k. cbv zeta. cbn [map app]. eexists _, _. split; [reflexivity|]. cbn [fst snd].
        assert (KQ : keeps w0 (gap_lines k w0)) by (apply keeps_rest; [apply gap_rest|rewrite gap_wy; lia]).
        split; [exact KQ|]. split; [exact K|].
        assert (GP := gap_part k (w0, b0)). cbn [fst snd] in GP.
        assert (PV := placed_core b coll v w1 A1 (proj1 PB)).
        rewrite (iw_rest a _ _ GP). unfold inv. rewrite (lw_rest a _ _ GP). cbn [fst snd]. rewrite gap_wy.
        split; [|].
        * split; [eapply part_ok_rest; eassumption|split].
          { split; [exact PV|]. cbn [fst snd]. destruct fin; cbn [negb]; apply A3. }
          split; [lia|]. split; [lia|]. unfold lw at 2. cbn [fst snd]. destruct fin; cbn [negb]; [lia|]. lia.
        * unfold iw at 2 4. cbn [fst snd]. destruct fin; cbn [negb]; [assert (Q := items_pos b w1); lia|]. lia.
      + exists (w0, b0), (v, true). split; [reflexivity|]. exists w0, v. split; [reflexivity|]. right. cbn [fst snd]. split; [apply keeps_refl|]. split; [exact A3|].
        destruct A3 as (_ & _ & _ & A3). change (lw b (w1, true)) with (lines_left b sc nn w1) in *. lia.
  Qed.

  (** One item of a window, if it is still drawing. *)
  Definition part_step (r : node) (p q : part) : Prop :=
    keeps (fst p) (fst q) /\ part_ok r q /\ (iw r q <= iw r p)%nat /\ (snd p = true -> (iw r q < iw r p)%nat) /\ wy (fst q) + lw r q <= wy (fst p) + lw r p.
  Lemma items_step r w fin v : placed r coll w -> after_items r sc coll nn w (Some fin, v) -> part_step r (w, true) (v, negb fin).
  Proof.
    intros P (A1 & A2 & A3). cbn [fst snd] in *. unfold part_step, part_ok, iw, lw. cbn [fst snd]. assert (Q := items_pos r w).
    assert (PV := placed_core r coll v w A1 P). destruct fin; cbn [negb].
    - destruct A3 as (K & R). split; [exact K|]. split; [split; assumption|]. lia.
    - destruct A3 as (K & F & I & L). split; [exact K|]. split; [split; assumption|]. lia.
  Qed.

  Definition displayed (p q : part) (x : bool * list (part * Z) * Z) : Prop :=
    exists p' q', snd (fst x) = [(p', wy (fst p)); (q', wy (fst q))] /\
      if fst (fst x)
      then part_step a p p' /\ part_step b q q' /\ wy (fst p') <= wy (fst p) + snd x /\ wy (fst q') <= wy (fst q) + snd x /\
           (snd x = wy (fst p') - wy (fst p) \/ snd x = wy (fst q') - wy (fst q) \/ snd x = 0)
      else outcome p q (false, [fst p'; fst q']).
  Lemma display_ok p q : inv p q -> ok never (displayed p q) (display h sc coll dm [p; q] 0).
  Proof.
    destruct p as [w0 b0], q as [w1 b1]. intros (PA & PB & EY & Y1 & T). cbn [fst snd] in *.
    assert (LP0 := lw_pos a (w0, b0)). assert (LP1 := lw_pos b (w1, b1)).
    assert (SELF : forall r w, part_ok r (w, false) -> part_step r (w, false) (w, false)) by (intros r w P; split; [apply keeps_refl|]; split; [exact P|]; split; [lia|]; split; [discriminate|lia]).
    assert (SECOND : forall mx, 0 <= mx < 2 ^ 32 -> ok never (fun x : bool * list (part * Z) * Z => exists q', snd (fst x) = [(q', wy w1)] /\
              if fst (fst x) then part_step b (w1, b1) q' /\ mx <= snd x /\ wy (fst q') <= wy w1 + snd x /\ (snd x = mx \/ snd x = wy (fst q') - wy w1)
              else fails w1 (fst q') /\ wscroll w1 <= total + 1) (display h sc coll dm [(w1, b1)] mx)).
    { intros mx MX. cbn [display]. destruct b1.
      - destruct PB as [PB1 PB2]. cbn [fst snd] in *. eapply ok_bind; [apply item_b; [lia|exact PB2|exact PB1]|].
        change (lw b (w1, true)) with (lines_left b sc nn w1) in *.
        intros [[fin|] v] A; cbn [SplitView.bind].
        + assert (S := items_step b w1 fin v PB1 A). destruct A as (A1 & A2 & A3). cbn [fst snd] in *. cbn [ok fst snd]. exists (v, negb fin). split; [reflexivity|]. split; [exact S|].
          cbn [fst snd]. unfold usub. rewrite Z.mod_small by lia. lia.
        + destruct A as (A1 & A2 & A3). cbn [fst snd ok map] in *. exists (v, true). split; [reflexivity|]. cbn [fst]. split; [exact A3|]. destruct A3 as (_ & _ & _ & A3). lia.
      - cbn [SplitView.bind ok fst snd]. exists (w1, false). split; [reflexivity|]. split; [apply SELF, PB|]. cbn [fst]. lia. }
    assert (LA := SECOND). clear SECOND.
    change (display h sc coll dm [(w0, b0); (w1, b1)] 0) with
      (if b0 then r <~ one_item h sc coll dm w0 ;
          match r with
          | (None, w') => Done (false, ((w', b0), wy w0) :: map (fun p => (p, wy (fst p))) [(w1, b1)], 0)
          | (Some fin, w') => r <~ display h sc coll dm [(w1, b1)] (Z.max 0 (usub (wy w') (wy w0))) ; let '(b, l, mx) := r in Done (b, ((w', negb fin), wy w0) :: l, mx)
          end
        else r <~ display h sc coll dm [(w1, b1)] 0 ; let '(b, l, mx) := r in Done (b, ((w0, b0), wy w0) :: l, mx)).
    destruct b0.
    - destruct PA as [PA1 PA2]. cbn [fst snd] in *. eapply ok_bind; [apply item_a; [lia|exact PA2|exact PA1]|].
      change (lw a (w0, true)) with (lines_left a sc nn w0) in *.
      intros [[fin|] v] A.
      + assert (S := items_step a w0 fin v PA1 A). destruct A as (A1 & A2 & A3). cbn [fst snd] in *.
        assert (US : usub (wy v) (wy w0) = wy v - wy w0) by (unfold usub; rewrite Z.mod_small by lia; lia). rewrite US.
        eapply ok_bind; [apply LA; lia|]. intros [[x l] mx] (q' & E & H). cbn [fst snd] in *. subst l. exists (v, negb fin), q'. split; [reflexivity|]. cbn [fst snd].
        destruct x.
        * destruct H as (H1 & H2 & H3 & H4). split; [exact S|]. split; [exact H1|]. lia.
        * exists v, (fst q'). split; [reflexivity|]. right. split; [apply S|]. exact H.
      + destruct A as (A1 & A2 & A3). cbn [fst snd map] in *. exists (v, true), (w1, b1). split; [reflexivity|]. cbn [fst snd]. exists v, w1. split; [reflexivity|]. left. cbn [fst snd].
        split; [exact A3|]. split; [apply keeps_refl|]. destruct A3 as (_ & _ & _ & A3). lia.
    - eapply ok_bind; [apply LA; lia|]. intros [[x l] mx] (q' & E & H). cbn [fst snd] in *. subst l. exists (w0, false), q'. split; [reflexivity|]. cbn [fst snd].
      destruct x.
      + destruct H as (H1 & H2 & H3 & H4). split; [apply SELF, PA|]. split; [exact H1|]. lia.
      + exists w0, (fst q'). split; [reflexivity|]. right. split; [apply keeps_refl|]. exact H.
  Qed.

  Lemma step_y r p q y : part_step r p q -> wy (fst q) <= y -> let q' := (set_wy (fst q) y, snd q) in keeps (fst p) (fst q') /\ part_ok r q' /\ iw r q' = iw r q /\ lw r q' = lw r q.
  Proof.
    intros (K & P & _) Y q'. assert (R : part_rest q q') by (split; reflexivity).
    split; [apply keeps_y; assumption|]. split; [eapply part_ok_rest; eassumption|]. split; [apply iw_rest, R|apply lw_rest, R].
  Qed.

  Lemma next_inv p q l mx : inv p q -> existsb snd [p; q] = true -> displayed p q (true, l, mx) ->
    exists p' q', l = [(p', wy (fst p)); (q', wy (fst q))] /\
      let p2 := (set_wy (fst p') (wy (fst p) + mx), snd p') in let q2 := (set_wy (fst q') (wy (fst q) + mx), snd q') in
      keeps (fst p) (fst p2) /\ keeps (fst q) (fst q2) /\ inv p2 q2 /\ (iw a p2 + iw b q2 < iw a p + iw b q)%nat.
  Proof.
    intros I EX (p' & q' & E & H). cbn [fst snd] in *. exists p', q'. split; [exact E|]. cbv zeta. destruct H as (S1 & S2 & Y1 & Y2 & YM).
    assert (T1 := step_y a p p' _ S1 Y1). assert (T2 := step_y b q q' _ S2 Y2). cbv zeta in T1, T2.
    destruct T1 as (K1 & O1 & W1 & L1), T2 as (K2 & O2 & W2 & L2). destruct S1 as ((Q1 & _) & _ & I1 & J1 & Z1), S2 as ((Q2 & _) & _ & I2 & J2 & Z2).
    assert (P1 := lw_pos a p'). assert (P2 := lw_pos b q'). destruct I as (_ & _ & EY & YY & T).
    assert (0 <= lw a p) by apply lw_pos. assert (0 <= lw b q) by apply lw_pos.
    split; [exact K1|]. split; [exact K2|]. split.
    - split; [exact O1|]. split; [exact O2|]. rewrite L1, L2. cbn [fst snd wy set_wy].
      split; [lia|]. split; [|].
      + enough (0 <= mx) by lia. cbn [fst set_wy wy] in K1. destruct K1 as (K1 & _). cbn [wy set_wy] in K1. lia.
      + destruct YM as [-> | [-> | ->]]; lia.
    - rewrite W1, W2. cbn [existsb] in EX. destruct (snd p), (snd q); try discriminate EX; try specialize (J1 eq_refl); try specialize (J2 eq_refl); lia.
  Qed.

  Lemma items_loop_ok f : forall p q, inv p q -> (iw a p + iw b q < f)%nat -> ok never (outcome p q) (redraw_items h sc coll dm f [p; q]).
  Proof.
    induction f as [|f IH]; intros p q I F; [lia|]. cbn [redraw_items]. destruct (existsb snd [p; q]) eqn:EX.
    - eapply ok_bind; [apply gap_ok; [exact I|lia]|]. intros [[[|] ps]|] G.
      + destruct G as (p' & q' & -> & K1 & K2 & I' & W). eapply ok_mono; [apply IH; [exact I'|lia]|]. intros x. apply outcome_trans; assumption.
      + destruct G as (p' & q' & -> & G). exact G.
      + eapply ok_bind; [apply display_ok, I|]. intros [[x l] mx] HD. destruct x.
        * destruct (next_inv p q l mx I EX HD) as (p' & q' & -> & K1 & K2 & I' & W). cbn [map fst snd].
          eapply ok_mono; [apply IH; [exact I'|lia]|intros y; apply outcome_trans; assumption].
        * destruct HD as (p' & q' & E & v0 & v1 & E' & H). cbn [fst snd] in *. subst l. exists v0, v1. split; [exact E'|exact H].
    - destruct p as [w0 b0], q as [w1 b1]. cbn [existsb snd] in EX. destruct b0; [discriminate EX|]. destruct b1; [discriminate EX|].
      destruct I as ((_ & R0) & (_ & R1) & _). exists w0, w1. split; [reflexivity|]. cbn [fst snd] in *. split; [apply keeps_refl|]. split; [apply keeps_refl|]. auto.
  Qed.

  (** One redraw. *)
  Definition redrawn (w0 w1 : win) (x : bool * list win) : Prop :=
    exists v0 v1, snd x = [v0; v1] /\ core v0 = core w0 /\ core v1 = core w1 /\
      if fst x then keeps (start w0) v0 /\ keeps (start w1) v1 /\ ready_rows a coll v0 /\ ready_rows b coll v1
      else (fails (start w0) v0 /\ keeps (start w1) v1 /\ wscroll w0 <= total + 1) \/ (keeps (start w0) v0 /\ fails (start w1) v1 /\ wscroll w1 <= total + 1).
  Lemma start_fine r w : wroot w = r -> fine r coll (start w).
  Proof. intros E. unfold fine, start. cbn. repeat split; auto; discriminate. Qed.
  Lemma start_placed r w : placed r coll w -> placed r coll (start w).
  Proof. apply placed_core. reflexivity. Qed.
  Lemma start_inv w0 w1 : placed a coll w0 -> placed b coll w1 -> inv (start w0, true) (start w1, true).
  Proof.
    intros P0 P1. split; [split; [apply start_placed, P0|apply start_fine, P0]|]. split; [split; [apply start_placed, P1|apply start_fine, P1]|].
    split; [reflexivity|]. split; [cbn; lia|]. unfold lw, lines_left, total. rewrite lines_app. cbn [fst snd start wstack wy]. fold half. lia.
  Qed.
  Lemma redraw_ok w0 w1 : placed a coll w0 -> placed b coll w1 -> ok never (redrawn w0 w1) (redraw_all h sc coll dm [w0; w1]).
  Proof.
    intros P0 P1. assert (R : ok never (outcome (start w0, true) (start w1, true)) (redraw_all h sc coll dm [w0; w1])).
    { apply items_loop_ok; [apply start_inv; assumption|]. unfold iw, items_left, items_fuel. cbn [fst snd start wstack]. rewrite HH, app_length. lia. }
    assert (C := redraw_core h sc coll dm [w0; w1]). destruct (redraw_all h sc coll dm [w0; w1]) as [[x ws]|]; [|exact R]. cbn [ok] in *.
    destruct R as (v0 & v1 & E & R). cbn [snd] in E. subst ws. cbn [snd map] in C. injection C as C0 C1. exists v0, v1. split; [reflexivity|]. split; [unfold core; congruence|]. split; [unfold core; congruence|]. exact R.
  Qed.
End Loop.

(** Documents of the same shape stay level in the comparison. *)
From Verif Require Export Spec.LevelSpec.
From Verif Require Import Proofs.RowProofs Proofs.NbLinesProofs Proofs.SplitPress Proofs.SplitTerm Proofs.SplitLoop Proofs.SplitDraw Proofs.SplitKeys.
From Coq Require Import Lia ZifyBool.
Open Scope Z_scope.

Ltac parts := repeat match goal with |- _ /\ _ => split | |- _ \/ _ -> _ => intros [?|?] | |- _ -> _ => intro end.

Section Twins.
  Variable (dm : mat).
  Definition eqv (x y : Z) : Prop := getEquivalence dm x = Some y /\ getEquivalence dm y = Some x.
  Lemma eqv_same x y x' y' : eqv x y -> eqv x' y' -> (x =? x') = (y =? y').
  Proof. intros [A B] [C D]. destruct (x =? x') eqn:E, (y =? y') eqn:F; try reflexivity; exfalso; [assert (G : x = x') by lia; rewrite G in A; assert (y = y') by congruence; lia|assert (G : y = y') by lia; rewrite G in B; assert (x = x') by congruence; lia]. Qed.

  Inductive twin : node -> node -> Prop :=
  | TW_prim m p m' p' : eqv (mid m) (mid m') -> twin (NPrim m p) (NPrim m' p')
  | TW_arr m l m' l' : eqv (mid m) (mid m') -> Forall2 twin l l' -> twin (NArr m l) (NArr m' l')
  | TW_obj m l m' l' : eqv (mid m) (mid m') -> Forall2 (fun x y => eqv (mid (fst (fst x))) (mid (fst (fst y))) /\ twin (snd x) (snd y)) l l' -> twin (NObj m l) (NObj m' l').
  Inductive twinE : elem -> elem -> Prop :=
  | TE_node n n' : twin n n' -> twinE (ENode n) (ENode n')
  | TE_entry m k v m' k' v' : eqv (mid m) (mid m') -> twin v v' -> twinE (EEntry m k v) (EEntry m' k' v').

  Lemma twin_kids n n' : twin n n' -> eqv (nid n) (nid n') /\ is_container n = is_container n' /\ Forall2 twinE (children n) (children n').
  Proof.
    intros T. inversion T as [m p m' p' E|m l m' l' E F|m l m' l' E F]; subst; cbn [children is_container]; (split; [exact E|]); (split; [reflexivity|]).
    - constructor.
    - clear E T. induction F; cbn [map]; constructor; [constructor; assumption|assumption].
    - clear E T. induction F as [|x y l l' [X Y] F IH]; cbn [map]; constructor; [destruct x as [[? ?] ?], y as [[? ?] ?]; constructor; assumption|assumption].
  Qed.
  Lemma twinE_eqv e e' : twinE e e' -> eqv (eid e) (eid e') /\ twin (value_of e) (value_of e').
  Proof. intros T. destruct T as [n n' T|m k v m' k' v' E T]; cbn [eid value_of]; [split; [apply (twin_kids n n' T)|exact T]|auto]. Qed.
  Lemma twin_len l l' : Forall2 twinE l l' -> length l = length l'.
  Proof. induction 1; cbn; congruence. Qed.
  Lemma twin_nth l l' : Forall2 twinE l l' -> forall n, match nth_error l n, nth_error l' n with Some e, Some e' => twinE e e' | None, None => True | _, _ => False end.
  Proof. induction 1 as [|x y l l' X F IH]; intros [|n]; cbn [nth_error]; auto. apply IH. Qed.

  Definition twin_stack (st st' : list (Z * node)) : Prop := Forall2 (fun x y => fst x = fst y /\ twin (snd x) (snd y)) st st'.
  Definition twin_log (l l' : list (Z * bool * Z)) : Prop := Forall2 (fun x y => eqv (fst (fst x)) (fst (fst y)) /\ snd (fst x) = snd (fst y) /\ snd x = snd y) l l'.

  (** Lines without a gap, the last one above [y]. *)
  Fixpoint countdown (y : Z) (l : list (Z * bool * Z)) : Prop := match l with [] => y = 1 | x :: t => snd x + 1 = y /\ countdown (snd x) t end.

  Definition twin_logs (l l' : list (Z * bool * Z)) : Prop := twin_log l l' /\ exists y, countdown y l.

  (** Twin windows: all but the scroll position, and what Up and Down go to. *)
  Definition tw (w v : win) : Prop :=
    twin (wroot w) (wroot v) /\ (exists l l', wlast w = Some l /\ wlast v = Some l' /\ eqv l l') /\
    wx w = wx v /\ wy w = wy v /\ 1 <= wy w /\ wfound w = wfound v /\ twin_stack (wstack w) (wstack v) /\ (twin_log (wlog w) (wlog v) /\ countdown (wy w) (wlog w)).
  Lemma tw_up w v a b : tw w v -> tw (set_wup w a) (set_wup v b).
  Proof. intros T. exact T. Qed.
  Lemma tw_logs w v : tw w v -> twin_logs (wlog w) (wlog v).
  Proof. intros (_ & _ & _ & _ & _ & _ & _ & T & C). split; [exact T|eauto]. Qed.

  Variable (h : list elem) (sc : screen) (coll : list Z).
  Hypothesis CL : forall x y, eqv x y -> mem x coll = mem y coll.
  Hypothesis SW : 5 <= sw sc < 2 ^ 32.
  Hypothesis SH : 2 <= sh sc < 2 ^ 32.
  Hypothesis SL : forall e, 0 <= slen sc e.

  Lemma bottom_at w : bottom sc w = (sh sc <=? wy w - wscroll w).
  Proof. unfold bottom, hasReachedBottom, usub. rewrite Z.mod_small by lia. destruct (wscroll w <=? wy w) eqn:E; lia. Qed.


  Lemma line_one n maxw : 1 <= n <= maxw -> maxw < 2 ^ 32 -> getNbLines n maxw = Some 1.
  Proof. intros N M. apply nb_lines_ceil; lia. Qed.
  Lemma put_line s i c len maxw w : 1 <= len + wx w <= maxw -> maxw < 2 ^ 32 ->
    exists w', put dm s i c len maxw w = Done w' /\ like w' w /\ wy w' = wy w + 1 /\ wlog w' = (i, c, wy w) :: wlog w.
  Proof.
    intros L M. unfold put. cbv zeta. destruct (wy w <=? wscroll w); [eexists; split; [reflexivity|]; repeat split|].
    rewrite line_one by assumption. cbn [lift SplitView.bind]. eexists. split; [reflexivity|]. unfold displayDiffOp. destruct (shown_op dm i); repeat split.
  Qed.
  Lemma tw_put0 s i i' c len len' maxw maxw' w v : tw w v -> eqv i i' -> 1 <= len + wx w <= maxw -> maxw < 2 ^ 32 -> 1 <= len' + wx v <= maxw' -> maxw' < 2 ^ 32 ->
    exists w' v', put dm s i c len maxw w = Done w' /\ put dm s i' c len' maxw' v = Done v' /\ tw w' v' /\
      wscroll w' = wscroll w /\ wscroll v' = wscroll v /\ wfound w' = wfound w /\ wy w' = wy w + 1 /\ wstack w' = wstack w /\ wstack v' = wstack v /\ wx w' = wx w /\ wx v' = wx v.
  Proof.
    intros (T1 & (l & l' & T2 & T3 & T4) & T5 & T6 & T7 & T8 & T9 & T10) E A B C D.
    destruct (put_line s i c len maxw w A B) as (w' & P & (Q1 & _ & _ & Q4 & Q5 & Q6 & Q7) & Q8 & Q9).
    destruct (put_line s i' c len' maxw' v C D) as (v' & P' & (R1 & _ & _ & R4 & R5 & R6 & R7) & R8 & R9).
    exists w', v'. split; [exact P|]. split; [exact P'|]. injection Q1 as QA QB QC QD. injection R1 as RA RB RC RD.
    split; [|repeat split; assumption]. unfold tw. rewrite QA, QC, RA, RC, Q5, Q6, Q7, Q8, Q9, R5, R6, R7, R8, R9. destruct T10 as [T10 T11]. parts; auto; try lia; [eauto|constructor; [cbn; auto|exact T10]|cbn; auto].
  Qed.

  Lemma tw_put e t e' t' s i i' c len len' maxw maxw' w v : tw w v -> eqv i i' -> 1 <= len + wx w <= maxw -> maxw < 2 ^ 32 -> 1 <= len' + wx v <= maxw' -> maxw' < 2 ^ 32 ->
    exists w' v', put dm s i c len maxw (prints e t w) = Done w' /\ put dm s i' c len' maxw' (prints e' t' v) = Done v' /\ tw w' v' /\
      wscroll w' = wscroll w /\ wscroll v' = wscroll v /\ wfound w' = wfound w /\ wy w' = wy w + 1 /\ wstack w' = wstack w /\ wstack v' = wstack v /\ wx w' = wx w /\ wx v' = wx v.
  Proof. exact (tw_put0 s i i' c len len' maxw maxw' (prints e t w) (prints e' t' v)). Qed.

  (** Outcome of drawing in both windows. *)
  Definition step (w v : win) (x y : bool * win) : Prop :=
    wfound (snd x) = wfound (snd y) /\ wscroll (snd y) <= wscroll (snd x) /\ (wscroll w = wscroll v -> wscroll (snd x) = wscroll (snd y)) /\
    (wfound (snd x) = false -> wscroll (snd x) = wscroll w /\ wscroll (snd y) = wscroll v) /\
    wy w + 1 <= wy (snd x) <= wy w + 2 /\ (wscroll w = wscroll v \/ fst y = true -> fst x = fst y /\ tw (snd x) (snd y)) /\ (wfound w = true -> wfound (snd x) = true).
  Definition steps (w v : win) (x y : out (bool * win)) : Prop := exists r r', x = Done r /\ y = Done r' /\ step w v r r'.

  Lemma open_steps n n' w v : twin n n' -> tw w v -> wscroll v <= wscroll w -> 1 <= 7 + wx w <= sw sc - 2 ->
    0 <= wx w -> exists r r', open_container sc coll dm n w = Done r /\ open_container sc coll dm n' v = Done r' /\ step w v r r' /\ wy (snd r) = wy w + 1 /\
      wscroll (snd r) = wscroll w /\ wscroll (snd r') = wscroll v /\ wfound (snd r) = wfound w /\ fst r = negb (bottom sc (snd r)) /\ fst r' = negb (bottom sc (snd r')).
  Proof.
    intros TN T S X X0. assert (T' := T). destruct T' as (_ & _ & T5 & T6 & T7 & T8 & T9 & _). destruct (twin_kids n n' TN) as (EN & _ & _). unfold open_container.
    assert (IW : inner sc = sw sc - 2) by (unfold inner, usub; apply Z.mod_small; lia). rewrite IW.
    rewrite <- (CL _ _ EN). destruct (mem (nid n) coll).
    - destruct (tw_put (ENode n) [(SimpleText.node_type n, SimpleText.folded n)] (ENode n') [(SimpleText.node_type n', SimpleText.folded n')] false _ _ false 7 7 (sw sc - 2) (sw sc - 2) w v T EN ltac:(lia) ltac:(lia) ltac:(lia) ltac:(lia)) as (w' & v' & -> & -> & T' & A1 & A2 & A3 & A4 & _).
      cbn [SplitView.bind]. eexists _, _. split; [reflexivity|]. split; [reflexivity|]. cbn [fst snd]. split; [|repeat split; auto]. unfold step. cbn [fst snd].
      assert (F : wfound w' = wfound v') by apply T'. assert (Y : wy w' = wy v') by apply T'. rewrite !bottom_at.
      parts; auto; try lia; congruence.
    - destruct (tw_put (ENode n) [(SimpleText.node_type n, SimpleText.opening n)] (ENode n') [(SimpleText.node_type n', SimpleText.opening n')] true _ _ false 1 1 (sw sc - 2) (sw sc - 2) w v T EN ltac:(lia) ltac:(lia) ltac:(lia) ltac:(lia)) as (w' & v' & -> & -> & T' & A1 & A2 & A3 & A4 & A5 & A6 & A7 & A8).
      cbn [SplitView.bind]. assert (F : wfound w' = wfound v') by apply T'. assert (Y : wy w' = wy v') by apply T'. assert (ST : twin_stack (wstack w') (wstack v')) by apply T'. assert (XX : wx w' = wx v') by apply T'.
      destruct (bottom sc w') eqn:B1, (bottom sc v') eqn:B2; eexists _, _; (split; [reflexivity|]); (split; [reflexivity|]); cbn [fst snd]; rewrite bottom_at in B1, B2;
        (split; [unfold step; cbn [fst snd]|cbn [wy set_wx set_wstack wscroll wfound]; rewrite !bottom_at; cbn [wy wscroll set_wx set_wstack]; parts; auto; lia]);
        cbn [wscroll wfound wy set_wx set_wstack].
      + parts; auto; try lia; try discriminate; congruence.
      + exfalso. lia.
      + parts; auto; try lia; try discriminate; congruence.
      + assert (TT : tw (set_wx (set_wstack w' ((-1, n) :: wstack w')) (wx w' + INDENT_LEVEL)) (set_wx (set_wstack v' ((-1, n') :: wstack v')) (wx v' + INDENT_LEVEL))).
        { destruct T' as (U1 & U2 & U3 & U4 & U5 & U6 & U7 & U8 & U9). unfold tw. cbn. repeat split; auto; try lia. constructor; [cbn; auto|exact U7]. }
        parts; auto; try lia; congruence.
  Qed.

  Lemma check_found e w : wfound w = true -> check h e w = w \/ exists d, check h e w = set_wdown w d.
  Proof.
    intros F. unfold check. rewrite F. cbn [negb]. destruct (wdown w); [auto|]. cbv zeta.
    match goal with |- context [lookup h ?i] => destruct (lookup h i) as [x|]; [|auto] end. destruct (parent_is_entry h x); cbn [negb]; eauto.
  Qed.
  Lemma tw_check e e' w v : twinE e e' -> tw w v -> wscroll v <= wscroll w ->
    tw (check h e w) (check h e' v) /\ wscroll (check h e' v) <= wscroll (check h e w) /\ (wscroll w = wscroll v -> wscroll (check h e w) = wscroll (check h e' v)) /\
    (wfound (check h e w) = false -> wscroll (check h e w) = wscroll w /\ wscroll (check h e' v) = wscroll v) /\ wy (check h e w) = wy w /\
    wx (check h e w) = wx w /\ wstack (check h e w) = wstack w.
  Proof.
    intros TE T S. assert (T' := T). destruct T' as (T1 & (l & l' & T2 & T3 & T4) & T5 & T6 & T7 & T8 & T9 & T10 & T11). destruct (twinE_eqv _ _ TE) as [EE _].
    destruct (wfound w) eqn:FW.
    - destruct (check_found e w FW) as [->|(d & ->)], (check_found e' v (eq_sym T8)) as [->|(d' & ->)]; cbn; parts; auto; congruence.
    - unfold check. rewrite FW, T2, T3, <- T8. cbn [negb sel_is]. rewrite <- (eqv_same _ _ _ _ T4 EE). destruct (l =? eid e).
      + rewrite <- T6. assert (Z0 : (wy w =? 0) = false) by lia. rewrite Z0. destruct (wy w <=? wscroll w) eqn:Y1, (wy w <=? wscroll v) eqn:Y2; cbn; repeat split; auto; try lia; try discriminate; eauto.
      + destruct (negb (parent_is_entry h e)), (negb (parent_is_entry h e')); cbn; repeat split; auto; try (rewrite FW; auto); eauto.
  Qed.

  Definition fits (e : elem) (w : win) : Prop := slen sc e + slen sc (ENode (value_of e)) + 12 + wx w <= sw sc /\ 2 <= wx w.

  Lemma inner_is : inner sc = sw sc - 2.
  Proof. unfold inner, usub. apply Z.mod_small. lia. Qed.

  (** One line in both windows. *)
  Lemma line_step w v w' v' : tw w' v' -> wscroll v <= wscroll w -> wscroll w' = wscroll w -> wscroll v' = wscroll v -> wfound w' = wfound w -> wy w' = wy w + 1 ->
    step w v (negb (bottom sc w'), w') (negb (bottom sc v'), v').
  Proof.
    intros T S A1 A2 A3 A4. assert (F : wfound w' = wfound v') by apply T. assert (Y : wy w' = wy v') by apply T. unfold step. cbn [fst snd]. rewrite !bottom_at. parts; auto; try lia; congruence.
  Qed.

  Lemma key_alone_put e w w' : put dm false (eid e) false (slen sc e) (sw sc - 2 - 2) (prints e (key_texts e) w) = Done w' -> wy w' = wy w + 1 ->
    key_alone sc dm e w = Done (negb (bottom sc w'), w').
  Proof.
    assert (W : usub (usub (sw sc) 2) 2 = sw sc - 2 - 2) by (unfold usub; rewrite (Z.mod_small (sw sc - 2)) by lia; apply Z.mod_small; lia).
    intros P Y. unfold key_alone. rewrite W, P. cbn [SplitView.bind]. destruct (wy w <=? wscroll w) eqn:E; [|reflexivity]. unfold put, prints in P. cbn [wy wscroll] in P. rewrite E in P. injection P as <-.
    rewrite bottom_at. cbn [wy wscroll set_wy add_log]. do 2 f_equal. lia.
  Qed.
  Lemma key_after_put e tx len w w' : put dm false (eid e) false (slen sc e + 2 + len) (sw sc - 2) (prints e (key_texts e ++ [(SimpleText.node_type (value_of e), SimpleText.c_str tx)]) w) = Done w' -> wy w' = wy w + 1 ->
    key_after sc dm e tx len w = Done (negb (bottom sc w'), w').
  Proof.
    intros P Y. unfold key_after. rewrite inner_is, P. cbn [SplitView.bind]. destruct (wy w <=? wscroll w) eqn:E; [|reflexivity]. unfold put, prints in P. cbn [wy wscroll] in P. rewrite E in P. injection P as <-.
    rewrite bottom_at. cbn [wy wscroll set_wy add_log]. do 2 f_equal. lia.
  Qed.

  Lemma entry_steps m k x m' k' x' w v : twinE (EEntry m k x) (EEntry m' k' x') -> tw w v -> wscroll v <= wscroll w -> fits (EEntry m k x) w -> fits (EEntry m' k' x') v ->
    steps w v (draw_entry sc coll dm m k x w) (draw_entry sc coll dm m' k' x' v).
  Proof.
    intros TE T S [F1 F2] [F3 F4]. destruct (twinE_eqv _ _ TE) as [EE TX]. cbn [value_of eid] in *. destruct (twin_kids _ _ TX) as (EX & EC & EK).
    assert (L1 := SL (EEntry m k x)). assert (L2 := SL (EEntry m' k' x')). assert (L3 := SL (ENode x)). assert (L4 := SL (ENode x')).
    assert (IN : forall tx tx' l l', 0 <= l <= slen sc (ENode x) + 7 -> 0 <= l' <= slen sc (ENode x') + 7 ->
      steps w v (r <~ key_after sc dm (EEntry m k x) tx l w; let '(b, w) := r in Done (b && negb (bottom sc w), w))
                (r <~ key_after sc dm (EEntry m' k' x') tx' l' v; let '(b, w) := r in Done (b && negb (bottom sc w), w))).
    { intros tx tx' l l' B1 B2.
      destruct (tw_put (EEntry m k x) (key_texts (EEntry m k x) ++ [(SimpleText.node_type x, SimpleText.c_str tx)])%list (EEntry m' k' x') (key_texts (EEntry m' k' x') ++ [(SimpleText.node_type x', SimpleText.c_str tx')])%list false (mid m) (mid m') false (slen sc (EEntry m k x) + 2 + l) (slen sc (EEntry m' k' x') + 2 + l') (sw sc - 2) (sw sc - 2) w v T EE ltac:(lia) ltac:(lia) ltac:(lia) ltac:(lia)) as (w' & v' & P & P' & T' & A1 & A2 & A3 & A4 & _).
      assert (Y' : wy v' = wy v + 1) by (destruct T as (_ & _ & _ & T6 & _), T' as (_ & _ & _ & T6' & _); lia).
      rewrite (key_after_put _ _ _ _ _ P A4), (key_after_put _ _ _ _ _ P' Y'). cbn [SplitView.bind]. rewrite !andb_diag. eexists _, _. split; [reflexivity|]. split; [reflexivity|]. apply line_step; assumption. }
    unfold draw_entry. cbv zeta. rewrite <- EC, <- (CL _ _ EX). destruct (is_container x && mem (nid x) coll) eqn:FO; [apply IN; lia|]. destruct (negb (is_container x)) eqn:NC; [apply IN; lia|].
    assert (LE := twin_len _ _ EK). destruct (children x) as [|c t] eqn:CH, (children x') as [|c' t'] eqn:CH'; try discriminate; [apply IN; lia|]. clear IN LE.
    destruct (tw_put (EEntry m k x) (key_texts (EEntry m k x)) (EEntry m' k' x') (key_texts (EEntry m' k' x')) false (mid m) (mid m') false (slen sc (EEntry m k x)) (slen sc (EEntry m' k' x')) (sw sc - 2 - 2) (sw sc - 2 - 2) w v T EE ltac:(lia) ltac:(lia) ltac:(lia) ltac:(lia)) as (w' & v' & P & P' & T' & A1 & A2 & A3 & A4 & _ & _ & A5 & A6).
    assert (Y' : wy v' = wy v + 1) by (destruct T as (_ & _ & _ & T6 & _), T' as (_ & _ & _ & T6' & _); lia).
    rewrite (key_alone_put _ _ _ P A4), (key_alone_put _ _ _ P' Y'). cbn [SplitView.bind]. assert (LS := line_step w v w' v' T' S A1 A2 A3 A4).
    destruct (open_steps x x' w' v' TX T' ltac:(lia) ltac:(lia) ltac:(lia)) as (r & r' & O1 & O2 & O3 & O4 & O7 & O8 & O9 & O5 & O6).
    rewrite O1, O2. cbn [SplitView.bind]. rewrite <- O5, <- O6. destruct r as [b w1], r' as [b' v1]. cbn [fst snd] in *. destruct O3 as (Q1 & Q2 & Q3 & Q4 & Q5 & Q6 & Q7). cbn [fst snd] in *.
    assert (Y := proj1 (proj2 (proj2 (proj2 T')))). assert (F := proj1 (proj2 (proj2 (proj2 (proj2 (proj2 T')))))).
    destruct (bottom sc w') eqn:B1, (bottom sc v') eqn:B2; cbn [negb] in *; eexists _, _; (split; [reflexivity|]); (split; [reflexivity|]).
    - exact LS.
    - exfalso. rewrite bottom_at in B1, B2. clear - B1 B2 Y S A1 A2 SH. lia.
    - rewrite bottom_at in B1, B2. assert (NE : wscroll w <> wscroll v) by (clear - B1 B2 Y A1 A2 SH; lia). unfold step; cbn [fst snd]. clear - NE S A1 A2 A3 A4 O4 O7 O8 O9 F. parts; try congruence; lia.
    - unfold step; cbn [fst snd]. assert (EQ : wscroll w = wscroll v -> wscroll w' = wscroll v') by congruence. clear - EQ S A1 A2 A3 A4 O4 O7 O8 O9 F Q1 Q6. parts; auto; try congruence; try lia; apply Q6; auto.
  Qed.

  Lemma step_check e e' w v r r' : twinE e e' -> tw w v -> wscroll v <= wscroll w -> step (check h e w) (check h e' v) r r' ->
    (wfound w = true -> wfound (check h e w) = true) -> step w v r r'.
  Proof.
    intros TE T S (Q1 & Q2 & Q3 & Q4 & Q5 & Q6 & Q7) K. destruct (tw_check e e' w v TE T S) as (C1 & C2 & C3 & C4 & C5 & C6 & C7).
    assert (N : wfound (snd r) = false -> wfound (check h e w) = false) by (intros N; destruct (wfound (check h e w)); [rewrite Q7 in N by reflexivity; discriminate|reflexivity]).
    unfold step. rewrite <- C5. split; [exact Q1|]. split; [exact Q2|]. split; [auto|]. split; [|split; [exact Q5|split; [|auto]]].
    - intros F. destruct (Q4 F) as [-> ->]. apply C4, N, F.
    - intros [H|H]; apply Q6; auto.
  Qed.

  Lemma draw_elem_steps e e' w v : twinE e e' -> tw w v -> wscroll v <= wscroll w -> fits e w -> fits e' v -> steps w v (draw_elem h sc coll dm e w) (draw_elem h sc coll dm e' v).
  Proof.
    intros TE T S F F'. destruct (tw_check e e' w v TE T S) as (C1 & C2 & C3 & C4 & C5 & C6 & C7). unfold draw_elem. cbv zeta.
    assert (CF : wfound w = true -> wfound (check h e w) = true) by (intros FW; destruct (check_found e w FW) as [->|(d & ->)]; exact FW).
    assert (X : fits e (check h e w)) by (unfold fits in *; rewrite C6; exact F). assert (X' : fits e' (check h e' v)) by (unfold fits in *; rewrite <- (proj1 (proj2 (proj2 C1))), C6, (proj1 (proj2 (proj2 T))); exact F').
    assert (G : forall x y, steps (check h e w) (check h e' v) x y -> steps w v x y).
    { intros x y (r & r' & -> & -> & Q). exists r, r'. split; [reflexivity|]. split; [reflexivity|]. exact (step_check e e' w v r r' TE T S Q CF). }
    apply G. clear G. set (w0 := check h e w) in *. set (v0 := check h e' v) in *. clearbody w0 v0. clear T S F F' C3 C4 C5 C6 C7 CF.
    inversion TE as [n n' TN|m k x m' k' x' EM TX]; subst.
    - destruct (twin_kids _ _ TN) as (EN & EC & _). rewrite <- EC. destruct X as [X1 X2], X' as [X3 X4]. cbn [value_of] in *. assert (L1 := SL (ENode n)). assert (L2 := SL (ENode n')). destruct (is_container n).
      + destruct (open_steps n n' w0 v0 TN C1 C2 ltac:(lia) ltac:(lia)) as (r & r' & O1 & O2 & O3 & _). exists r, r'. auto.
      + rewrite inner_is. destruct (tw_put (ENode n) [(SimpleText.node_type n, SimpleText.c_str (SimpleText.prim_text n))] (ENode n') [(SimpleText.node_type n', SimpleText.c_str (SimpleText.prim_text n'))] false (nid n) (nid n') false (slen sc (ENode n)) (slen sc (ENode n')) (sw sc - 2) (sw sc - 2) w0 v0 C1 EN ltac:(lia) ltac:(lia) ltac:(lia) ltac:(lia)) as (w' & v' & -> & -> & T' & A1 & A2 & A3 & A4 & _).
        cbn [SplitView.bind]. eexists _, _. split; [reflexivity|]. split; [reflexivity|]. apply line_step; assumption.
    - apply entry_steps; assumption.
  Qed.

  Lemma draw_next_steps w v : tw w v -> wscroll v <= wscroll w ->
    wx w = 2 + INDENT_LEVEL * Z.of_nat (length (wstack w)) -> wx w + 14 <= sw sc ->
    (forall e, wstack w = [] /\ e = ENode (wroot w) \/ (exists i c t, wstack w = (i, c) :: t /\ nth_error (children c) (Z.to_nat (i + 1)) = Some e) -> fits e w) ->
    (forall e, wstack v = [] /\ e = ENode (wroot v) \/ (exists i c t, wstack v = (i, c) :: t /\ nth_error (children c) (Z.to_nat (i + 1)) = Some e) -> fits e v) ->
    (forall i c t, wstack w = (i, c) :: t -> -1 <= i < Z.of_nat (length (children c))) ->
    steps w v (draw_next h sc coll dm w) (draw_next h sc coll dm v).
  Proof.
    intros T S X XB F F' B. assert (T' := T). destruct T' as (T1 & T2 & T3 & T4 & T5 & T6 & T7 & T8 & T9). unfold draw_next.
    inversion T7 as [E1 E2|[i c] [i' c'] t t' [EI TC] TT E1 E2]; [apply draw_elem_steps; auto; constructor; exact T1|]. cbn [fst snd] in *. subst i'.
    destruct (twin_kids _ _ TC) as (EC & _ & EK). rewrite <- (twin_len _ _ EK). destruct (i + 1 =? Z.of_nat (length (children c))) eqn:EN.
    - unfold close_container. rewrite <- E1 in X. cbn [length] in X. rewrite inner_is.
      assert (TX : tw (set_wx (set_wstack w t) (wx (set_wstack w t) - INDENT_LEVEL)) (set_wx (set_wstack v t') (wx (set_wstack v t') - INDENT_LEVEL))).
      { unfold tw. cbn. repeat split; auto. lia. }
      assert (IX : 2 <= wx w - INDENT_LEVEL) by (unfold INDENT_LEVEL in *; lia). assert (IV : INDENT_LEVEL = 4) by reflexivity.
      destruct (tw_put (ENode c) [(SimpleText.node_type c, SimpleText.closing c)] (ENode c') [(SimpleText.node_type c', SimpleText.closing c')] true (nid c) (nid c') true 1 1 (sw sc - 2) (sw sc - 2) _ _ TX EC) as (w' & v' & -> & -> & T' & A1 & A2 & A3 & A4 & _); [cbn [wx set_wx set_wstack]; lia..|].
      cbn [SplitView.bind]. eexists _, _. split; [reflexivity|]. split; [reflexivity|]. cbn [wscroll wy wfound set_wx set_wstack] in *. apply line_step; assumption.
    - assert (Q := twin_nth _ _ EK (Z.to_nat (i + 1))). specialize (B i c t (eq_sym E1)).
      destruct (nth_error (children c) (Z.to_nat (i + 1))) as [e|] eqn:NE; [|apply nth_error_None in NE; lia]. destruct (nth_error (children c') (Z.to_nat (i + 1))) as [e'|] eqn:NE'; [|destruct Q].
      assert (TX : tw (set_wstack w ((i + 1, c) :: t)) (set_wstack v ((i + 1, c') :: t'))).
      { unfold tw. cbn. repeat split; auto. constructor; [cbn; auto|exact TT]. }
      assert (G := draw_elem_steps e e' _ _ Q TX S). unfold steps, step in *. cbn [wscroll wy wfound set_wstack] in G. apply G.
      + apply F. right. rewrite <- E1. eauto.
      + apply F'. right. rewrite <- E2. eauto.
  Qed.
End Twins.

Section LevelLoop.
  Variable (a b : node) (h : list elem) (sc : screen) (coll : list Z) (dm : mat) (nn : nat).
  Let half : Z := 4 * Z.of_nat nn + 16.
  Let total : Z := lines_of (slen sc) half (elems a ++ elems b).
  Hypothesis HH : h = elems a ++ elems b.
  Hypothesis MA : in_memory a.
  Hypothesis MB : in_memory b.
  Hypothesis D : NoDup (ids a ++ ids b).
  Hypothesis NA : (nesting a <= nn)%nat.
  Hypothesis NB : (nesting b <= nn)%nat.
  Hypothesis SW : 5 <= sw sc < 2 ^ 32.
  Hypothesis SH : 2 <= sh sc < 2 ^ 32.
  Hypothesis SL : forall e, 0 <= slen sc e.
  Hypothesis BK : total < 2 ^ 32.
  Hypothesis CL : forall x y, eqv dm x y -> mem x coll = mem y coll.
  Hypothesis UA : unwrapped (slen sc) (sw sc) a.
  Hypothesis UB : unwrapped (slen sc) (sw sc) b.
  Hypothesis PA : forall x, In x (ids a ++ ids b) -> isAdded dm x = false.

  Local Notation tw := (tw dm).
  Local Notation inv := (inv a b sc coll nn).
  Local Notation one := (one_item h sc coll dm).

  Lemma fine_fits r w : unwrapped (slen sc) (sw sc) r -> fine r coll w ->
    wx w + 14 <= sw sc /\
    forall e, wstack w = [] /\ e = ENode (wroot w) \/ (exists i c t, wstack w = (i, c) :: t /\ nth_error (children c) (Z.to_nat (i + 1)) = Some e) -> fits sc e w.
  Proof.
    intros U (F1 & F2 & F3 & _). assert (CLN := chain_length r coll (nesting r) (le_n _) _ F2). unfold INDENT_LEVEL in F3.
    assert (IN : forall e, In e (elems r) -> fits sc e w) by (intros e I; specialize (U e I); unfold fits; lia).
    split; [assert (I := root_in r); specialize (U _ I); assert (Q := SL (ENode r)); cbn [value_of] in U; lia|].
    intros e [[_ ->]|(i & c & t & ST & NE)]; apply IN; [rewrite F1; apply root_in|].
    rewrite ST in F2. destruct F2 as (_ & _ & (C3 & k & pre & q & post & PQ & VQ) & _). assert (IE := nth_error_In _ _ NE). destruct (in_split _ _ IE) as (l1 & l2 & K). rewrite <- VQ in K, C3.
    exact (place_in r _ _ _ _ _ (PL_child r coll k pre q post l1 e l2 PQ C3 K)).
  Qed.

  Lemma next_steps w v : fine a coll w -> fine b coll v -> tw w v -> wscroll v <= wscroll w -> steps dm w v (draw_next h sc coll dm w) (draw_next h sc coll dm v).
  Proof.
    intros F F' T S. destruct (fine_fits a w UA F) as [G1 G2], (fine_fits b v UB F') as [_ G3]. apply draw_next_steps; auto; [apply F|].
    intros i c t E. destruct F as (_ & C & _). rewrite E in C. apply C.
  Qed.

  (** What becomes of a drawn item. *)
  Lemma item_from w x w1 o w2 : draw_next h sc coll dm w = Done (x, w1) -> one w = Done (o, w2) ->
    (x = false /\ wfound w1 = false /\ o = None /\ w2 = set_wscroll w1 (wscroll w1 + 1)) \/
    ((x = true \/ wfound w1 = true) /\ (x = false \/ wstack w1 = []) /\ o = Some true /\ exists u d, w2 = set_wup (set_wdown w1 d) u) \/
    (x = true /\ wstack w1 <> [] /\ o = Some false /\ w2 = w1).
  Proof.
    intros E. unfold one_item. rewrite E. cbn [SplitView.bind]. destruct x; cbn [negb orb andb].
    - destruct (wstack w1) eqn:ST; [|intros [= <- <-]; right; right; repeat split; discriminate].
      match goal with |- (_ <~ ?m; _) = _ -> _ => destruct m as [d|]; [|discriminate] end. cbn [SplitView.bind]. intros [= <- <-]. right. left. repeat split; auto. eauto.
    - destruct (wfound w1) eqn:FW; cbn [negb].
      + match goal with |- (_ <~ ?m; _) = _ -> _ => destruct m as [d|]; [|discriminate] end. cbn [SplitView.bind]. intros [= <- <-]. right. left. repeat split; auto. eauto.
      + intros [= <- <-]. left. auto.
  Qed.

  Definition busy w v : Prop := fine a coll w /\ placed a coll w /\ fine b coll v /\ placed b coll v.
  Definition item_a := SplitLoop.item_a a b h sc coll dm nn HH MA NA NB SW SL BK.
  Definition item_b := SplitLoop.item_b a b h sc coll dm nn HH MB D NA NB SW SL BK.

  Lemma twins_item w v : busy w v -> tw w v -> wscroll v <= wscroll w ->
    exists o w1 o' v1, one w = Done (o, w1) /\ one v = Done (o', v1) /\ wy w + 1 <= wy w1 <= wy w + 2 /\
      (wscroll w = wscroll v -> o = o' /\ (o <> None -> tw w1 v1 /\ wscroll w1 = wscroll v1)) /\
      (o' = Some false -> o = Some false /\ tw w1 v1 /\ wscroll v1 <= wscroll w1 /\ (wfound v1 = false -> wscroll w1 = wscroll w /\ wscroll v1 = wscroll v)) /\
      (o' = None -> o = None \/ (wfound w1 = false /\ wscroll w1 = wscroll w)).
  Proof.
    intros (F & P & F' & P') T S. assert (Y : 1 <= wy w) by apply T. assert (Y' : 1 <= wy v) by (destruct T as (_ & _ & _ & <- & _); exact Y).
    destruct (never_done _ _ (item_a w Y F P)) as ([o w1] & OA & _). destruct (never_done _ _ (item_b v Y' F' P')) as ([o' v1] & OB & _).
    exists o, w1, o', v1. split; [exact OA|]. split; [exact OB|].
    destruct (next_steps w v F F' T S) as ([x w2] & [x' v2] & DA & DB & Q1 & Q2 & Q3 & Q4 & Q5 & Q6 & Q7). cbn [fst snd] in *.
    assert (IA := item_from w x w2 o w1 DA OA). assert (IB := item_from v x' v2 o' v1 DB OB).
    assert (ST : wscroll w = wscroll v \/ x' = true -> (wstack w2 = [] <-> wstack v2 = [])).
    { intros H. destruct (Q6 H) as [_ T2]. destruct T2 as (_ & _ & _ & _ & _ & _ & T2 & _). inversion T2; split; congruence. }
    assert (TU : forall u d u' d', tw w2 v2 -> tw (set_wup (set_wdown w2 d) u) (set_wup (set_wdown v2 d') u')) by (intros u d u' d' X; exact X).
    assert (W1 : wy w1 = wy w2 /\ wfound w1 = wfound w2 /\ (o <> None -> wscroll w1 = wscroll w2)).
    { destruct IA as [(_ & _ & -> & ->)|[(_ & _ & -> & u & d & ->)|(_ & _ & -> & ->)]]; cbn; auto. repeat split; auto. congruence. }
    destruct W1 as (W1 & W2 & W3). split; [lia|]. split; [|split].
    - intros E. destruct (Q6 (or_introl E)) as [<- T2]. assert (E2 := Q3 E). specialize (ST (or_introl E)).
      destruct IA as [(X1 & X2 & -> & ->)|[(X1 & X2 & -> & u & d & ->)|(X1 & X2 & -> & ->)]], IB as [(Z1 & Z2 & -> & ->)|[(Z1 & Z2 & -> & u' & d' & ->)|(Z1 & Z2 & -> & ->)]];
        try (split; [reflexivity|]; intros N; split; [apply TU, T2 || exact T2|exact E2]); try (exfalso; subst; intuition congruence).
      split; [reflexivity|congruence].
    - intros ->. destruct IB as [(Z1 & Z2 & Z3 & _)|[(Z1 & Z2 & Z3 & _)|(Z1 & Z2 & _ & ->)]]; [discriminate..|]. destruct (Q6 (or_intror Z1)) as [X T2]. specialize (ST (or_intror Z1)).
      destruct IA as [(X1 & _)|[(X1 & X2 & _)|(X1 & X2 & -> & ->)]]; [congruence|exfalso; intuition congruence|]. split; [reflexivity|]. split; [exact T2|]. split; [exact Q2|]. rewrite <- Q1. exact Q4.
    - intros ->. destruct IB as [(Z1 & Z2 & _ & _)|[(Z1 & Z2 & Z3 & _)|(Z1 & Z2 & Z3 & _)]]; [|discriminate..]. rewrite <- Q1 in Z2. destruct (Q4 Z2) as [Z4 _].
      destruct IA as [(_ & _ & -> & _)|[(X1 & X2 & -> & u & d & ->)|(X1 & X2 & -> & ->)]]; [auto|right; auto..].
  Qed.

  Lemma none_added r w : (forall x, In x (ids r) -> isAdded dm x = false) -> fine r coll w -> next_added dm w = Done false.
  Proof.
    intros N (F1 & F2 & _). unfold next_added. destruct (wstack w) as [|[i c] t] eqn:ST; [rewrite F1; rewrite N; [reflexivity|apply (elem_id r _ (root_in r))]|].
    destruct F2 as (_ & C2 & (C3 & k & pre & q & post & PQ & VQ) & _). destruct (_ <=? _) eqn:E.
    - rewrite N; [reflexivity|]. rewrite <- VQ. assert (IQ := place_in r _ _ _ _ _ PQ). exact (elem_id r (ENode (value_of q)) (value_in r _ IQ)).
    - destruct (nth_error (children c) (Z.to_nat (i + 1))) as [e|] eqn:NE; [|apply nth_error_None in NE; lia]. rewrite N; [reflexivity|].
      assert (IE := nth_error_In _ _ NE). destruct (in_split _ _ IE) as (l1 & l2 & K). rewrite <- VQ in K, C3.
      exact (elem_id r _ (place_in r _ _ _ _ _ (PL_child r coll k pre q post l1 e l2 PQ C3 K))).
  Qed.
  Lemma no_gap f w v : busy w v -> display_gap h sc coll dm f [] [(w, true); (v, true)] = Done None.
  Proof.
    intros (F & _ & F' & _). cbn [display_gap app]. rewrite (none_added a w), (none_added b v); auto; intros x X; apply PA, in_or_app; auto.
  Qed.

  Lemma set_same w y : wy w = y -> set_wy w y = w.
  Proof. intros <-. destruct w. reflexivity. Qed.

  Definition step_of f w v : out (bool * list win) :=
    match one w, one v with
    | Done (None, w1), _ => Done (false, [w1; v])
    | Done (Some _, w1), Done (None, v1) => Done (false, [w1; v1])
    | Done (Some x, w1), Done (Some y, v1) => redraw_items h sc coll dm f [(w1, negb x); (v1, negb y)]
    | _, _ => Bad Undef
    end.
  Lemma one_step f w v : busy w v -> tw w v -> wscroll v <= wscroll w ->
    (forall o w1 o' v1, one w = Done (Some o, w1) -> one v = Done (Some o', v1) -> wy w1 = wy v1) ->
    redraw_items h sc coll dm (S f) [(w, true); (v, true)] = step_of f w v.
  Proof.
    intros B T S EY. cbn [redraw_items existsb snd orb]. rewrite (no_gap _ _ _ B). cbn [SplitView.bind]. rewrite (display2 h sc coll dm w v). unfold step_of.
    destruct (twins_item w v B T S) as (o & w1 & o' & v1 & E1 & E2 & Y & _). rewrite E1, E2. cbn [SplitView.bind]. destruct o as [x|]; [|reflexivity]. destruct o' as [y|]; [|reflexivity].
    specialize (EY _ _ _ _ E1 E2). cbn [SplitView.bind map fst snd]. assert (YV : wy w = wy v) by apply T.
    assert (U : forall z z', z + 1 <= z' <= z + 2 -> usub z' z = z' - z) by (intros z z' Q; unfold usub; apply Z.mod_small; lia).
    rewrite (U (wy w) (wy w1)), (U (wy v) (wy v1)) by lia. rewrite !set_same by lia. reflexivity.
  Qed.

  Inductive stuck : win -> Prop :=
  | stuck_now w v : one w = Done (None, v) -> stuck w
  | stuck_more w v : one w = Done (Some false, v) -> stuck v -> stuck w.

  Lemma inv_busy w v : inv (w, true) (v, true) -> busy w v.
  Proof. intros ((P & F) & (P' & F') & _). exact (conj F (conj P (conj F' P'))). Qed.
  Lemma inv_next w v w1 v1 : inv (w, true) (v, true) -> one w = Done (Some false, w1) -> one v = Done (Some false, v1) -> tw w v -> wscroll v <= wscroll w ->
    inv (w1, true) (v1, true) /\ (iw a (w1, true) + iw b (v1, true) < iw a (w, true) + iw b (v, true))%nat /\ keeps w w1 /\ keeps v v1.
  Proof.
    intros I E1 E2 T S. destruct (twins_item w v (inv_busy _ _ I) T S) as (o & w1' & o' & v1' & E1' & E2' & Y & _ & EB & _). rewrite E1 in E1'. rewrite E2 in E2'. injection E1' as <- <-. injection E2' as <- <-.
    destruct (EB eq_refl) as (_ & T1 & _). assert (YE : wy w1 = wy v1) by apply T1. assert (YV : wy w = wy v) by apply T.
    destruct (never_done _ _ (display_ok a b h sc coll dm nn HH MA MB D NA NB SW SL BK _ _ I)) as (r & DE & DD). assert (DE' := eq_trans (eq_sym (display2 h sc coll dm w v)) DE). clear DE. rename DE' into DE. rewrite E1 in DE. cbn [SplitView.bind] in DE. rewrite E2 in DE. cbn [SplitView.bind negb] in DE.
    injection DE as <-. destruct (next_inv a b sc coll nn NA NB SL _ _ _ _ I eq_refl DD) as (p' & q' & EL & K1 & K2 & I' & L). cbn [fst snd] in *. injection EL as <- <-. cbn [fst snd] in *.
    assert (U : forall z z', z + 1 <= z' <= z + 2 -> usub z' z = z' - z) by (intros z z' Q; unfold usub; apply Z.mod_small; lia).
    rewrite (U (wy w) (wy w1)), (U (wy v) (wy v1)) in * by lia. rewrite !set_same in * by lia. auto.
  Qed.

  Lemma stuck_b v : stuck v -> 1 <= wy v -> fine b coll v -> placed b coll v -> wfound v = false.
  Proof.
    induction 1 as [v u E|v u E X IH]; intros Y F P; destruct (never_done _ _ (item_b v Y F P)) as (r & ER & A1 & A2 & A3); rewrite E in ER; injection ER as <-; cbn [fst snd] in *.
    - apply A3.
    - destruct A3 as ((K1 & K2 & _) & F1 & _). assert (Q : wfound u = false) by (apply IH; [lia|exact F1|exact (placed_core b coll u v A1 P)]). destruct (wfound v); [rewrite K2 in Q by reflexivity; discriminate|reflexivity].
  Qed.
  Lemma fails_a w u : one w = Done (None, u) -> busy w w \/ (1 <= wy w /\ fine a coll w /\ placed a coll w) -> 1 <= wy w -> fails w u.
  Proof.
    intros E H Y. assert (X : fine a coll w /\ placed a coll w) by (destruct H as [(? & ? & _)|(_ & ? & ?)]; auto). destruct (never_done _ _ (item_a w Y (proj1 X) (proj2 X))) as (r & ER & _ & _ & A3). rewrite E in ER. injection ER as <-. exact A3.
  Qed.
  Lemma fails_b v u : one v = Done (None, u) -> 1 <= wy v -> fine b coll v -> placed b coll v -> fails v u.
  Proof. intros E Y F P. destruct (never_done _ _ (item_b v Y F P)) as (r & ER & _ & _ & A3). rewrite E in ER. injection ER as <-. exact A3. Qed.

  Lemma equal_loop f : forall w v x w' v', inv (w, true) (v, true) -> tw w v -> wscroll w = wscroll v -> redraw_items h sc coll dm f [(w, true); (v, true)] = Done (x, [w'; v']) ->
    if x then wscroll w' = wscroll v' /\ twin_logs dm (wlog w') (wlog v') else wscroll w' = wscroll w + 1 /\ wscroll v' = wscroll v /\ stuck v.
  Proof.
    induction f as [|f IH]; intros w v x w' v' I T S R; [discriminate R|]. assert (B := inv_busy _ _ I). assert (Y1 : 1 <= wy w) by apply T.
    destruct (twins_item w v B T ltac:(lia)) as (o & w1 & o' & v1 & E1 & E2 & Y & EA & EB & _). destruct (EA S) as [<- ET].
    rewrite one_step in R; [|assumption|assumption|lia|].
    2: { intros y w2 y' v2 Q1 Q2. rewrite E1 in Q1. rewrite E2 in Q2. injection Q1 as -> <-. injection Q2 as <- <-. apply ET. discriminate. }
    unfold step_of in R. rewrite E1, E2 in R. destruct o as [[|]|]; cbn [negb] in R.
    - destruct f as [|f]; [discriminate R|]. cbn in R. injection R as <- <- <-. destruct (ET ltac:(discriminate)) as [T1 S1]. split; [exact S1|apply (tw_logs dm), T1].
    - destruct (ET ltac:(discriminate)) as [T1 S1]. destruct (inv_next w v w1 v1 I E1 E2 T ltac:(lia)) as (I1 & _ & K1 & K2). assert (Q := IH _ _ _ _ _ I1 T1 S1 R). destruct x; [exact Q|].
      destruct Q as (Q1 & Q2 & Q3). destruct (inv_busy _ _ I1) as (_ & _ & F1 & P1). assert (NF := stuck_b v1 Q3 ltac:(destruct T1 as (_ & _ & _ & <- & _); lia) F1 P1).
      destruct (EB eq_refl) as (_ & _ & _ & SS). destruct (SS NF) as [S2 S3]. split; [lia|]. split; [lia|]. exact (stuck_more v v1 E2 Q3).
    - injection R as <- <- <-. destruct B as (F & P & _). destruct (fails_a w w1 E1 (or_intror (conj Y1 (conj F P))) Y1) as (_ & _ & X & _). split; [exact X|]. split; [reflexivity|]. exact (stuck_now v v1 E2).
  Qed.

  Lemma mixed_loop f : forall w v x w' v', inv (w, true) (v, true) -> tw w v -> wscroll v <= wscroll w -> stuck v -> redraw_items h sc coll dm f [(w, true); (v, true)] = Done (x, [w'; v']) ->
    x = false /\ ((wscroll w' = wscroll w + 1 /\ wscroll v' = wscroll v /\ stuck w) \/ (wscroll w' = wscroll w /\ wscroll v' = wscroll v + 1)).
  Proof.
    induction f as [|f IH]; intros w v x w' v' I T S ST R; [discriminate R|]. assert (B := inv_busy _ _ I). assert (Y1 : 1 <= wy w) by apply T. assert (YV : wy w = wy v) by apply T.
    destruct (twins_item w v B T S) as (o & w1 & o' & v1 & E1 & E2 & Y & _ & EB & EC). assert (B' := B). destruct B' as (F & P & F' & P').
    assert (SV : o' = None \/ (o' = Some false /\ stuck v1)) by (inversion ST; subst; [left; congruence|right; split; congruence]).
    rewrite one_step in R; [|assumption..|].
    2: { intros y w2 y' v2 Q1 Q2. rewrite E1 in Q1. rewrite E2 in Q2. injection Q1 as -> <-. injection Q2 as -> <-. destruct SV as [?|[Q _]]; [discriminate|]. injection Q as ->. apply (EB eq_refl). }
    unfold step_of in R. rewrite E1, E2 in R. destruct SV as [->|[-> SV]].
    - destruct (fails_b v v1 E2 ltac:(lia) F' P') as (_ & _ & X & _). destruct o as [y|].
      + injection R as <- <- <-. split; [reflexivity|]. right. split; [|exact X]. destruct (EC eq_refl) as [?|[_ Q]]; [discriminate|exact Q].
      + injection R as <- <- <-. split; [reflexivity|]. left. destruct (fails_a w w1 E1 (or_intror (conj Y1 (conj F P))) Y1) as (_ & _ & Q & _). split; [exact Q|]. split; [reflexivity|]. exact (stuck_now w w1 E1).
    - destruct (EB eq_refl) as (-> & T1 & S1 & SS). cbn [negb] in R. destruct (inv_next w v w1 v1 I E1 E2 T S) as (I1 & _ & K1 & K2).
      destruct (inv_busy _ _ I1) as (_ & _ & F1 & P1). assert (NF := stuck_b v1 SV ltac:(destruct T1 as (_ & _ & _ & <- & _); lia) F1 P1). destruct (SS NF) as [S2 S3].
      destruct (IH _ _ _ _ _ I1 T1 S1 SV R) as (-> & Q). split; [reflexivity|]. destruct Q as [(Q1 & Q2 & Q3)|(Q1 & Q2)]; [left|right; lia]. split; [lia|]. split; [lia|]. exact (stuck_more w w1 E1 Q3).
  Qed.

  Lemma stuck_twin w : stuck w -> forall v, inv (w, true) (v, true) -> tw w v -> wscroll w = wscroll v -> stuck v.
  Proof.
    induction 1 as [w u E|w u E X IH]; intros v I T S; destruct (twins_item w v (inv_busy _ _ I) T ltac:(lia)) as (o & w1 & o' & v1 & E1 & E2 & Y & EA & _); destruct (EA S) as [<- ET]; rewrite E in E1; injection E1 as <- <-.
    - exact (stuck_now v v1 E2).
    - destruct (ET ltac:(discriminate)) as [T1 S1]. destruct (inv_next w v u v1 I E E2 T ltac:(lia)) as (I1 & _). exact (stuck_more v v1 E2 (IH v1 I1 T1 S1)).
  Qed.

  (** Redrawing until both windows fit: the scroll positions meet. *)
  Definition alike w v : Prop := twin dm (wroot w) (wroot v) /\ exists l l', wlast w = Some l /\ wlast v = Some l' /\ eqv dm l l'.
  Lemma start_tw w v s s' : alike w v -> tw (start (set_wscroll w s)) (start (set_wscroll v s')).
  Proof. intros [A B]. unfold SplitLevel.tw. cbn. repeat split; auto; try lia; constructor. Qed.
  Definition lagging w v : Prop := wscroll v <= wscroll w /\ forall s, wscroll v <= s < wscroll w -> stuck (start (set_wscroll v s)).
  Lemma start_scroll w : start (set_wscroll w (wscroll w)) = start w. Proof. reflexivity. Qed.
  Lemma start_core w v : core w = core v -> wscroll w = wscroll v -> start w = start v.
  Proof. unfold core, start. intros [= A B C E] ->. rewrite A, B, C, E. reflexivity. Qed.

  Lemma redraw_meets w v x w' v' : placed a coll w -> placed b coll v -> alike w v -> lagging w v -> redraw_all h sc coll dm [w; v] = Done (x, [w'; v']) -> core w' = core w -> core v' = core v ->
    if x then wscroll w' = wscroll v' /\ twin_logs dm (wlog w') (wlog v') else lagging w' v'.
  Proof.
    intros P P' A [L1 L2] R CW CV. unfold redraw_all in R. cbn [map] in R. assert (I := start_inv a b sc coll nn NA NB w v P P'). assert (T := start_tw w v (wscroll w) (wscroll v) A). rewrite !start_scroll in T.
    assert (SC : forall s, start (set_wscroll v' s) = start (set_wscroll v s)) by (intros s; apply start_core; [exact CV|reflexivity]).
    destruct (Z.eq_dec (wscroll w) (wscroll v)) as [S|S].
    - assert (Q := equal_loop _ _ _ _ _ _ I T S R). destruct x; [exact Q|]. destruct Q as (Q1 & Q2 & Q3). cbn [wscroll start] in Q1, Q2. split; [lia|]. intros s B. rewrite SC. replace s with (wscroll v) by lia. exact Q3.
    - assert (ST : stuck (start v)) by (rewrite <- start_scroll; apply L2; lia).
      destruct (mixed_loop _ _ _ _ _ _ I T L1 ST R) as (-> & [(Q1 & Q2 & Q3)|(Q1 & Q2)]); cbn [wscroll start] in Q1, Q2.
      + split; [lia|]. intros s B. rewrite SC. destruct (Z.eq_dec s (wscroll w)) as [->|N]; [|apply L2; lia].
        apply (stuck_twin (start w) Q3); [|exact (start_tw w v (wscroll w) (wscroll w) A)|reflexivity].
        apply (start_inv a b sc coll nn NA NB w (set_wscroll v (wscroll w)) P). exact (placed_core b coll (set_wscroll v (wscroll w)) v eq_refl P').
      + split; [lia|]. intros s B. rewrite SC. apply L2. lia.
  Qed.

  Lemma redraws_meet f : forall p w v p', pwins p = [w; v] -> pcoll p = coll -> SplitTerm.fits a b coll w v -> alike w v -> lagging w v -> redraws h dm f sc p = Done p' ->
    exists w' v', pwins p' = [w'; v'] /\ wscroll w' = wscroll v' /\ twin_logs dm (wlog w') (wlog v').
  Proof.
    induction f as [|f IH]; intros p w v p' E C F A L R; [discriminate R|]. cbn [redraws] in R. rewrite E, C in R.
    destruct (redraws_one a b h sc coll dm nn HH MA MB D NA NB SW SL BK w v F) as (x & w1 & v1 & RR & C1 & C2 & F1 & _). rewrite RR in R. cbn [SplitView.bind] in R.
    destruct F as [P P']. assert (Q := redraw_meets w v x w1 v1 P P' A L RR C1 C2). destruct x.
    - injection R as <-. exists w1, v1. split; [reflexivity|exact Q].
    - assert (A1 : alike w1 v1). { destruct A as [A B]. unfold core in C1, C2. injection C1 as D1 D2 D3 D4. injection C2 as D5 D6 D7 D8. unfold alike. rewrite D1, D3, D5, D7. auto. }
      exact (IH (mkSplit [w1; v1] (pact p) coll) w1 v1 p' eq_refl eq_refl F1 A1 Q R).
  Qed.
End LevelLoop.

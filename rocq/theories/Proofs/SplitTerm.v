(** The loop around redraw() ends: a window that found its selection finds it in
    the redraws that follow. *)
From Verif Require Export Proofs.SplitSim.
From Verif Require Import Proofs.RowProofs.
From Coq Require Import Lia ZifyBool.
Open Scope Z_scope.

Section SimLoop.
  Variable (a b : node) (h : list elem) (sc : screen) (coll : list Z) (dm : mat) (nn : nat).
  Let half : Z := 4 * Z.of_nat nn + 16.
  Let total : Z := lines_of (slen sc) half (elems a ++ elems b).
  Hypothesis HH : h = elems a ++ elems b.
  Hypothesis MA : in_memory a.
  Hypothesis MB : in_memory b.
  Hypothesis D : NoDup (ids a ++ ids b).
  Hypothesis NA : (nesting a <= nn)%nat.
  Hypothesis NB : (nesting b <= nn)%nat.
  Hypothesis SW : 5 <= sw sc < 2 ^ 32.
  Hypothesis SH : 2 <= sh sc < 2 ^ 32.
  Hypothesis SL : forall e, 0 <= slen sc e.
  Hypothesis BK : total < 2 ^ 32.

  Local Notation inv := (inv a b sc coll nn).
  Local Notation redraws_ := (redraw_items h sc coll dm).
  Lemma lka i : In i (ids a) -> lookup h i = lookup (elems a) i.
  Proof. rewrite HH. apply lookup_a, MA. Qed.
  Lemma lkb i : In i (ids b) -> lookup h i = lookup (elems b) i.
  Proof. rewrite HH. apply lookup_b; assumption. Qed.
  Lemma bka : lines_of (slen sc) half (elems a) < 2 ^ 32.
  Proof. exact (BKA a b sc nn NA NB SL BK). Qed.
  Lemma bkb : lines_of (slen sc) half (elems b) < 2 ^ 32.
  Proof. exact (BKB a b sc nn NA NB SL BK). Qed.
  Lemma lha : (length (elems a) <= length h)%nat.
  Proof. rewrite HH, app_length. lia. Qed.
  Lemma lhb : (length (elems b) <= length h)%nat.
  Proof. rewrite HH, app_length. lia. Qed.

  Lemma gap2 f w0 w1 : display_gap h sc coll dm f [] [(w0, true); (w1, true)] =
    (x <~ next_added dm w0 ;
     if x : bool then
       r <~ added_items h sc coll dm f w0 ;
       match r with
       | (None, v) => Done (Some (false, [(v, true); (w1, true)]))
       | (Some fin, v) => Done (Some (true, [(v, negb fin); (gap_lines (Z.to_nat (usub (wy v) (wy w0))) w1, true)]))
       end
     else
       x <~ next_added dm w1 ;
       if x : bool then
         r <~ added_items h sc coll dm f w1 ;
         match r with
         | (None, v) => Done (Some (false, [(w0, true); (v, true)]))
         | (Some fin, v) => Done (Some (true, [(gap_lines (Z.to_nat (usub (wy v) (wy w1))) w0, true); (v, negb fin)]))
         end
       else Done None).
  Proof. reflexivity. Qed.
  Lemma display2 w0 w1 : display h sc coll dm [(w0, true); (w1, true)] 0 =
    (r <~ one_item h sc coll dm w0 ;
     match r with
     | (None, v) => Done (false, [((v, true), wy w0); ((w1, true), wy w1)], 0)
     | (Some f0, v) =>
         r <~ one_item h sc coll dm w1 ;
         match r with
         | (None, u) => Done (false, [((v, negb f0), wy w0); ((u, true), wy w1)], Z.max 0 (usub (wy v) (wy w0)))
         | (Some f1, u) => Done (true, [((v, negb f0), wy w0); ((u, negb f1), wy w1)], Z.max (Z.max 0 (usub (wy v) (wy w0))) (usub (wy u) (wy w1)))
         end
     end).
  Proof. cbn [display map]. destruct (one_item h sc coll dm w0) as [[[f0|] v]|]; [|reflexivity..]. cbn [SplitView.bind]. destruct (one_item h sc coll dm w1) as [[[f1|] u]|]; reflexivity. Qed.

  (** Where the window of the first redraw ends, and that the second may scroll
      so far. *)
  Definition lim (w w' v : win) : Prop := (fails w v /\ wscroll w <= wscroll w') \/ (wfound v = true /\ wscroll v <= wscroll w').

  (** The window went from [w] to [v] and then to the end [z]. *)
  Lemma lim_found w w' v z : keeps v z \/ fails v z -> lim w w' z -> wfound v = true -> wfound z = true /\ wscroll v <= wscroll w'.
  Proof.
    intros K L F. assert (FZ : wfound z = true) by (destruct K as [(_ & K & _)|(K & _)]; [auto|congruence]). split; [exact FZ|].
    destruct L as [[(_ & L & _) _]|[_ L]]; [congruence|]. destruct K as [(_ & _ & [K|(K & _)])|(K & _)]; [lia|congruence..].
  Qed.
  Lemma lim_ahead w w' v z : keeps w v -> keeps v z \/ fails v z -> lim w w' z -> wfound v = false -> ahead w w' (wy v) /\ wscroll v = wscroll w.
  Proof.
    intros K0 K L F. assert (S : wscroll v = wscroll w) by (destruct K0 as (_ & _ & [K0|(_ & K0 & _)]); [exact K0|congruence]). split; [|exact S]. unfold ahead.
    destruct L as [[_ L]|[FZ L]]; [left; exact L|]. destruct K as [(_ & _ & [K|(_ & _ & K)])|(_ & K & _)]; [left; lia|right; lia|congruence].
  Qed.
  Lemma lim_next w w' v v' z : wfound v = false -> wscroll v = wscroll w -> wscroll v' = wscroll w' -> lim w w' z -> lim v v' z.
  Proof.
    intros F S S' [[(L1 & L2 & L3 & L4) L]|L]; [left|right]; rewrite ?S'; [|exact L]. split; [|lia]. unfold fails. rewrite S. auto.
  Qed.
  (** A finished window does not meet it. *)
  Lemma lim_busy w w' v z : keeps w v -> wfound v = false -> went (v, false) z -> ~ lim w w' z.
  Proof.
    intros K F [_ W] L. destruct (W eq_refl) as [W1 W2]. cbn [fst] in *. assert (S : wscroll v = wscroll w) by (destruct K as (_ & _ & [K|(_ & K & _)]); [exact K|congruence]).
    destruct L as [[(_ & _ & L & _) _]|[L _]]; [lia|congruence].
  Qed.

  Lemma outcome_each p q x v0 v1 : SplitLoop.outcome a b sc coll nn p q (x, [v0; v1]) -> (keeps (fst p) v0 \/ fails (fst p) v0) /\ (keeps (fst q) v1 \/ fails (fst q) v1) /\ (x = false -> wfound v0 = false \/ wfound v1 = false).
  Proof.
    intros (z0 & z1 & E & H). cbn [fst snd] in *. injection E as <- <-. destruct x; [split; [left; apply H|split; [left; apply H|discriminate]]|].
    destruct H as [((F1 & F2 & F3) & K & _)|(K & (F1 & F2 & F3) & _)]; (split; [|split; [|intros _]]); auto; try (right; split; auto; fail).
  Qed.

  Lemma went2 f p q x v0 v1 : redraws_ f [p; q] = Done (x, [v0; v1]) -> went p v0 /\ went q v1.
  Proof. intros E. assert (W := items_went h sc coll dm f [p; q]). rewrite E in W. cbn [ok snd] in W. inversion W as [|? ? ? ? W1 W2]; subst. inversion W2; subst. auto. Qed.

  Lemma sim_gap k k' w w' : sim w w' -> wy w' + Z.of_nat k' <= wy w + Z.of_nat k -> sim (gap_lines k w) (gap_lines k' w').
  Proof.
    intros (S1 & S2 & S3 & S4 & S5 & S6) Y. assert (E := gap_rest k w). assert (E' := gap_rest k' w'). unfold rest in E, E'. unfold sim. rewrite !gap_wy. repeat split; congruence || exact Y.
  Qed.
  Lemma sim_y w w' y y' : sim w w' -> y' <= y -> sim (set_wy w y) (set_wy w' y').
  Proof. intros (S1 & S2 & S3 & S4 & S5 & S6) Y. unfold sim. cbn [core wroot wsel wlast wres wx wstack wfound wy set_wy]. repeat split; auto. Qed.
  Lemma lim_gap k k' w w' z : lim w w' z -> lim (gap_lines k w) (gap_lines k' w') z.
  Proof.
    assert (E := gap_rest k w). assert (E' := gap_rest k' w'). unfold rest in E, E'. assert (E1 : wfound (gap_lines k w) = wfound w) by congruence. assert (E2 : wscroll (gap_lines k w) = wscroll w) by congruence.
    assert (E3 : wscroll (gap_lines k' w') = wscroll w') by congruence. unfold lim, fails. rewrite E1, E2, E3. auto.
  Qed.

  Lemma loop_sim f : forall w0 w1 w0' w1', inv (w0, true) (w1, true) -> inv (w0', true) (w1', true) ->
    (iw a (w0, true) + iw b (w1, true) < f)%nat -> sim w0 w0' -> sim w1 w1' ->
    forall v0 v1, redraws_ f [(w0, true); (w1, true)] = Done (false, [v0; v1]) -> lim w0 w0' v0 -> lim w1 w1' v1 ->
    forall x v0' v1', redraws_ f [(w0', true); (w1', true)] = Done (x, [v0'; v1']) -> (wfound v0 = true -> wfound v0' = true) /\ (wfound v1 = true -> wfound v1' = true).
  Proof.
    induction f as [|f IH]; intros w0 w1 w0' w1' I I' IW S0 S1 v0 v1 R L0 L1 x v0' v1' R'; [lia|].
    assert (OUT : forall p q x, inv p q -> (iw a p + iw b q < f)%nat -> redraws_ f [p; q] = Done x -> SplitLoop.outcome a b sc coll nn p q x).
    { intros p q y IP FP RP. assert (O := items_loop_ok a b h sc coll dm nn HH MA MB D NA NB SW SL BK f p q IP FP). rewrite RP in O. exact O. }
    assert (G := gap_ok a b h sc coll dm nn HH MA MB D NA NB SW SL BK (S f) _ _ I ltac:(lia)).
    assert (G' := gap_ok a b h sc coll dm nn HH MA MB D NA NB SW SL BK (S f) _ _ I').
    assert (IW' : (iw a (w0', true) + iw b (w1', true) = iw a (w0, true) + iw b (w1, true))%nat).
    { unfold iw, items_left. cbn [fst snd]. destruct S0 as (_ & _ & -> & _), S1 as (_ & _ & -> & _). reflexivity. }
    specialize (G' ltac:(lia)).
    cbn [redraw_items existsb orb snd] in R, R'. rewrite gap2 in R, R', G, G'.
    destruct I as ((P0 & FI0) & (P1 & FI1) & EY & YY & TT). cbn [fst snd] in *. assert (INV : inv (w0, true) (w1, true)) by (split; [split; assumption|split; [split; assumption|auto]]).
    assert (I'0 := I'). destruct I' as ((P0' & FI0') & (P1' & FI1') & EY' & YY' & TT'). cbn [fst snd] in *.
    rewrite (next_added_sim dm w0 w0' S0), (next_added_sim dm w1 w1' S1) in *.
    assert (LP := lw_pos a b sc nn NA NB SL).
    assert (U0 := LP a (w0, true)). assert (U1 := LP b (w1, true)). assert (U0' := LP a (w0', true)). assert (U1' := LP b (w1', true)). clear LP.
    change (lw sc nn a (w0, true)) with (lines_left a sc nn w0) in *. change (lw sc nn a (w0', true)) with (lines_left a sc nn w0') in *.
    change (lw sc nn b (w1, true)) with (lines_left b sc nn w1) in *. change (lw sc nn b (w1', true)) with (lines_left b sc nn w1') in *.
    assert (TB : lines_of (slen sc) half (elems a ++ elems b) < 2 ^ 32) by exact BK. fold half in TT, TT'.
    assert (IA : (items_left a w0 + items_left b w1 < S f)%nat) by exact IW.
    assert (IA' : (items_left a w0' + items_left b w1' < S f)%nat) by (unfold iw in IW', IW; cbn [fst snd] in IW', IW; lia).
    assert (F1 : wfound w1 = false) by apply S1. assert (F0 : wfound w0 = false) by apply S0.
    (* the first window alone *)
    assert (DONE0 : forall (v v' : win) (p q p' q' : part) x, fst p = v -> inv p q -> (iw a p + iw b q < f)%nat -> redraws_ f [p; q] = Done (false, [v0; v1]) -> wfound v = true ->
        (wscroll v <= wscroll w0' -> wfound v' = true) -> (wfound v' = true -> fst p' = v' /\ redraws_ f [p'; q'] = Done (x, [v0'; v1'])) ->
        (wfound v0 = true -> wfound v0' = true) /\ (wfound v1 = true -> wfound v1' = true)).
    { intros v v' p q p' q' x' EP IP IWP RP FV T RP'. assert (O := OUT p q _ IP IWP RP). destruct (outcome_each _ _ _ _ _ O) as (K0 & K1 & N). rewrite EP in K0.
      destruct (lim_found w0 w0' v v0 K0 L0 FV) as [FZ SZ]. destruct (RP' (T SZ)) as [EP' RR]. destruct (N eq_refl) as [Q|Q]; [congruence|]. split; [|congruence]. intros _.
      destruct (went2 _ _ _ _ _ _ RR) as [[W _] _]. apply W. rewrite EP'. auto. }
    assert (DONE1 : forall (v v' : win) (p q p' q' : part) x, fst q = v -> inv p q -> (iw a p + iw b q < f)%nat -> redraws_ f [p; q] = Done (false, [v0; v1]) -> wfound v = true ->
        (wscroll v <= wscroll w1' -> wfound v' = true) -> (wfound v' = true -> fst q' = v' /\ redraws_ f [p'; q'] = Done (x, [v0'; v1'])) ->
        (wfound v0 = true -> wfound v0' = true) /\ (wfound v1 = true -> wfound v1' = true)).
    { intros v v' p q p' q' x' EP IP IWP RP FV T RP'. assert (O := OUT p q _ IP IWP RP). destruct (outcome_each _ _ _ _ _ O) as (K0 & K1 & N). rewrite EP in K1.
      destruct (lim_found w1 w1' v v1 K1 L1 FV) as [FZ SZ]. destruct (RP' (T SZ)) as [EP' RR]. destruct (N eq_refl) as [Q|Q]; [|congruence]. split; [congruence|]. intros _.
      destruct (went2 _ _ _ _ _ _ RR) as [_ [W _]]. apply W. rewrite EP'. auto. }
    destruct (next_added dm w0) as [x0|]; [|discriminate R]. cbn [SplitView.bind] in R, R', G, G'. destruct x0.
    { assert (A1 := sim_added a h sc coll dm nn MA lka SW SH NA SL bka lha (S f) w0 w0' ltac:(lia) YY FI0 P0 S0).
      assert (A2 := added_ok a h sc coll dm nn MA lka SW NA SL bka lha (S f) w0 ltac:(lia) YY FI0 P0).
      assert (A3 := added_ok a h sc coll dm nn MA lka SW NA SL bka lha (S f) w0' ltac:(lia) YY' FI0' P0').
      destruct (added_items h sc coll dm (S f) w0) as [[o v]|]; [|discriminate R]. destruct (added_items h sc coll dm (S f) w0') as [[o' v']|]; [|discriminate R'].
      cbn [SplitView.bind ok two] in *. destruct A1 as (A11 & A12), A2 as (A21 & A22 & A23), A3 as (A31 & A32 & A33). cbn [fst snd] in *.
      destruct o as [fin|]; [|injection R as <- <-; destruct A23 as (_ & A23 & _); split; congruence].
      assert (K : keeps w0 v) by (destruct fin; apply A23). cbn [SplitView.bind] in R. cbn [gap_done] in G. destruct G as (p2 & q2 & E & _ & _ & I2 & IW2). injection E as <- <-.
      destruct (wfound v) eqn:FV.
      - eapply (DONE0 v v' _ _ (v', match o' with Some z => negb z | None => true end) (gap_lines (Z.to_nat (usub (wy v') (wy w0'))) w1', true)); [|exact I2|lia|exact R|exact FV|exact A11 || auto|]; [reflexivity|].
        intros FV'. split; [reflexivity|]. destruct o' as [fin'|]; [exact R'|]. destruct A33 as (_ & A33 & _). congruence.
      - assert (O := OUT _ _ _ I2 ltac:(lia) R). destruct (outcome_each _ _ _ _ _ O) as (K0 & _). cbn [fst] in K0.
        destruct fin; [exfalso; eapply (lim_busy w0 w0' v v0); eauto; apply (went2 _ _ _ _ _ _ R)|].
        destruct (lim_ahead w0 w0' v v0 K K0 L0 FV) as [AH SV]. destruct (A12 eq_refl eq_refl AH) as (-> & SI & SV'). destruct G' as (p2 & q2 & E & _ & _ & I2' & _). injection E as <- <-. cbn [negb] in *.
        destruct A23 as (_ & _ & _ & A23). destruct A33 as (_ & _ & _ & A33).
        assert (SY : wy v' <= wy v) by apply SI.
        refine (IH _ _ _ _ I2 I2' ltac:(lia) SI _ v0 v1 R _ _ x v0' v1' R').
        + apply sim_gap; [exact S1|]. unfold usub. rewrite !Z.mod_small by lia. lia.
        + eapply lim_next; eauto.
        + apply lim_gap, L1. }
    destruct (next_added dm w1) as [x1|]; [|discriminate R]. cbn [SplitView.bind] in R, R', G, G'. destruct x1.
    { assert (A1 := sim_added b h sc coll dm nn MB lkb SW SH NB SL bkb lhb (S f) w1 w1' ltac:(lia) ltac:(lia) FI1 P1 S1).
      assert (A2 := added_ok b h sc coll dm nn MB lkb SW NB SL bkb lhb (S f) w1 ltac:(lia) ltac:(lia) FI1 P1).
      assert (A3 := added_ok b h sc coll dm nn MB lkb SW NB SL bkb lhb (S f) w1' ltac:(lia) ltac:(lia) FI1' P1').
      destruct (added_items h sc coll dm (S f) w1) as [[o v]|]; [|discriminate R]. destruct (added_items h sc coll dm (S f) w1') as [[o' v']|]; [|discriminate R'].
      cbn [SplitView.bind ok two] in *. destruct A1 as (A11 & A12), A2 as (A21 & A22 & A23), A3 as (A31 & A32 & A33). cbn [fst snd] in *.
      destruct o as [fin|]; [|injection R as <- <-; destruct A23 as (_ & A23 & _); split; congruence].
      assert (K : keeps w1 v) by (destruct fin; apply A23). cbn [SplitView.bind] in R. cbn [gap_done] in G. destruct G as (p2 & q2 & E & _ & _ & I2 & IW2). injection E as <- <-.
      destruct (wfound v) eqn:FV.
      - eapply (DONE1 v v' _ _ (gap_lines (Z.to_nat (usub (wy v') (wy w1'))) w0', true) (v', match o' with Some z => negb z | None => true end)); [|exact I2|lia|exact R|exact FV|exact A11 || auto|]; [reflexivity|].
        intros FV'. split; [reflexivity|]. destruct o' as [fin'|]; [exact R'|]. destruct A33 as (_ & A33 & _). congruence.
      - assert (O := OUT _ _ _ I2 ltac:(lia) R). destruct (outcome_each _ _ _ _ _ O) as (_ & K0 & _). cbn [fst] in K0.
        destruct fin; [exfalso; eapply (lim_busy w1 w1' v v1); eauto; apply (went2 _ _ _ _ _ _ R)|].
        destruct (lim_ahead w1 w1' v v1 K K0 L1 FV) as [AH SV]. destruct (A12 eq_refl eq_refl AH) as (-> & SI & SV'). destruct G' as (p2 & q2 & E & _ & _ & I2' & _). injection E as <- <-. cbn [negb] in *.
        destruct A23 as (_ & _ & _ & A23). destruct A33 as (_ & _ & _ & A33).
        assert (SY : wy v' <= wy v) by apply SI.
        refine (IH _ _ _ _ I2 I2' ltac:(lia) _ SI v0 v1 R _ _ x v0' v1' R').
        + apply sim_gap; [exact S0|]. unfold usub. rewrite !Z.mod_small by lia. lia.
        + apply lim_gap, L0.
        + eapply lim_next; eauto. }
    clear G G'. rewrite display2 in R, R'.
    assert (DD := display_ok a b h sc coll dm nn HH MA MB D NA NB SW SL BK _ _ INV). assert (DD' := display_ok a b h sc coll dm nn HH MA MB D NA NB SW SL BK _ _ I'0). rewrite display2 in DD, DD'.
    assert (A1 := sim_item a h sc coll dm nn SW SH NA SL bka lha w0 w0' FI0 S0). assert (A2 := item_ok a h sc coll dm nn MA lka SW NA SL bka lha w0 YY FI0 P0). assert (A3 := item_ok a h sc coll dm nn MA lka SW NA SL bka lha w0' YY' FI0' P0').
    assert (B1 := sim_item b h sc coll dm nn SW SH NB SL bkb lhb w1 w1' FI1 S1). assert (B2 := item_ok b h sc coll dm nn MB lkb SW NB SL bkb lhb w1 ltac:(lia) FI1 P1). assert (B3 := item_ok b h sc coll dm nn MB lkb SW NB SL bkb lhb w1' ltac:(lia) FI1' P1').
    destruct (one_item h sc coll dm w0) as [[o v]|]; [|discriminate R]. destruct (one_item h sc coll dm w0') as [[o' v']|]; [|discriminate R'].
    cbn [SplitView.bind ok two] in *. destruct A1 as (A11 & A12), A2 as (A21 & A22 & A23), A3 as (A31 & A32 & A33). cbn [fst snd] in *.
    destruct o as [fin|]; [|injection R as <- <-; destruct A23 as (_ & A23 & _); split; congruence].
    assert (K : keeps w0 v) by (destruct fin; apply A23).
    assert (FIRST : wfound v = true -> wscroll v <= wscroll w0' -> wfound v0' = true).
    { intros FV SV. specialize (A11 FV SV). destruct o' as [fin'|]; [|destruct A33 as (_ & A33 & _); congruence].
      destruct (one_item h sc coll dm w1') as [[[fin1'|] u']|]; [| |discriminate R']; cbn [SplitView.bind map fst snd] in R'.
      - destruct (went2 _ _ _ _ _ _ R') as [[W _] _]. apply W. exact A11.
      - injection R' as _ <- _. exact A11. }
    destruct (one_item h sc coll dm w1) as [[oo u]|]; [|discriminate R]. cbn [SplitView.bind ok] in R, B2. destruct B2 as (B21 & B22 & B23). cbn [fst snd] in *.
    destruct oo as [fin1|].
    - assert (KU : keeps w1 u) by (destruct fin1; apply B23). cbn [SplitView.bind ok] in DD.
      destruct (next_inv a b sc coll nn NA NB SL _ _ _ _ INV eq_refl DD) as (p2 & q2 & E & _ & _ & I2 & IW2). injection E as <- <-. cbn [map fst snd SplitView.bind] in R, I2, IW2.
      set (mx := Z.max (Z.max 0 (usub (wy v) (wy w0))) (usub (wy u) (wy w1))) in *.
      assert (O := OUT _ _ _ I2 ltac:(lia) R). destruct (outcome_each _ _ _ _ _ O) as (KA & KB & KN). cbn [fst] in KA, KB. specialize (KN eq_refl).
      assert (MX : mx = Z.max (wy v) (wy u) - wy w0) by (unfold mx, usub; rewrite !Z.mod_small by lia; lia).
      assert (KY : keeps w0 (set_wy v (wy w0 + mx))) by (apply keeps_y; [exact K|lia]). assert (KUY : keeps w1 (set_wy u (wy w1 + mx))) by (apply keeps_y; [exact KU|lia]).
      destruct (wfound v) eqn:FV.
      + destruct (lim_found w0 w0' _ v0 KA L0 FV) as [FZ SZ]. split; [intros _; exact (FIRST eq_refl SZ)|]. destruct KN; congruence.
      + destruct fin; [exfalso; eapply (lim_busy w0 w0' (set_wy v (wy w0 + mx)) v0); eauto; apply (went2 _ _ _ _ _ _ R)|].
        destruct (lim_ahead w0 w0' _ v0 KY KA L0 FV) as [AH SV]. cbn [wy wscroll set_wy] in AH, SV.
        destruct (A12 eq_refl eq_refl) as (-> & SI & SV'); [unfold ahead in *; lia|].
        destruct (one_item h sc coll dm w1') as [[oo' u']|]; [|discriminate R']. cbn [SplitView.bind ok two] in *. destruct B1 as (B11 & B12), B3 as (B31 & B32 & B33). cbn [fst snd] in *.
        destruct (wfound u) eqn:FU.
        * destruct (lim_found w1 w1' _ v1 KB L1 FU) as [FZ SZ]. specialize (B11 eq_refl SZ). destruct KN as [KN|KN]; [|congruence]. split; [congruence|]. intros _.
          destruct oo' as [fin1'|]; [|destruct B33 as (_ & B33 & _); congruence]. cbn [map fst snd SplitView.bind] in R'. destruct (went2 _ _ _ _ _ _ R') as [_ [W _]]. apply W. exact B11.
        * destruct fin1; [exfalso; eapply (lim_busy w1 w1' (set_wy u (wy w1 + mx)) v1); eauto; apply (went2 _ _ _ _ _ _ R)|].
          destruct (lim_ahead w1 w1' _ v1 KUY KB L1 FU) as [AH1 SU]. cbn [wy wscroll set_wy] in AH1, SU.
          destruct (B12 eq_refl eq_refl) as (-> & SI1 & SU'); [clear - AH1 MX EY; unfold ahead in *; lia|]. cbn [map fst snd SplitView.bind negb] in *.
          destruct (next_inv a b sc coll nn NA NB SL _ _ _ _ I'0 eq_refl DD') as (p2 & q2 & E & _ & _ & I2' & IW2'). injection E as <- <-. cbn [map fst snd] in I2', IW2'.
          assert (SY : wy v' <= wy v) by apply SI. assert (SY1 : wy u' <= wy u) by apply SI1. assert (SYW : wy w0' <= wy w0) by apply S0.
          assert (MX' : Z.max (Z.max 0 (usub (wy v') (wy w0'))) (usub (wy u') (wy w1')) = Z.max (wy v') (wy u') - wy w0') by (clear - A32 B32 EY' YY' TT' TB U0' U1'; unfold usub; rewrite !Z.mod_small by lia; lia).
          rewrite MX' in R', I2'. rewrite MX in R, I2, IW2.
          refine (IH _ _ _ _ I2 I2' ltac:(clear - IW IW2; lia) _ _ v0 v1 R _ _ x v0' v1' R').
          -- apply sim_y; [exact SI|clear - SY SY1 SYW EY EY'; lia].
          -- apply sim_y; [exact SI1|clear - SY SY1 SYW EY EY'; lia].
          -- eapply lim_next; [exact FV|exact SV|exact SV'|exact L0].
          -- eapply lim_next; [exact FU|exact SU|exact SU'|exact L1].
    - cbn [map fst snd SplitView.bind] in R. injection R as <- <-. destruct B23 as (_ & B23 & _). split; [|congruence]. intros FV. apply FIRST; [exact FV|].
      destruct L0 as [[(_ & Q & _) _]|[_ Q]]; [congruence|exact Q].
  Qed.

  (** A redraw after one that failed. *)
  Definition fits w0 w1 : Prop := placed a coll w0 /\ placed b coll w1.
  Lemma redraw_found w0 w1 v0 v1 x z0 z1 : fits w0 w1 ->
    redraw_all h sc coll dm [w0; w1] = Done (false, [v0; v1]) -> redraw_all h sc coll dm [v0; v1] = Done (x, [z0; z1]) ->
    (wfound v0 = true -> wfound z0 = true) /\ (wfound v1 = true -> wfound z1 = true).
  Proof.
    intros [P0 P1] E E'. assert (R := redraw_ok a b h sc coll dm nn HH MA MB D NA NB SW SL BK w0 w1 P0 P1). rewrite E in R. cbn [ok] in R.
    destruct R as (y0 & y1 & Y & C0 & C1 & R). cbn [fst snd] in *. injection Y as <- <-.
    assert (Q0 := placed_core a coll v0 w0 C0 P0). assert (Q1 := placed_core b coll v1 w1 C1 P1).
    assert (SIM : lim (start w0) (start v0) v0 -> lim (start w1) (start v1) v1 -> (wfound v0 = true -> wfound z0 = true) /\ (wfound v1 = true -> wfound z1 = true)).
    { intros L0 L1. eapply (loop_sim (items_fuel h) (start w0) (start w1) (start v0) (start v1)).
      - apply start_inv; assumption.
      - apply start_inv; assumption.
      - unfold iw, items_left, items_fuel. cbn [fst snd start wstack]. rewrite HH, app_length. lia.
      - split; [exact C0|]. cbn. repeat split; lia.
      - split; [exact C1|]. cbn. repeat split; lia.
      - exact E.
      - exact L0.
      - exact L1.
      - exact E'. }
    destruct R as [(R & _)|(_ & R & _)].
    - assert (wfound v0 = false) by apply R. destruct (wfound v1) eqn:F1; [|split; congruence]. apply SIM; [left|right; cbn; auto with zarith].
      split; [exact R|]. destruct R as (_ & _ & R & _). cbn in *. lia.
    - assert (wfound v1 = false) by apply R. destruct (wfound v0) eqn:F0; [|split; congruence]. apply SIM; [right; cbn; auto with zarith|left].
      split; [exact R|]. destruct R as (_ & _ & R & _). cbn in *. lia.
  Qed.

  (** How often a window can still fail. *)
  Definition togo (w : win) : Z := Z.max 0 (total + 2 - wscroll w).
  Definition drawn (w0 w1 : win) (p p' : SplitView.split) : Prop :=
    exists v0 v1, pwins p' = [v0; v1] /\ core v0 = core w0 /\ core v1 = core w1 /\ ready_rows a coll v0 /\ ready_rows b coll v1 /\
      (0 <= wscroll w0 -> 0 <= wscroll v0) /\ (0 <= wscroll w1 -> 0 <= wscroll v1) /\ pact p' = pact p /\ pcoll p' = pcoll p.

  Lemma redraws_one w0 w1 : fits w0 w1 -> exists x v0 v1, redraw_all h sc coll dm [w0; w1] = Done (x, [v0; v1]) /\ core v0 = core w0 /\ core v1 = core w1 /\ fits v0 v1 /\
    (0 <= wscroll w0 -> 0 <= wscroll v0) /\ (0 <= wscroll w1 -> 0 <= wscroll v1) /\
    (if x then ready_rows a coll v0 /\ ready_rows b coll v1
     else (wfound v0 = false /\ togo v0 < togo w0 /\ (wfound v1 = false -> togo v1 = togo w1)) \/ (wfound v1 = false /\ togo v1 < togo w1 /\ (wfound v0 = false -> togo v0 = togo w0))).
  Proof.
    intros [P0 P1]. assert (R := redraw_ok a b h sc coll dm nn HH MA MB D NA NB SW SL BK w0 w1 P0 P1).
    destruct (redraw_all h sc coll dm [w0; w1]) as [[x ws]|]; [|destruct R]. cbn [ok] in R. destruct R as (v0 & v1 & E & C0 & C1 & R). cbn [fst snd] in *. subst ws. exists x, v0, v1.
    split; [reflexivity|]. split; [exact C0|]. split; [exact C1|]. split; [split; [eapply placed_core; eassumption|eapply placed_core; eassumption]|].
    assert (K0 : forall w v, keeps (start w) v -> 0 <= wscroll w -> 0 <= wscroll v) by (intros w v (_ & _ & [K|(_ & _ & K)]); cbn in K; lia).
    assert (F0 : forall w v, fails (start w) v -> 0 <= wscroll w -> 0 <= wscroll v) by (intros w v (_ & _ & F & _); cbn in F; lia).
    assert (K1 : forall w v, keeps (start w) v -> wfound v = false -> togo v = togo w) by (intros w v (_ & _ & [K|(_ & K & _)]) F; [unfold togo; cbn in K; congruence|congruence]).
    assert (F1 : forall w v, fails (start w) v -> wscroll w <= total + 1 -> wfound v = false /\ togo v < togo w) by (intros w v (_ & F & FS & _) T; cbn in FS; split; [exact F|unfold togo; lia]).
    destruct x.
    - destruct R as (R1 & R2 & R3 & R4). split; [eauto|]. split; [eauto|]. auto.
    - destruct R as [(R1 & R2 & R3)|(R1 & R2 & R3)]; (split; [eauto|]); (split; [eauto|]); [left|right].
      + destruct (F1 _ _ R1 R3) as [Q1 Q2]. split; [exact Q1|]. split; [exact Q2|]. apply K1, R2.
      + destruct (F1 _ _ R2 R3) as [Q1 Q2]. split; [exact Q1|]. split; [exact Q2|]. apply K1, R1.
  Qed.

  (** One window has found its selection in the redraw before. *)
  Lemma redraws_after f : forall t0 t1 w0 w1 p, pwins p = [w0; w1] -> pcoll p = coll -> fits t0 t1 -> fits w0 w1 ->
    redraw_all h sc coll dm [t0; t1] = Done (false, [w0; w1]) ->
    (wfound w0 = true /\ togo w1 < Z.of_nat f) \/ (wfound w1 = true /\ togo w0 < Z.of_nat f) ->
    ok never (drawn w0 w1 p) (redraws h dm f sc p).
  Proof.
    induction f as [|f IH]; intros t0 t1 w0 w1 p EW EC FT FW R H; [unfold togo in H; lia|]. cbn [redraws]. rewrite EW, EC.
    destruct (redraws_one w0 w1 FW) as (x & v0 & v1 & E & C0 & C1 & FV & S0 & S1 & X). rewrite E. cbn [SplitView.bind]. destruct x.
    - cbn [ok]. exists v0, v1. cbn [pwins pact pcoll]. destruct X as [X1 X2]. split; [reflexivity|]. split; [exact C0|]. split; [exact C1|]. split; [exact X1|]. split; [exact X2|]. auto.
    - destruct (redraw_found t0 t1 w0 w1 false v0 v1 FT R E) as [G0 G1].
      eapply ok_mono; [apply (IH w0 w1 v0 v1); [reflexivity|reflexivity|exact FW|exact FV|exact E|]|].
      + destruct H as [[H1 H2]|[H1 H2]]; [left|right].
        * specialize (G0 H1). destruct X as [(X & _)|(X1 & X2 & X3)]; [congruence|]. split; [exact G0|lia].
        * specialize (G1 H1). destruct X as [(X1 & X2 & X3)|(X & _)]; [|congruence]. split; [exact G1|lia].
      + intros p' (z0 & z1 & Z1 & Z2 & Z3 & Z4 & Z5 & Z6 & Z7 & Z8 & Z9). exists z0, z1. cbn [pact pcoll] in *. split; [exact Z1|]. split; [congruence|]. split; [congruence|]. split; [exact Z4|]. split; [exact Z5|]. split; [auto|]. split; [auto|]. split; [exact Z8|congruence].
  Qed.
  Lemma redraws_from n f : forall w0 w1 p, pwins p = [w0; w1] -> pcoll p = coll -> fits w0 w1 -> togo w0 + togo w1 <= Z.of_nat n -> (2 * n + 1 <= f)%nat -> ok never (drawn w0 w1 p) (redraws h dm f sc p).
  Proof.
    revert f. induction n as [|n IH]; intros f w0 w1 p EW EC FW T F; (destruct f as [|f]; [lia|]); cbn [redraws]; rewrite EW, EC;
      destruct (redraws_one w0 w1 FW) as (x & v0 & v1 & E & C0 & C1 & FV & S0 & S1 & X); rewrite E; cbn [SplitView.bind];
      (destruct x; [exists v0, v1; cbn [pwins pact pcoll]; destruct X as [X1 X2]; split; [reflexivity|]; split; [exact C0|]; split; [exact C1|]; split; [exact X1|]; split; [exact X2|]; auto|]).
    - exfalso. destruct X as [(_ & X & _)|(_ & X & _)]; unfold togo in *; lia.
    - assert (TR : forall p', drawn v0 v1 (mkSplit [v0; v1] (pact p) coll) p' -> drawn w0 w1 p p').
      { intros p' (z0 & z1 & Z1 & Z2 & Z3 & Z4 & Z5 & Z6 & Z7 & Z8 & Z9). exists z0, z1. cbn [pact pcoll] in *. split; [exact Z1|]. split; [congruence|]. split; [congruence|]. split; [exact Z4|]. split; [exact Z5|]. split; [auto|]. split; [auto|]. split; [exact Z8|congruence]. }
      assert (N0 : 0 <= togo w0) by (unfold togo; lia). assert (N1 : 0 <= togo w1) by (unfold togo; lia).
      eapply ok_mono; [|exact TR].
      destruct X as [(X1 & X2 & X3)|(X1 & X2 & X3)].
      + destruct (wfound v1) eqn:F1.
        * apply (redraws_after f w0 w1 v0 v1); auto. right. split; [exact F1|lia].
        * apply IH; auto; [specialize (X3 eq_refl); lia|lia].
      + destruct (wfound v0) eqn:F0.
        * apply (redraws_after f w0 w1 v0 v1); auto. left. split; [exact F0|lia].
        * apply IH; auto; [specialize (X3 eq_refl); lia|lia].
  Qed.

  (** As many redraws as needed. *)
  Lemma redraws_ok f w0 w1 p : pwins p = [w0; w1] -> pcoll p = coll -> fits w0 w1 -> 0 <= wscroll w0 -> 0 <= wscroll w1 -> 4 * (total + 2) < Z.of_nat f -> ok never (drawn w0 w1 p) (redraws h dm f sc p).
  Proof.
    intros EW EC FW S0 S1 F. assert (0 <= total) by (apply lines_nonneg; [exact SL|unfold half; lia]).
    apply (redraws_from (Z.to_nat (2 * (total + 2)))); auto; [unfold togo; lia|lia].
  Qed.
End SimLoop.

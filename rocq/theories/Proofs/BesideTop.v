(** The first redraw of two windows whose documents are counterparts: both begin on
    the first line. *)
From Verif Require Export Proofs.BesideFirst.
From Coq Require Import Lia ZifyBool.
Open Scope Z_scope.

(** What was printed first is on the first line. *)
Definition tops (w : win) : Prop := exists l c, wcells w = l ++ [c] /\ celly c = 1.
Definition high (w : win) : Prop := lit w /\ tops w.
(** Nothing has been drawn. *)
Definition blank (w : win) : Prop := fresh w /\ wy w = 1 /\ wcells w = [].

Section Top.
  Variable (h : list elem) (sc : screen) (coll : list Z) (dm : mat).

  Lemma put_cells a b c d e w : ok any (fun w' => wfound w' = wfound w /\ wscroll w' = wscroll w /\ wcells w' = wcells w) (put dm a b c d e w).
  Proof.
    unfold put. destruct (_ <=? _); [repeat split|]. destruct (getNbLines _ _); [|exact Logic.I]. cbn. unfold displayDiffOp. destruct (shown_op _ _); repeat split.
  Qed.
  Definition highs {A} (r : A * win) : Prop := high (snd r).
  Lemma put_high a b c d e w : high w -> ok any high (put dm a b c d e w).
  Proof. intros [[L1 L2] (l & x & T1 & T2)]. eapply ok_mono; [apply put_cells|]. intros w' (E1 & E2 & E3). split; [split; congruence|]. exists l, x. split; congruence. Qed.
  Lemma prints_high e t w : high w -> high (prints e t w).
  Proof.
    intros [[L1 L2] (l & x & T1 & T2)]. split; [split; assumption|]. unfold tops, prints. cbn [wcells]. destruct (_ <=? _); [eauto|]. rewrite T1. eexists (_ :: l), x. split; [reflexivity|exact T2].
  Qed.
  Lemma open_high n w : high w -> ok any highs (open_container sc coll dm n w).
  Proof.
    intros L. unfold open_container. destruct (mem _ _); (eapply ok_bind; [apply put_high, prints_high; exact L|]); intros w' E; [exact E|]. destruct (bottom _ _); exact E.
  Qed.
  Lemma check_cells e w : wcells (check h e w) = wcells w.
  Proof.
    unfold check. destruct (negb (wfound w)).
    - destruct (sel_is _ _); [destruct (_ <=? _); reflexivity|]. destruct (negb _); reflexivity.
    - destruct (wdown w); [reflexivity|]. cbv zeta. destruct (lookup _ _); [|reflexivity]. destruct (negb _); reflexivity.
  Qed.
  Lemma check_high e w : high w -> high (check h e w).
  Proof. intros [L (l & x & T)]. split; [apply check_lit, L|]. exists l, x. rewrite check_cells. exact T. Qed.
  Lemma drawn_high e w : high w -> ok any highs (draw_elem h sc coll dm e w).
  Proof.
    intros L0. unfold draw_elem. assert (L := check_high e w L0). set (w1 := check h e w) in *. clearbody w1. clear w L0.
    destruct e as [n|m k v]; cbv zeta.
    - destruct (is_container n); [apply open_high, L|]. eapply ok_bind; [apply put_high, prints_high, L|]. intros w' E. exact E.
    - unfold draw_entry.
      assert (KA : forall tx l, ok any highs (r <~ key_after sc dm (EEntry m k v) tx l w1 ; let '(b, w) := r in Done (b && negb (bottom sc w), w))).
      { intros tx l. eapply ok_bind with (P := highs); [|intros [b w'] E; exact E]. unfold key_after. destruct (_ <=? _); [exact L|].
        eapply ok_bind; [apply put_high, prints_high, L|]. intros w' E. exact E. }
      destruct (_ && _); [apply KA|]. destruct (negb _); [apply KA|]. destruct (children v); [apply KA|].
      eapply ok_bind with (P := highs).
      + unfold key_alone. destruct (_ <=? _); [exact L|]. eapply ok_bind; [apply put_high, prints_high, L|]. intros w' E. exact E.
      + intros [[|] w'] E; [|exact E]. eapply ok_bind; [apply open_high, E|]. intros r E'. exact E'.
  Qed.
  (** The root. *)
  Lemma root_high w : blank w -> ok any highs (draw_elem h sc coll dm (ENode (wroot w)) w).
  Proof.
    intros (F & Y & C). unfold draw_elem. cbv zeta. assert (L := check_root h w F). assert (CE := check_cells (ENode (wroot w)) w). rewrite C in CE.
    assert (Y1 : wy (check h (ENode (wroot w)) w) = 1).
    { unfold check. destruct (negb (wfound w)).
      - destruct (sel_is _ _); [destruct (_ <=? _); exact Y|]. destruct (negb _); exact Y.
      - destruct (wdown w); [exact Y|]. cbv zeta. destruct (lookup _ _); [|exact Y]. destruct (negb _); exact Y. }
    set (u := check h (ENode (wroot w)) w) in *. clearbody u.
    assert (P : forall e t, high (prints e t u)).
    { intros e t. split; [exact L|]. unfold tops, prints. cbn [wcells]. destruct L as [_ ->]. rewrite Y1, CE. exists []. eexists. split; reflexivity. }
    destruct (is_container _).
    - unfold open_container. destruct (mem _ _); (eapply ok_bind; [apply put_high, P|]); intros w' E; [exact E|]. destruct (bottom _ _); exact E.
    - eapply ok_bind; [apply put_high, P|]. intros w' E. exact E.
  Qed.
  Lemma next_high w : high w \/ blank w -> ok any highs (draw_next h sc coll dm w).
  Proof.
    intros [L|F]; unfold draw_next.
    - destruct (wstack w) as [|[i c] t]; [apply drawn_high, L|]. destruct (_ =? _).
      + unfold close_container. eapply ok_bind; [apply put_high, prints_high; exact L|]. intros w' E. exact E.
      + destruct (nth_error _ _); [|exact Logic.I]. apply drawn_high, L.
    - assert (F' := F). destruct F' as ((_ & _ & _ & -> & _) & _). apply root_high, F.
  Qed.
  Lemma item_high w : high w \/ blank w -> ok any highs (one_item h sc coll dm w).
  Proof.
    intros L. unfold one_item. eapply ok_bind; [apply next_high, L|]. intros [r w'] K. unfold highs in K. cbn [snd] in K.
    destruct (_ || _); [|exact K]. assert (K' := K). destruct K' as [[K1 K2] _]. rewrite K1, Bool.andb_false_r.
    eapply ok_bind with (P := fun _ => True); [apply ok_true|]. intros d _. exact K.
  Qed.
  Lemma added_high f : forall w, high w -> ok any highs (added_items h sc coll dm f w).
  Proof.
    induction f as [|f IH]; intros w L; [exact Logic.I|]. cbn [added_items]. eapply ok_bind; [apply item_high; left; exact L|]. intros [[[|]|] w'] K; try exact K.
    eapply ok_bind with (P := fun _ => True); [apply ok_true|]. intros [|] _; [|exact K]. apply IH, K.
  Qed.
  Lemma gap_high k : forall w, high w -> high (gap_lines k w).
  Proof. induction k as [|k IH]; intros w L; [exact L|]. cbn [gap_lines]. apply IH, L. Qed.

  Notation highp := (fun p : part => high (fst p)).
  Lemma gap_highs f after : forall before, Forall highp before -> Forall highp after ->
    ok any (fun r => match r with None => True | Some (_, ps) => Forall highp ps end) (display_gap h sc coll dm f before after).
  Proof.
    induction after as [|[w busy] t IH]; intros before SB SA; [exact Logic.I|]. inversion_clear SA as [|? ? S1 S2]. cbn [display_gap].
    eapply ok_bind with (P := fun x => True); [apply ok_true|]. intros [|] B.
    - eapply ok_bind; [apply added_high, S1|].
      assert (G : forall k l, Forall highp l -> Forall highp (map (fun p : part => (gap_lines k (fst p), snd p)) l)).
      { intros k l F. apply Forall_map. eapply Forall_impl; [|exact F]. intros [u b]. apply gap_high. }
      intros [[fin|] w'] K; cbn [ok]; apply Forall_app; (split; [auto|]); constructor; auto.
    - apply IH; [apply Forall_app; split; [exact SB|constructor; [exact S1|constructor]]|exact S2].
  Qed.
  Lemma gap_blanks f after : forall before, Forall (fun p => blank (fst p) /\ isAdded dm (nid (wroot (fst p))) = false) after -> display_gap h sc coll dm f before after = Done None.
  Proof.
    induction after as [|[w busy] t IH]; intros before SA; [reflexivity|]. inversion_clear SA as [|? ? [((_ & _ & _ & S1 & _) & _) S3] S2]. cbn [display_gap fst] in *.
    destruct busy; [|apply IH, S2]. unfold next_added. rewrite S1, S3. cbn [SplitView.bind]. apply IH, S2.
  Qed.
  Lemma display_highs ps : forall mx, Forall (fun p => high (fst p) \/ blank (fst p) /\ snd p = true) ps ->
    ok any (fun r => fst (fst r) = true -> Forall (fun p => high (fst (fst p))) (snd (fst r))) (display h sc coll dm ps mx).
  Proof.
    induction ps as [|[w busy] t IH]; intros mx S; [constructor|]. inversion_clear S as [|? ? S1 S2]. cbn [display fst snd] in *. destruct busy.
    - eapply ok_bind; [apply item_high; destruct S1 as [S1|[S1 _]]; auto|]. intros [[fin|] w'] K; [|intros [=]].
      eapply ok_bind; [apply IH, S2|]. intros [[b l] mx'] H. cbn in *. intros E. constructor; [exact K|exact (H E)].
    - destruct S1 as [S1|[_ S1]]; [|discriminate S1]. eapply ok_bind; [apply IH, S2|]. intros [[b l] mx'] H. cbn in *. intros E. constructor; [exact S1|exact (H E)].
  Qed.
  Lemma items_highs f : forall ps, Forall (fun p => high (fst p)) ps \/ Forall (fun p => (blank (fst p) /\ isAdded dm (nid (wroot (fst p))) = false) /\ snd p = true) ps ->
    ok any (fun r => fst r = true -> Forall high (snd r)) (redraw_items h sc coll dm f ps).
  Proof.
    induction f as [|f IH]; intros ps S; [exact Logic.I|]. cbn [redraw_items]. destruct (existsb snd ps) eqn:EX.
    - eapply ok_bind with (P := fun r => match r with None => True | Some (_, ps) => Forall highp ps end).
      { destruct S as [S|S]; [apply (gap_highs (Datatypes.S f) ps []); [constructor|exact S]|]. rewrite gap_blanks; [exact Logic.I|]. eapply Forall_impl; [|exact S]. intros p [Q _]. exact Q. }
      intros [[[|] ps']|] H; [apply IH; left; exact H|intros [=]|].
      eapply ok_bind; [apply display_highs|].
      { destruct S as [S|S]; (eapply Forall_impl; [|exact S]); [intros p Q; left; exact Q|intros p [[Q _] B]; right; auto]. }
      intros [[b l] mx] HL. cbn [fst snd] in HL. destruct b; [|intros [=]]. apply IH. left. apply Forall_map. eapply Forall_impl; [|exact (HL eq_refl)]. intros q Q. exact Q.
    - intros _. cbn [snd]. destruct S as [S|S]; [apply Forall_map; exact S|]. destruct S as [|p l [_ B] S]; [constructor|]. cbn [existsb] in EX. rewrite B in EX. discriminate EX.
  Qed.
End Top.

Lemma redraws_highs h m f sc p p' : Forall (fun w => wscroll w = 0 /\ wlast w = Some (nid (wroot w)) /\ isAdded m (nid (wroot w)) = false) (pwins p) ->
  redraws h m f sc p = Done p' -> Forall high (pwins p').
Proof.
  intros F. destruct f as [|f]; [discriminate|]. cbn [redraws].
  assert (X := redraw_goes h sc (pcoll p) m (pwins p) ltac:(eapply Forall_impl; [|exact F]; intros w (Q1 & Q2 & _); auto)).
  assert (X2 : ok any (fun r => fst r = true -> Forall high (snd r)) (redraw_all h sc (pcoll p) m (pwins p))).
  { apply items_highs. right. apply Forall_map. eapply Forall_impl; [|exact F]. intros w (E1 & E2 & E3). split; [|reflexivity]. split; [|exact E3]. split; [|split; reflexivity].
    split; [reflexivity|]. split; [exact E1|]. split; [cbn; lia|]. split; [reflexivity|exact E2]. }
  destruct (redraw_all _ _ _ _ _) as [[b ws]|]; [|discriminate]. destruct X as [X0 X]. cbn [SplitView.bind fst snd ok] in *. subst b. intros [= <-]. exact (X2 eq_refl).
Qed.

(** Marks in the margin of windows that are not scrolled. *)
From Verif Require Export Proofs.SplitKeep.
From Coq Require Import Lia ZifyBool.
Open Scope Z_scope.

Section Marks.
  Variable (h : list elem) (sc : screen) (coll : list Z) (dm : mat).

  Definition marked (w : win) : Prop :=
    (forall i c y, In (i, c, y) (wlog w) -> shown_op dm i <> OEqu -> In (y, shown_op dm i) (wmarks w)) /\
    (forall y o, In (y, o) (wmarks w) -> o <> OEqu /\ (o = ORem \/ exists i c, In (i, c, y) (wlog w) /\ shown_op dm i = o)).
  Definition top (w : win) : Prop := 1 <= wy w /\ wscroll w = 0 /\ marked w.
  Definition topped {A} (r : A * win) : Prop := top (snd r).

  Lemma uint_pos f u : f64_uint f = Some u -> 0 <= u.
  Proof. unfold f64_uint. destruct (f64_trunc f) as [v|]; [|discriminate]. destruct (_ && _) eqn:E; [|discriminate]. intros [= <-]. lia. Qed.
  Lemma nb_pos n w k : getNbLines n w = Some k -> 0 <= k.
  Proof.
    unfold getNbLines. cbv zeta. destruct (f64_uint (f64_div _ _)) as [u|] eqn:E; [|discriminate]. destruct (SFeqb _ _); [intros [= <-]; apply (uint_pos _ _ E)|apply uint_pos].
  Qed.

  Lemma check_top e w : top w -> top (check h e w).
  Proof.
    intros (Y & S & K). unfold check. destruct (negb (wfound w)).
    - destruct (sel_is _ _); [|destruct (negb _); split; [exact Y|split; assumption|exact Y|split; assumption]].
      replace (wy w <=? wscroll w) with false by lia. split; [exact Y|split; assumption].
    - destruct (wdown w); [split; [exact Y|split; assumption]|]. cbv zeta. destruct (lookup _ _); [|split; [exact Y|split; assumption]].
      destruct (negb _); split; [exact Y|split; assumption|exact Y|split; assumption].
  Qed.
  Lemma put_top a i c d e w : top w -> ok any top (put dm a i c d e w).
  Proof.
    intros (Y & S & K). unfold put. replace (wy w <=? wscroll w) with false by lia. destruct (getNbLines _ _) as [k|] eqn:N; [|exact Logic.I].
    apply nb_pos in N. cbn [lift SplitView.bind ok]. rewrite S. replace (if a then wy w - 0 else wy w) with (wy w) by (destruct a; lia).
    assert (X : forall o, o = shown_op dm i -> marked (displayDiffOp (wy w) o (add_log w (i, c, wy w)))).
    { intros o ->. destruct K as (K & K2).
      assert (LG : wlog (displayDiffOp (wy w) (shown_op dm i) (add_log w (i, c, wy w))) = (i, c, wy w) :: wlog w) by (unfold displayDiffOp; destruct (shown_op dm i); reflexivity).
      unfold marked. rewrite LG. split.
      - intros j c' y J NE. destruct J as [[= <- <- <-]|J].
        + unfold displayDiffOp. destruct (shown_op dm i) eqn:O; [left; reflexivity..|contradiction].
        + specialize (K j c' y J NE). unfold displayDiffOp. destruct (shown_op dm i); try (right; exact K). exact K.
      - assert (OLD : forall y o, In (y, o) (wmarks w) -> o <> OEqu /\ (o = ORem \/ exists j c', In (j, c', y) ((i, c, wy w) :: wlog w) /\ shown_op dm j = o)).
        { intros y o I. destruct (K2 y o I) as (A & [B|(j & c' & B & C)]); (split; [exact A|]); [left; exact B|]. right. exists j, c'. split; [right; exact B|exact C]. }
        intros y o I. unfold displayDiffOp in I. destruct (shown_op dm i) eqn:O; [| | |apply OLD, I];
          (destruct I as [[= <- <-]|I]; [|apply OLD, I]; split; [discriminate|]; right; exists i, c; split; [left; reflexivity|exact O]). }
    specialize (X _ eq_refl). split; [|split; [|exact X]]; unfold displayDiffOp; destruct (shown_op dm i); cbn; lia.
  Qed.
  Lemma open_top n w : top w -> ok any topped (open_container sc coll dm n w).
  Proof.
    intros T. unfold open_container. destruct (mem _ _); (eapply ok_bind; [apply put_top, T|]); intros w' T'; [exact T'|]. destruct (bottom _ _); exact T'.
  Qed.
  Lemma elem_top e w : top w -> ok any topped (draw_elem h sc coll dm e w).
  Proof.
    intros T. unfold draw_elem. assert (C := check_top e w T). set (w1 := check h e w) in *. clearbody w1. cbv zeta.
    assert (L : (wy w1 <=? wscroll w1) = false) by (destruct C as (A & B & _); lia).
    destruct e as [n|m k v].
    - destruct (is_container n); [apply open_top, C|]. eapply ok_bind; [apply put_top, C|]. intros w' E. exact E.
    - unfold draw_entry.
      assert (KA : forall tx l, ok any topped (r <~ key_after sc dm (EEntry m k v) tx l w1 ; let '(b, w) := r in Done (b && negb (bottom sc w), w))).
      { intros tx l. eapply ok_bind with (P := topped); [|intros [b w'] E; exact E]. unfold key_after. rewrite L.
        eapply ok_bind; [apply put_top, C|]. intros w' E. exact E. }
      destruct (_ && _); [apply KA|]. destruct (negb _); [apply KA|]. destruct (children v); [apply KA|].
      eapply ok_bind with (P := topped).
      + unfold key_alone. rewrite L. eapply ok_bind; [apply put_top, C|]. intros w' E. exact E.
      + intros [[|] w'] E; [|exact E]. eapply ok_bind; [apply open_top, E|]. intros r E'. exact E'.
  Qed.
  Lemma next_top w : top w -> ok any topped (draw_next h sc coll dm w).
  Proof.
    intros T. unfold draw_next. destruct (wstack w) as [|[i c] t]; [apply elem_top, T|]. destruct (_ =? _).
    - unfold close_container. eapply ok_bind; [apply put_top; exact T|]. intros w' E. exact E.
    - destruct (nth_error _ _); [|exact Logic.I]. apply elem_top. exact T.
  Qed.
  (** After an item: at the top, unless the redraw fails. *)
  Definition item_top (r : option bool * win) : Prop := marked (snd r) /\ (fst r <> None -> top (snd r)).
  Lemma one_top w : top w -> ok any item_top (one_item h sc coll dm w).
  Proof.
    intros T. unfold one_item. eapply ok_bind; [apply next_top, T|]. intros [r w'] K. unfold topped in K. cbn [snd] in K. assert (MK : marked w') by apply K.
    destruct (_ || _); [|split; [exact MK|intros _; exact K]]. destruct (_ && _); [split; [exact MK|intros X; destruct (X eq_refl)]|].
    eapply ok_bind with (P := fun _ => True); [|intros d _; split; [exact MK|intros _; exact K]].
    destruct (wdown w'); [exact Logic.I|]. eapply ok_bind with (P := fun _ => True).
    - destruct (wsel w'); [|exact Logic.I]. destruct (lookup _ _); exact Logic.I.
    - intros [|c l] _; [|exact Logic.I]. destruct (wlast w'); [|exact Logic.I]. eapply ok_bind with (P := fun _ => True); [exact Logic.I|]. intros i _. eapply ok_bind with (P := fun _ => True); [|intros; exact Logic.I]. apply ok_true.
  Qed.
  Lemma added_top f : forall w, top w -> ok any item_top (added_items h sc coll dm f w).
  Proof.
    induction f as [|f IH]; intros w T; [exact Logic.I|]. cbn [added_items]. eapply ok_bind; [apply one_top, T|]. intros [[[|]|] w'] K; try exact K.
    eapply ok_bind with (P := fun _ => True); [destruct (next_added dm w'); exact Logic.I|]. intros [|] _; [|exact K].
    apply IH, (proj2 K). discriminate.
  Qed.
  Lemma gap_top k : forall w, top w -> top (gap_lines k w).
  Proof.
    induction k as [|k IH]; intros w T; [exact T|]. cbn [gap_lines]. apply IH. destruct T as (Y & S & K). split; [cbn; lia|]. split; [exact S|].
    destruct K as (K & K2). split; [intros i c y J NE; right; apply (K i c y J NE)|]. intros y o [[= <- <-]|I]; [split; [discriminate|auto]|exact (K2 y o I)].
  Qed.

  (** One window per document: which of them started at the top. *)
  Definition tops (bs : list bool) (ps : list part) : Prop := Forall2 (fun (b : bool) p => b = true -> top (fst p)) bs ps.
  Definition oks (bs : list bool) (ws : list win) : Prop := Forall2 (fun (b : bool) w => b = true -> marked w) bs ws.
  Lemma tops_oks bs ps : tops bs ps -> oks bs (map fst ps).
  Proof. induction 1 as [|b p bs ps H _ IH]; constructor; [intros E; apply (H E)|exact IH]. Qed.

  Lemma gap_all_top f after : forall before bs bs', tops bs before -> tops bs' after ->
    ok any (fun r => match r with None => True | Some (true, ps) => tops (bs ++ bs') ps | Some (false, ps) => oks (bs ++ bs') (map fst ps) end) (display_gap h sc coll dm f before after).
  Proof.
    induction after as [|[w busy] t IH]; intros before bs bs' TB TA; [exact Logic.I|]. cbn [display_gap]. inversion TA as [|c p bs0 ps H F E1 E2]; subst.
    eapply ok_bind with (P := fun _ => True). { destruct busy; [destruct (next_added dm w); exact Logic.I|exact Logic.I]. }
    intros [|] _.
    - assert (G : forall k l ls, tops l ls -> tops l (map (fun p : part => (gap_lines k (fst p), snd p)) ls)).
      { intros k l ls. induction 1 as [|b p l ls X _ IHl]; constructor; [intros E; apply gap_top, X, E|exact IHl]. }
      destruct c.
      + eapply ok_bind; [apply added_top, (H eq_refl)|]. intros [[fin|] w'] K; unfold ok.
        * apply Forall2_app; [apply G, TB|]. constructor; [intros _; apply (proj2 K); discriminate|apply G, F].
        * rewrite map_app. apply Forall2_app; [apply tops_oks, TB|]. constructor; [intros _; apply (proj1 K)|apply tops_oks, F].
      + eapply ok_bind with (P := fun _ => True); [apply ok_true|]. intros [[fin|] w'] _; unfold ok.
        * apply Forall2_app; [apply G, TB|]. constructor; [discriminate|apply G, F].
        * rewrite map_app. apply Forall2_app; [apply tops_oks, TB|]. constructor; [discriminate|apply tops_oks, F].
    - specialize (IH (before ++ [(w, busy)]) (bs ++ [c]) bs0). rewrite <- app_assoc in IH. apply IH; [|exact F]. apply Forall2_app; [exact TB|]. constructor; [exact H|constructor].
  Qed.
  Lemma display_top ps : forall bs mx, tops bs ps -> 0 <= mx -> ok any (fun r => let '(b, l, mx') := r in
    0 <= mx' /\
    if b : bool then Forall2 (fun (b : bool) p => b = true -> top (fst (fst p)) /\ 1 <= snd p) bs l else oks bs (map (fun p => fst (fst p)) l)) (display h sc coll dm ps mx).
  Proof.
    induction ps as [|[w busy] t IH]; intros bs mx T MX; inversion T as [|c p bs0 ps H F E1 E2]; subst.
    - cbn. split; [exact MX|]. constructor.
    - cbn [display]. destruct busy.
      + assert (X : ok any (fun r => c = true -> item_top r) (one_item h sc coll dm w)).
        { destruct c; [eapply ok_mono; [apply one_top, H; reflexivity|auto]|eapply ok_mono; [apply ok_true|discriminate]]. }
        eapply ok_bind; [exact X|]. intros [[fin|] w'] K.
        * eapply ok_bind; [apply (IH bs0 _ F); lia|]. intros [[b l] mx'] (A & C). cbn [ok]. split; [exact A|].  destruct b.
          -- constructor; [|exact C]. intros E. cbn [fst snd]. split; [apply (proj2 (K E)); discriminate|]. exact (proj1 (H E)).
          -- cbn [map]. constructor; [|exact C]. intros E. exact (proj1 (K E)).
        * cbn [ok]. split; [exact MX|].  cbn [map fst]. constructor; [intros E; exact (proj1 (K E))|]. rewrite map_map. cbn [fst]. apply tops_oks, F.
      + eapply ok_bind; [apply (IH bs0 _ F MX)|]. intros [[b l] mx'] (A & C). cbn [ok]. split; [exact A|].  destruct b.
        * constructor; [|exact C]. intros E. cbn [fst snd]. split; [exact (H E)|exact (proj1 (H E))].
        * cbn [map]. constructor; [|exact C]. intros E. apply (H E).
  Qed.
  Lemma items_top f : forall bs ps, tops bs ps -> ok any (fun r => oks bs (snd r)) (redraw_items h sc coll dm f ps).
  Proof.
    induction f as [|f IH]; intros bs ps T; [exact Logic.I|]. cbn [redraw_items]. destruct (existsb snd ps); [|apply tops_oks, T].
    eapply ok_bind; [apply (gap_all_top (S f) ps [] [] bs (Forall2_nil _) T)|]. intros [[[|] ps']|] H; cbn [app] in H.
    - apply IH, H.
    - exact H.
    - eapply ok_bind; [apply (display_top ps bs 0 T); lia|]. intros [[b l] mx] (A & C). destruct b; [|exact C].
      apply IH. clear - C A. induction C as [|c p bs l H _ IHl]; constructor; [|exact IHl]. intros E. destruct (H E) as [(Y & S & K) P]. cbn [fst]. split; [cbn; lia|]. split; assumption.
  Qed.
  Lemma redraw_marks ws b vs : redraw_all h sc coll dm ws = Done (b, vs) -> Forall2 (fun w v => wscroll w = 0 -> marked v) ws vs.
  Proof.
    intros R. assert (X := items_top (items_fuel h) (map (fun w => wscroll w =? 0) ws) (map (fun w => (start w, true)) ws)).
    fold (redraw_all h sc coll dm ws) in X. rewrite R in X. cbn [ok snd] in X.
    assert (T : tops (map (fun w => wscroll w =? 0) ws) (map (fun w => (start w, true)) ws)).
    { clear. induction ws as [|w ws IH]; constructor; [|exact IH]. intros E. cbn [fst]. split; [cbn; lia|]. split; [cbn; lia|]. split; [intros i c y []|intros y o []]. }
    specialize (X T). clear - X. revert vs X. induction ws as [|w ws IH]; intros vs X; inversion X as [|c v cs vs' H F E1 E2]; subst; constructor; [|apply IH, F].
    intros S0. apply H. lia.
  Qed.
  Lemma redraw_marked ws b vs : redraw_all h sc coll dm ws = Done (b, vs) -> Forall2 (fun w v => wscroll w = 0 -> wscroll v = 0 -> marks_in_place dm v) ws vs.
  Proof.
    intros R. assert (X := redraw_marks ws b vs R). clear - X. induction X as [|w v ws vs H F IH]; constructor; [|exact IH].
    intros S0 S1 i c y J _ NE. rewrite S1, Z.sub_0_r. apply (proj1 (H S0) i c y J NE).
  Qed.
  Lemma redraw_sound ws b vs : redraw_all h sc coll dm ws = Done (b, vs) ->
    Forall2 (fun w v => wscroll w = 0 -> forall y o, In (y, o) (wmarks v) -> o <> OEqu /\ (o = ORem \/ exists i c, In (i, c, y) (wlog v) /\ shown_op dm i = o)) ws vs.
  Proof.
    intros R. assert (X := redraw_marks ws b vs R). clear - X. induction X as [|w v ws vs H F IH]; constructor; [|exact IH]. intros S0. apply (H S0).
  Qed.
End Marks.

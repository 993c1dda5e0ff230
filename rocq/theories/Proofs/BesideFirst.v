(** The first redraw of two windows: nothing is scrolled. *)
From Verif Require Export Proofs.SplitKeep.
From Coq Require Import Lia ZifyBool.
Open Scope Z_scope.

(** The root has been drawn, or is what is drawn next. *)
Definition lit (w : win) : Prop := wfound w = true /\ wscroll w = 0.
Definition fresh (w : win) : Prop := wfound w = false /\ wscroll w = 0 /\ 1 <= wy w /\ wstack w = [] /\ wlast w = Some (nid (wroot w)).
Definition starts (p : part) : Prop := lit (fst p) \/ fresh (fst p) /\ snd p = true.

Section First.
  Variable (h : list elem) (sc : screen) (coll : list Z) (dm : mat).

  Lemma put_lit a b c d e w : ok any (fun w' => wfound w' = wfound w /\ wscroll w' = wscroll w) (put dm a b c d e w).
  Proof.
    unfold put. destruct (_ <=? _); [split; reflexivity|]. destruct (getNbLines _ _); [|exact Logic.I]. cbn. unfold displayDiffOp. destruct (shown_op _ _); split; reflexivity.
  Qed.
  Definition lights {A} (r : A * win) : Prop := lit (snd r).
  Lemma put_lights a b c d e w : lit w -> ok any lit (put dm a b c d e w).
  Proof. intros [L1 L2]. eapply ok_mono; [apply put_lit|]. intros w' [E1 E2]. split; congruence. Qed.
  Lemma open_lights n w : lit w -> ok any lights (open_container sc coll dm n w).
  Proof.
    intros L. unfold open_container. destruct (mem _ _); (eapply ok_bind; [apply put_lights; exact L|]); intros w' E; [exact E|]. destruct (bottom _ _); exact E.
  Qed.
  Lemma drawn_lights e w : lit (check h e w) -> ok any lights (draw_elem h sc coll dm e w).
  Proof.
    intros L. unfold draw_elem. set (w1 := check h e w) in *. clearbody w1. clear w.
    destruct e as [n|m k v]; cbv zeta.
    - destruct (is_container n); [apply open_lights, L|]. eapply ok_bind; [apply put_lights, L|]. intros w' E. exact E.
    - unfold draw_entry.
      assert (KA : forall tx l, ok any lights (r <~ key_after sc dm (EEntry m k v) tx l w1 ; let '(b, w) := r in Done (b && negb (bottom sc w), w))).
      { intros tx l. eapply ok_bind with (P := lights); [|intros [b w'] E; exact E]. unfold key_after. destruct (_ <=? _); [exact L|].
        eapply ok_bind; [apply put_lights, L|]. intros w' E. exact E. }
      destruct (_ && _); [apply KA|]. destruct (negb _); [apply KA|]. destruct (children v); [apply KA|].
      eapply ok_bind with (P := lights).
      + unfold key_alone. destruct (_ <=? _); [exact L|]. eapply ok_bind; [apply put_lights, L|]. intros w' E. exact E.
      + intros [[|] w'] E; [|exact E]. eapply ok_bind; [apply open_lights, E|]. intros r E'. exact E'.
  Qed.
  Lemma check_lit e w : lit w -> lit (check h e w).
  Proof.
    intros [L1 L2]. unfold check. rewrite L1. cbn [negb]. destruct (wdown w); [split; assumption|]. cbv zeta. destruct (lookup _ _); [|split; assumption]. destruct (negb _); split; assumption.
  Qed.
  Lemma check_root w : fresh w -> lit (check h (ENode (wroot w)) w).
  Proof.
    intros (F1 & F2 & F3 & F4 & F5). unfold check. rewrite F1, F5. cbn [negb sel_is eid]. rewrite Z.eqb_refl. destruct (_ <=? _) eqn:E; [lia|]. split; [reflexivity|exact F2].
  Qed.
  Lemma next_lights w : lit w \/ fresh w -> ok any lights (draw_next h sc coll dm w).
  Proof.
    intros [L|F]; unfold draw_next.
    - destruct (wstack w) as [|[i c] t]; [apply drawn_lights, check_lit, L|]. destruct (_ =? _).
      + unfold close_container. eapply ok_bind; [apply put_lights; exact L|]. intros w' E. exact E.
      + destruct (nth_error _ _); [|exact Logic.I]. apply drawn_lights, check_lit, L.
    - assert (F' := F). destruct F' as (_ & _ & _ & -> & _). apply drawn_lights, check_root, F.
  Qed.
  (** Nothing is absent. *)
  Definition present (r : option bool * win) : Prop := fst r <> None /\ lit (snd r).
  Lemma item_lights w : lit w \/ fresh w -> ok any present (one_item h sc coll dm w).
  Proof.
    intros L. unfold one_item. eapply ok_bind; [apply next_lights, L|]. intros [r w'] K. unfold lights in K. cbn [snd] in K. assert (K' := K). destruct K' as [K1 K2].
    destruct (_ || _); [|split; [discriminate|exact K]]. rewrite K1, Bool.andb_false_r.
    eapply ok_bind with (P := fun _ => True); [apply ok_true|]. intros d _. split; [discriminate|exact K].
  Qed.
  Lemma added_lights f : forall w, lit w \/ fresh w -> ok any present (added_items h sc coll dm f w).
  Proof.
    induction f as [|f IH]; intros w L; [exact Logic.I|]. cbn [added_items]. eapply ok_bind; [apply item_lights, L|]. intros [[[|]|] w'] K; try exact K.
    eapply ok_bind with (P := fun _ => True); [apply ok_true|]. intros [|] _; [|exact K]. apply IH. left. apply K.
  Qed.
  Lemma gap_starts k : forall w b, starts (w, b) -> starts (gap_lines k w, b).
  Proof.
    induction k as [|k IH]; intros w b S; [exact S|]. cbn [gap_lines]. apply IH. unfold starts in *. cbn [fst snd] in *. destruct S as [[L1 L2]|((F1 & F2 & F3 & F4 & F5) & B)]; [left; split; assumption|right; split; [|exact B]].
    split; [exact F1|]. split; [exact F2|]. split; [cbn [wy set_wy]; lia|]. split; [exact F4|exact F5].
  Qed.
  Lemma starts_or w : starts (w, true) -> lit w \/ fresh w.
  Proof. intros [L|[F _]]; auto. Qed.

  Lemma gap_goes f after : forall before, Forall starts before -> Forall starts after ->
    ok any (fun r => match r with None => True | Some (b, ps) => b = true /\ Forall starts ps end) (display_gap h sc coll dm f before after).
  Proof.
    induction after as [|[w busy] t IH]; intros before SB SA; [exact Logic.I|]. inversion_clear SA as [|? ? S1 S2]. cbn [display_gap].
    eapply ok_bind with (P := fun x => x = true -> busy = true). { destruct busy; [eapply ok_mono; [apply ok_true|]; auto|intros [=]]. }
    intros [|] B.
    - rewrite B in * by reflexivity. eapply ok_bind; [apply added_lights, starts_or, S1|].
      assert (G : forall k l, Forall starts l -> Forall starts (map (fun p : part => (gap_lines k (fst p), snd p)) l)).
      { intros k l F. apply Forall_map. eapply Forall_impl; [|exact F]. intros [u b]. apply gap_starts. }
      intros [[fin|] w'] [K1 K2]; [|destruct (K1 eq_refl)]. cbn [ok snd fst] in *. split; [reflexivity|]. apply Forall_app. split; [apply G, SB|]. constructor; [left; exact K2|apply G, S2].
    - apply IH; [apply Forall_app; split; [exact SB|constructor; [exact S1|constructor]]|exact S2].
  Qed.
  Lemma display_goes ps : forall mx, Forall starts ps ->
    ok any (fun r => fst (fst r) = true /\ Forall (fun p => lit (fst (fst p))) (snd (fst r))) (display h sc coll dm ps mx).
  Proof.
    induction ps as [|[w busy] t IH]; intros mx S; [split; [reflexivity|constructor]|]. inversion_clear S as [|? ? S1 S2]. cbn [display]. destruct busy.
    - eapply ok_bind; [apply item_lights, starts_or, S1|]. intros [[fin|] w'] [K1 K2]; [|destruct (K1 eq_refl)]. cbn [fst snd] in *.
      eapply ok_bind; [apply IH, S2|]. intros [[b l] mx'] [H1 H2]. cbn in *. split; [exact H1|]. constructor; [exact K2|exact H2].
    - destruct S1 as [S1|[_ S1]]; [|discriminate S1]. eapply ok_bind; [apply IH, S2|]. intros [[b l] mx'] [H1 H2]. cbn in *. split; [exact H1|]. constructor; [exact S1|exact H2].
  Qed.
  Lemma items_goes f : forall ps, Forall starts ps -> ok any (fun r => fst r = true /\ Forall lit (snd r)) (redraw_items h sc coll dm f ps).
  Proof.
    induction f as [|f IH]; intros ps S; [exact Logic.I|]. cbn [redraw_items]. destruct (existsb snd ps) eqn:EX.
    - eapply ok_bind; [apply (gap_goes (Datatypes.S f) ps []); [constructor|exact S]|]. intros [[b ps']|] H.
      + destruct H as [-> H]. apply IH, H.
      + eapply ok_bind; [apply display_goes, S|]. intros [[b l] mx] [HB HL]. cbn [fst snd] in HB, HL. subst b. apply IH. apply Forall_map. eapply Forall_impl; [|exact HL]. intros q [L1 L2]. left. split; assumption.
    - split; [reflexivity|]. cbn [snd]. apply Forall_map. rewrite Forall_forall in *. intros q I. destruct (S q I) as [L|[_ B]]; [exact L|].
      exfalso. assert (existsb snd ps = true) by (apply existsb_exists; eauto). congruence.
  Qed.
  Lemma redraw_goes ws : Forall (fun w => wscroll w = 0 /\ wlast w = Some (nid (wroot w))) ws -> ok any (fun r => fst r = true /\ Forall lit (snd r)) (redraw_all h sc coll dm ws).
  Proof.
    intros F. apply items_goes. apply Forall_map. eapply Forall_impl; [|exact F]. intros w [E1 E2]. right. split; [|reflexivity]. split; [reflexivity|]. split; [exact E1|]. split; [cbn; lia|]. split; [reflexivity|exact E2].
  Qed.
End First.

Lemma redraws_goes h m f sc p p' : Forall (fun w => wscroll w = 0 /\ wlast w = Some (nid (wroot w))) (pwins p) ->
  redraws h m f sc p = Done p' -> Forall lit (pwins p').
Proof.
  intros F. destruct f as [|f]; [discriminate|]. cbn [redraws]. assert (X := redraw_goes h sc (pcoll p) m (pwins p) F).
  destruct (redraw_all _ _ _ _ _) as [[b ws]|]; [|discriminate]. destruct X as [X0 X]. cbn [SplitView.bind fst snd] in *. subst b. intros [= <-]. exact X.
Qed.

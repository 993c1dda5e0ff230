(** What drawing leaves alone; the selections of the two windows. *)
From Verif Require Export Proofs.SplitBase.
From Coq Require Import Lia ZifyBool.
Open Scope Z_scope.

Definition any (f : fault) : Prop := True.
Lemma ok_true {A} (m : out A) : ok any (fun _ => True) m.
Proof. destruct m; exact Logic.I. Qed.

(** Drawing does not touch the document, the selection and the search results. *)
Definition core (w : win) : node * option Z * option Z * list Z := (wroot w, wsel w, wlast w, wres w).
Definition kept {A} (w : win) (r : A * win) : Prop := core (snd r) = core w.

Section Keep.
  Variable (h : list elem) (sc : screen) (coll : list Z) (dm : mat).

  Lemma check_core e w : core (check h e w) = core w.
  Proof.
    unfold check. destruct (negb (wfound w)).
    - destruct (sel_is _ _); [destruct (_ <=? _); reflexivity|]. destruct (negb _); reflexivity.
    - destruct (wdown w); [reflexivity|]. cbv zeta. destruct (lookup _ _); [|reflexivity]. destruct (negb _); reflexivity.
  Qed.
  Lemma put_core a b c d e w : ok any (fun w' => core w' = core w) (put dm a b c d e w).
  Proof.
    unfold put. destruct (_ <=? _); [reflexivity|]. destruct (getNbLines _ _); [|exact Logic.I]. cbn. unfold displayDiffOp. destruct (shown_op _ _); reflexivity.
  Qed.
  Lemma open_core n w : ok any (kept w) (open_container sc coll dm n w).
  Proof.
    unfold open_container. destruct (mem _ _); (eapply ok_bind; [apply put_core|]); intros w' E; [exact E|]. destruct (bottom _ _); exact E.
  Qed.
  Lemma elem_core e w : ok any (kept w) (draw_elem h sc coll dm e w).
  Proof.
    unfold draw_elem. assert (C := check_core e w). set (w1 := check h e w) in *. clearbody w1.
    assert (T : forall m : out (bool * win), ok any (kept w1) m -> ok any (kept w) m) by (intros m H; eapply ok_mono; [exact H|]; intros r; unfold kept; congruence).
    destruct e as [n|m k v]; cbv zeta.
    - destruct (is_container n); [apply T, open_core|]. apply T. eapply ok_bind; [apply put_core|]. intros w' E. exact E.
    - unfold draw_entry. apply T.
      assert (KA : forall tx l, ok any (kept w1) (r <~ key_after sc dm (EEntry m k v) tx l w1 ; let '(b, w) := r in Done (b && negb (bottom sc w), w))).
      { intros tx l. eapply ok_bind with (P := kept w1); [|intros [b w'] E; exact E]. unfold key_after. destruct (_ <=? _); [reflexivity|].
        eapply ok_bind; [apply put_core|]. intros w' E. exact E. }
      destruct (_ && _); [apply KA|]. destruct (negb _); [apply KA|]. destruct (children v); [apply KA|].
      eapply ok_bind with (P := kept w1).
      + unfold key_alone. destruct (_ <=? _); [reflexivity|]. eapply ok_bind; [apply put_core|]. intros w' E. exact E.
      + intros [[|] w'] E; [|exact E]. eapply ok_bind; [apply open_core|]. intros r E'. unfold ok, kept in *. cbn [snd] in *. congruence.
  Qed.
  Lemma next_core w : ok any (kept w) (draw_next h sc coll dm w).
  Proof.
    unfold draw_next. destruct (wstack w) as [|[i c] t]; [apply elem_core|]. destruct (_ =? _).
    - unfold close_container. eapply ok_bind; [apply put_core|]. intros w' E. exact E.
    - destruct (nth_error _ _); [|exact Logic.I]. eapply ok_mono; [apply elem_core|]. intros r E. exact E.
  Qed.
  Lemma item_core w : ok any (kept w) (one_item h sc coll dm w).
  Proof.
    unfold one_item. eapply ok_bind; [apply next_core|]. intros [r w'] K. destruct (_ || _); [|exact K]. destruct (_ && _); [exact K|].
    eapply ok_bind with (P := fun _ => True); [|intros d _; exact K].
    destruct (wdown w'); [exact Logic.I|]. eapply ok_bind with (P := fun _ => True).
    - destruct (wsel w'); [|exact Logic.I]. destruct (lookup _ _); exact Logic.I.
    - intros [|c l] _; [|exact Logic.I]. destruct (wlast w'); [|exact Logic.I]. eapply ok_bind with (P := fun _ => True); [exact Logic.I|]. intros i _. eapply ok_bind with (P := fun _ => True); [|intros; exact Logic.I]. apply ok_true.
  Qed.
  Lemma added_core f : forall w, ok any (kept w) (added_items h sc coll dm f w).
  Proof.
    induction f as [|f IH]; intros w; [exact Logic.I|]. cbn [added_items]. eapply ok_bind; [apply item_core|]. intros [[[|]|] w'] K; try exact K.
    eapply ok_bind with (P := fun _ => True); [destruct (next_added dm w'); exact Logic.I|]. intros [|] _; [|exact K].
    eapply ok_mono; [apply IH|]. intros r K'. unfold kept in *. cbn in *. congruence.
  Qed.
  Lemma gap_lines_core k : forall w, core (gap_lines k w) = core w.
  Proof. induction k as [|k IH]; intros w; [reflexivity|]. cbn [gap_lines]. rewrite IH. reflexivity. Qed.

  Definition cores (ps : list part) : list (node * option Z * option Z * list Z) := map (fun p => core (fst p)) ps.
  Lemma gap_core f after : forall before,
    ok any (fun r => match r with None => True | Some (_, ps) => cores ps = cores (before ++ after) end) (display_gap h sc coll dm f before after).
  Proof.
    induction after as [|[w busy] t IH]; intros before; [exact Logic.I|]. cbn [display_gap].
    eapply ok_bind with (P := fun _ => True). { destruct busy; [destruct (next_added dm w); exact Logic.I|exact Logic.I]. }
    intros [|] _.
    - eapply ok_bind; [apply added_core|]. unfold cores.
      assert (G : forall k l, map (fun p => core (fst p)) (map (fun p : part => (gap_lines k (fst p), snd p)) l) = map (fun p => core (fst p)) l).
      { intros k l. rewrite map_map. apply map_ext. intros p. apply gap_lines_core. }
      intros [[fin|] w'] K; unfold kept in K; cbn [snd] in K; unfold ok; rewrite !map_app; cbn [map fst].
      + unfold part in G. rewrite !G, K. reflexivity.
      + rewrite K. reflexivity.
    - eapply ok_mono; [apply IH|]. intros [[b ps]|]; [|auto]. rewrite <- app_assoc. auto.
  Qed.
  Lemma display_core ps : forall mx, ok any (fun r => cores (map fst (snd (fst r))) = cores ps) (display h sc coll dm ps mx).
  Proof.
    induction ps as [|[w busy] t IH]; intros mx; [reflexivity|]. cbn [display]. destruct busy.
    - eapply ok_bind; [apply item_core|]. intros [[fin|] w'] K; unfold kept in K; cbn [snd] in K.
      + eapply ok_bind; [apply IH|]. intros [[b l] mx'] H. cbn in *. rewrite K. f_equal. exact H.
      + cbn. rewrite K. f_equal. unfold cores. rewrite !map_map. reflexivity.
    - eapply ok_bind; [apply IH|]. intros [[b l] mx'] H. cbn in *. f_equal. exact H.
  Qed.
  Lemma items_core f : forall ps, ok any (fun r => map core (snd r) = cores ps) (redraw_items h sc coll dm f ps).
  Proof.
    induction f as [|f IH]; intros ps; [exact Logic.I|]. cbn [redraw_items]. destruct (existsb snd ps); [|cbn; unfold cores; rewrite map_map; reflexivity].
    eapply ok_bind; [apply (gap_core (S f) ps [])|]. intros [[[|] ps']|] H; cbn [app] in H.
    - eapply ok_mono; [apply IH|]. intros r E. rewrite E. exact H.
    - cbn. rewrite <- H. unfold cores. rewrite map_map. reflexivity.
    - eapply ok_bind; [apply display_core|]. intros [[b l] mx] HL. cbn [fst snd] in HL. destruct b.
      + eapply ok_mono; [apply IH|]. intros r E. rewrite E, <- HL. unfold cores. rewrite !map_map. reflexivity.
      + cbn. rewrite <- HL. unfold cores. rewrite !map_map. reflexivity.
  Qed.
  Lemma redraw_core ws : ok any (fun r => map core (snd r) = map core ws) (redraw_all h sc coll dm ws).
  Proof. eapply ok_mono; [apply items_core|]. intros r E. rewrite E. unfold cores. rewrite map_map. reflexivity. Qed.
End Keep.

(** The selection of the window that is not active is the counterpart of the
    selection of the active one. *)
Section Mirror.
  Variable (h : list elem) (dm : mat).
  Hypothesis sym : forall x y, getEquivalence dm x = Some y -> getEquivalence dm y = Some x.

  Local Notation mirrored := (mirrored dm).

  Lemma setSelection_mirrored p s : valid 2 p -> mirrored (setSelection dm p s).
  Proof.
    intros [L A]. destruct p as [[|w0 [|w1 [|]]] act c]; try discriminate L. cbn in A.
    destruct (Z.eq_dec act 0) as [->|N0]; [|assert (act = 1) by lia; subst act]; cbn; eexists; eexists; (split; [reflexivity|]); cbn; auto.
  Qed.
  Lemma mirrored_sel p c : mirrored p -> mirrored (mkSplit (pwins p) (pact p) c).
  Proof. exact (fun H => H). Qed.
  Lemma mirrored_core p ws c : mirrored p -> map core ws = map core (pwins p) -> mirrored (mkSplit ws (pact p) c).
  Proof.
    intros (w0 & w1 & E & H) M. rewrite E in M. destruct ws as [|v0 [|v1 [|]]]; try discriminate M. injection M as _ E0 _ _ _ E1 _ _.
    exists v0, v1. split; [reflexivity|]. cbn [pact]. rewrite E0, E1. exact H.
  Qed.

  Lemma mirrored_valid p : mirrored p -> valid 2 p.
  Proof. intros (w0 & w1 & E & H). split; [rewrite E; reflexivity|]. cbn. lia. Qed.

  Lemma once_mirrored sc p : mirrored p -> ok any mirrored (redraw_once h dm sc p).
  Proof. intros M. eapply ok_bind; [apply redraw_core|]. intros r E. apply mirrored_core; assumption. Qed.
  Lemma redraws_mirrored f : forall sc p, mirrored p -> ok any mirrored (redraws h dm f sc p).
  Proof.
    induction f as [|f IH]; intros sc p M; [exact Logic.I|]. cbn [redraws]. eapply ok_bind; [apply redraw_core|]. intros [b ws] E.
    assert (M' := mirrored_core p ws (pcoll p) M E). destruct b; [exact M'|apply IH, M'].
  Qed.
  Ltac skip := eapply ok_bind; [apply ok_true|]; intros ? _.

  Definition mirrors (r : inputResult * split) : Prop := mirrored (snd r).
  Lemma next_mirrored sc p : mirrored p -> ok any mirrors (split_next h dm sc p).
  Proof.
    intros M. assert (V := mirrored_valid p M). skip. destruct (wres a) as [|x l].
    - eapply ok_bind; [apply once_mirrored, M|]. intros p' M'. exact M'.
    - destruct (snd _).
      + skip. exact (setSelection_mirrored p (Some z) V).
      + skip. eapply ok_bind; [apply once_mirrored, (setSelection_mirrored p (Some x) V)|]. intros p' M'. exact M'.
  Qed.
  Lemma change_mirrored d c p : mirrored p -> d = 1 \/ d = -1 /\ c = false -> ok any mirrors (changeWindow dm d c p).
  Proof.
    intros M D. assert (V := mirrored_valid p M). unfold changeWindow. destruct (_ && negb c) eqn:G; [exact M|].
    destruct (_ =? 0) eqn:Z0; [exact Logic.I|]. cbv zeta.
    destruct M as (w0 & w1 & E & H). rewrite E in *. cbn [length] in *. change (Z.of_nat 2) with 2 in *.
    assert (A : exists act, Z.rem (pact p + d) 2 mod 2 ^ 16 = act /\ act = 1 - pact p /\ (act = 0 \/ act = 1)).
    { destruct H as [[P _]|[P _]]; rewrite P in *; destruct D as [->|[-> ->]]; try discriminate G; eexists; (split; [reflexivity|]); split; try reflexivity; auto. }
    destruct A as (act & -> & AC & B). unfold at_. cbn [pact pwins].
    assert (EQ : forall x y, x = equivalent dm y -> x <> None -> y = equivalent dm x).
    { intros x y -> N. destruct y as [y|]; [|destruct (N eq_refl)]. cbn in *. destruct (getEquivalence dm y) eqn:F; [|destruct (N eq_refl)]. cbn. symmetry. apply sym, F. }
    assert (VV : forall s, mirrored (setSelection dm (mkSplit [w0; w1] act (pcoll p)) s)).
    { intros s. apply setSelection_mirrored. split; [reflexivity|cbn; lia]. }
    destruct B as [-> | ->].
    - change (0 <? 0) with false. cbn [Z.to_nat nth_error bind ok]. unfold mirrors. cbn [snd]. destruct (wsel w0) eqn:W; [|apply VV]. exists w0, w1. split; [reflexivity|]. left. split; [reflexivity|]. rewrite W.
      destruct H as [[? _]|[_ H]]; [lia|]. apply EQ; [exact H|discriminate].
    - change (1 <? 0) with false. change (Z.to_nat 1) with 1%nat. cbn [nth_error bind ok]. unfold mirrors. cbn [snd]. destruct (wsel w1) eqn:W; [|apply VV]. exists w0, w1. split; [reflexivity|]. right. split; [reflexivity|]. rewrite W.
      destruct H as [[_ H]|[? _]]; [|lia]. apply EQ; [exact H|discriminate].
  Qed.
  Lemma key_mirrored rx sc k q p : mirrored p -> ok any mirrors (split_key h dm rx sc k q p).
  Proof.
    intros M. assert (V := mirrored_valid p M). assert (SM := fun s => setSelection_mirrored p s V).
    unfold split_key. destruct (beqb k (str "Q")); [exact M|].
    destruct (_ || _); [skip; apply SM|].
    destruct (_ || _); [skip; apply SM|].
    destruct (beqb k _).
    { unfold split_pup. do 3 skip. destruct a1; [apply SM|]. skip. destruct (epar _); [|exact M]. skip. destruct a2; [|exact M]. skip. apply SM. }
    destruct (beqb k _). { unfold split_pdown. do 3 skip. destruct a1; [apply SM|exact M]. }
    destruct (_ || _).
    { unfold split_expand. skip. destruct (wsel a); [|exact M]. skip. cbv zeta. destruct (negb _); [exact M|]. destruct (mem _ _); [exact M|]. destruct (children _); [exact M|]. unfold split_down. skip. apply SM. }
    destruct (_ || _).
    { unfold split_collapse. do 3 skip. cbv zeta. destruct (_ && _); [|exact M]. do 2 skip. apply SM. }
    destruct (beqb k _).
    { unfold split_search. destruct q as [q|]; [|exact M]. cbv zeta.
      assert (M1 : mirrored (mkSplit (map (fun w => set_wres w []) (pwins p)) (pact p) (pcoll p))).
      { destruct M as (w0 & w1 & E & H). exists (set_wres w0 []), (set_wres w1 []). cbn [pwins pact]. rewrite E. split; [reflexivity|exact H]. }
      destruct (isEmpty q); [exact M1|]. 
      destruct M1 as (w0 & w1 & E & H). cbn [pwins pact] in E, H. rewrite E. unfold at_. cbn [pwins].
      destruct H as [[P H]|[P H]]; rewrite P; cbn [Z.ltb Z.to_nat nth_error bind]; [|change (1 <? 0) with false; cbn [Pos.to_nat]];
        apply next_mirrored; cbn -[set_wres flat_map search].
      - eexists; eexists; (split; [reflexivity|]). left. split; [reflexivity|exact H].
      - eexists; eexists; (split; [reflexivity|]). right. split; [reflexivity|exact H]. }
    destruct (beqb k _); [apply next_mirrored, M|].
    destruct (beqb k _); [apply change_mirrored; auto|].
    destruct (_ || _); [apply change_mirrored; auto|].
    destruct (_ || _); [apply change_mirrored; auto|]. exact M.
  Qed.
  Lemma wait_mirrored rx f evs : forall sc p stop, mirrored p -> ok any (fun e => mirrored (end_split e)) (split_wait h dm rx f sc p stop evs).
  Proof.
    induction evs as [|[k q|w hh|] t IH]; intros sc p stop M; [exact M| | |].
    - cbn [split_wait]. eapply ok_bind; [apply key_mirrored, M|]. intros [r p'] M'. unfold mirrors in M'. cbn [snd] in M'.
      destruct r; try exact M'.
      + eapply ok_bind; [apply redraws_mirrored, M'|]. intros p2 M2. destruct stop; [exact M2|apply IH, M2].
      + eapply ok_bind; [apply redraws_mirrored, M'|]. intros p2 M2. destruct stop; [exact M2|apply IH, M2].
      + destruct stop; [exact M'|apply IH, M'].
    - cbn [split_wait]. cbv zeta. eapply ok_bind; [apply redraws_mirrored, M|]. intros p2 M2. apply IH, M2.
    - apply IH, M.
  Qed.
End Mirror.

Lemma run_mirrored rx f len w hh a b m evs : (forall x y, getEquivalence m x = Some y -> getEquivalence m y = Some x) -> build a b = inl m ->
  ok any (fun e => mirrored m (end_split e)) (split_run rx f len w hh a b evs).
Proof.
  intros S B. unfold split_run. rewrite B. cbv zeta.
  eapply ok_bind; [apply redraws_mirrored, setSelection_mirrored; split; [reflexivity|cbn; lia]|]. intros p M. apply wait_mirrored; assumption.
Qed.

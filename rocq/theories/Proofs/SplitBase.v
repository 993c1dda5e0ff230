(** The comparison view: what its parts keep. *)
From Verif Require Export Spec.SplitSpec.
From Coq Require Import Lia ZifyBool.
Open Scope Z_scope.

(** [m] ends with a result satisfying [P], or with one of the faults [F]. *)
Definition ok {A} (F : fault -> Prop) (P : A -> Prop) (m : out A) : Prop :=
  match m with Done a => P a | Bad f => F f end.

Lemma ok_bind {A B} F (m : out A) (k : A -> out B) (P : A -> Prop) (Q : B -> Prop) :
  ok F P m -> (forall a, P a -> ok F Q (k a)) -> ok F Q (bind m k).
Proof. destruct m; cbn; auto. Qed.
Lemma ok_mono {A} F (P Q : A -> Prop) m : ok F P m -> (forall a, P a -> Q a) -> ok F Q m.
Proof. destruct m; cbn; auto. Qed.
Lemma ok_and {A} F (P Q : A -> Prop) m : ok F P m -> ok F Q m -> ok F (fun a => P a /\ Q a) m.
Proof. destruct m; cbn; auto. Qed.
Lemma ok_any {A} (F : fault -> Prop) (P : A -> Prop) (m : out A) a : ok F P m -> m = Done a -> P a.
Proof. intros H ->. exact H. Qed.

Section Range.
  (** Nothing but the access to the active window can throw. *)
  Definition inrange (f : fault) : Prop := f <> Range.
  Variable (h : list elem) (sc : screen) (coll : list Z) (dm : mat).

  Lemma lift_inrange {A} (x : option A) : ok inrange (fun _ => True) (lift x).
  Proof. destruct x; [exact Logic.I|discriminate]. Qed.
  Lemma put_inrange a b c d e w : ok inrange (fun _ => True) (put dm a b c d e w).
  Proof. unfold put. destruct (_ <=? _); [exact Logic.I|]. eapply ok_bind; [apply lift_inrange|]. intros; exact Logic.I. Qed.
  Lemma open_inrange n w : ok inrange (fun _ => True) (open_container sc coll dm n w).
  Proof. unfold open_container. destruct (mem _ _); (eapply ok_bind; [apply put_inrange|]); intros; [exact Logic.I|]. destruct (bottom _ _); exact Logic.I. Qed.
  Lemma next_inrange w : ok inrange (fun _ => True) (draw_next h sc coll dm w).
  Proof.
    assert (E : forall e w, ok inrange (fun _ => True) (draw_elem h sc coll dm e w)).
    { intros e w'. unfold draw_elem. destruct e as [n|m k v].
      - destruct (is_container n); [apply open_inrange|]. eapply ok_bind; [apply put_inrange|]. intros; exact Logic.I.
      - unfold draw_entry.
        assert (KA : forall e tx l w, ok inrange (fun _ => True) (key_after sc dm e tx l w)).
        { intros. unfold key_after. destruct (_ <=? _); [exact Logic.I|]. eapply ok_bind; [apply put_inrange|]. intros; exact Logic.I. }
        assert (IN : forall tx l w, ok inrange (fun _ => True) (r <~ key_after sc dm (EEntry m k v) tx l w ; let '(b, w) := r in Done (b && negb (bottom sc w), w))).
        { intros. eapply ok_bind; [apply KA|]. intros [b w''] _. exact Logic.I. }
        destruct (_ && _); [apply IN|]. destruct (negb _); [apply IN|]. destruct (children v); [apply IN|].
        eapply ok_bind.
        + unfold key_alone. destruct (_ <=? _); [instantiate (1 := fun _ => True); exact Logic.I|]. eapply ok_bind; [apply put_inrange|]. intros; exact Logic.I.
        + intros [b w''] _. destruct b; [|exact Logic.I]. eapply ok_bind; [apply open_inrange|]. intros; exact Logic.I. }
    unfold draw_next. destruct (wstack w) as [|[i c] t]; [apply E|]. destruct (_ =? _).
    - unfold close_container. eapply ok_bind; [apply put_inrange|]. intros; exact Logic.I.
    - destruct (nth_error _ _); [apply E|discriminate].
  Qed.
  Lemma item_inrange w : ok inrange (fun _ => True) (one_item h sc coll dm w).
  Proof.
    unfold one_item. eapply ok_bind; [apply next_inrange|]. intros [r w'] _. destruct (_ || _); [|exact Logic.I]. destruct (_ && _); [exact Logic.I|].
    eapply ok_bind with (P := fun _ => True); [|intros; exact Logic.I].
    destruct (wdown w'); [exact Logic.I|]. eapply ok_bind with (P := fun _ => True).
    - destruct (wsel w'); [|exact Logic.I]. eapply ok_bind; [apply lift_inrange|]. intros; exact Logic.I.
    - intros [|c l] _; [|exact Logic.I]. eapply ok_bind; [apply lift_inrange|]. intros j _. eapply ok_bind; [apply lift_inrange|]. intros; exact Logic.I.
  Qed.
  Lemma next_added_inrange w : ok inrange (fun _ => True) (next_added dm w).
  Proof. unfold next_added. destruct (wstack w) as [|[i c] t]; [exact Logic.I|]. destruct (_ <=? _); [exact Logic.I|]. destruct (nth_error _ _); [exact Logic.I|discriminate]. Qed.
  Lemma added_inrange f : forall w, ok inrange (fun _ => True) (added_items h sc coll dm f w).
  Proof.
    induction f as [|f IH]; intros w; [discriminate|]. cbn [added_items]. eapply ok_bind; [apply item_inrange|]. intros [[[|]|] w'] _; try exact Logic.I.
    eapply ok_bind; [apply next_added_inrange|]. intros [|] _; [apply IH|exact Logic.I].
  Qed.
  Definition gap_same {B} n (r : option (B * list part)) : Prop := match r with None => True | Some (_, ps) => length ps = n end.
  Lemma gap_inrange f after : forall before, ok inrange (gap_same (length before + length after)) (display_gap h sc coll dm f before after).
  Proof.
    induction after as [|[w busy] t IH]; intros before; [exact Logic.I|]. cbn [display_gap].
    eapply ok_bind with (P := fun _ => True). { destruct busy; [apply next_added_inrange|exact Logic.I]. }
    intros [|] _.
    - eapply ok_bind; [apply added_inrange|]. intros [[fin|] w'] _; unfold ok, gap_same; repeat (rewrite app_length || rewrite map_length || cbn [length]);  reflexivity.
    - eapply ok_mono; [apply IH|]. intros [[b ps]|]; cbn; [|auto]. rewrite app_length. cbn. lia.
  Qed.
  Lemma display_inrange ps : forall mx, ok inrange (fun r => length (snd (fst r)) = length ps) (display h sc coll dm ps mx).
  Proof.
    induction ps as [|[w busy] t IH]; intros mx; [reflexivity|]. cbn [display]. destruct busy.
    - eapply ok_bind; [apply item_inrange|]. intros [[fin|] w'] _; [|cbn; rewrite map_length; reflexivity].
      eapply ok_bind; [apply IH|]. intros [[b l] mx'] H. cbn in *. lia.
    - eapply ok_bind; [apply IH|]. intros [[b l] mx'] H. cbn in *. lia.
  Qed.
  Lemma items_inrange f : forall ps, ok inrange (fun r => length (snd r) = length ps) (redraw_items h sc coll dm f ps).
  Proof.
    induction f as [|f IH]; intros ps; [discriminate|]. cbn [redraw_items]. destruct (existsb snd ps); [|cbn; apply map_length].
    eapply ok_bind; [apply (gap_inrange (S f) ps [])|]. intros [[[|] ps']|] H; cbn in H.
    - eapply ok_mono; [apply IH|]. intros; cbn in *; lia.
    - cbn. rewrite map_length. exact H.
    - eapply ok_bind; [apply display_inrange|]. intros [[b l] mx] HL. cbn in HL. destruct b.
      + eapply ok_mono; [apply IH|]. intros a E. rewrite E, map_length. exact HL.
      + cbn. rewrite map_length. exact HL.
  Qed.
  Lemma redraw_inrange ws : ok inrange (fun r => length (snd r) = length ws) (redraw_all h sc coll dm ws).
  Proof. eapply ok_mono; [apply items_inrange|]. intros r E. rewrite E. apply map_length. Qed.
End Range.

Section Index.
  Variable (h : list elem) (dm : mat).

  (** [n] windows, one of them active. *)
  Definition valid (n : nat) (p : split) : Prop := length (pwins p) = n /\ 0 <= pact p < Z.of_nat n.

  Lemma setSelection_valid n p s : valid n p -> valid n (setSelection dm p s).
  Proof.
    intros [L A]. split; [|exact A]. rewrite <- L. unfold setSelection. cbn [pwins]. clear L. generalize 0.
    induction (pwins p) as [|w t IH]; intros i; [reflexivity|]. cbn. rewrite IH. reflexivity.
  Qed.
  Lemma at_valid n p : valid n p -> ok inrange (fun _ => True) (at_ p (pact p)).
  Proof.
    intros [L A]. unfold at_. replace (pact p <? 0) with false by lia. destruct (nth_error _ _) eqn:E; [exact Logic.I|].
    apply nth_error_None in E. lia.
  Qed.
  Lemma redraws_valid n f : forall sc p, valid n p -> ok inrange (valid n) (redraws h dm f sc p).
  Proof.
    induction f as [|f IH]; intros sc p V; [discriminate|]. cbn [redraws]. eapply ok_bind; [apply redraw_inrange|].
    intros [b ws] L. cbn in L. assert (V' : valid n (mkSplit ws (pact p) (pcoll p))) by (destruct V; split; cbn; [congruence|assumption]).
    destruct b; [exact V'|apply IH, V'].
  Qed.
  Lemma once_valid n sc p : valid n p -> ok inrange (valid n) (redraw_once h dm sc p).
  Proof. intros V. eapply ok_bind; [apply redraw_inrange|]. intros r L. destruct V. split; cbn; [congruence|assumption]. Qed.

  Definition step_valid n (r : inputResult * split) : Prop := valid n (snd r).
  Lemma down_valid n p : valid n p -> ok inrange (step_valid n) (split_down dm p).
  Proof. intros V. eapply ok_bind; [eapply at_valid, V|]. intros w _. apply setSelection_valid, V. Qed.
  Lemma recoll_valid n p c : valid n p -> valid n (mkSplit (pwins p) (pact p) c).
  Proof. intros V. exact V. Qed.
  Lemma next_valid n sc p : valid n p -> ok inrange (step_valid n) (split_next h dm sc p).
  Proof.
    intros V. eapply ok_bind; [eapply at_valid, V|]. intros w _. destruct (wres w) as [|x l].
    - eapply ok_bind; [apply once_valid, V|]. intros p' V'. exact V'.
    - destruct (snd _).
      + eapply ok_bind; [apply lift_inrange|]. intros c _. apply (setSelection_valid n p (Some z) V).
      + eapply ok_bind; [apply lift_inrange|]. intros c _. eapply ok_bind; [apply once_valid, (setSelection_valid n p (Some x) V)|]. intros p' V'. exact V'.
  Qed.
  Lemma row_at_inrange i : ok inrange (fun _ => True) (row_at h i).
  Proof. eapply ok_bind; [apply lift_inrange|]. intros; exact Logic.I. Qed.

  Lemma change_valid n d c p : valid n p -> d = 1 \/ d = -1 /\ c = false -> Z.of_nat n < 2 ^ 16 -> ok inrange (step_valid n) (changeWindow dm d c p).
  Proof.
    intros V D B. destruct V as [L A]. unfold changeWindow. rewrite L. destruct (_ && negb c) eqn:E; [split; assumption|].
    replace (Z.of_nat n =? 0) with false by lia. cbv zeta.
    assert (R : 0 <= Z.rem (pact p + d) (Z.of_nat n) < Z.of_nat n).
    { apply Z.rem_bound_pos; [|lia]. destruct D as [->|[-> ->]]; lia. }
    assert (V' : valid n (mkSplit (pwins p) (Z.rem (pact p + d) (Z.of_nat n) mod 2 ^ 16) (pcoll p))).
    { split; [exact L|]. cbn [pact]. rewrite Z.mod_small; lia. }
    eapply ok_bind; [eapply at_valid, V'|]. intros w _. unfold ok, step_valid. cbn [snd]. destruct (wsel w); [exact V'|apply setSelection_valid, V'].
  Qed.

  Lemma set_win_length ws i w : length (set_win ws i w) = length ws.
  Proof.
    unfold set_win. rewrite app_length. rewrite <- (firstn_skipn (Z.to_nat i) ws) at 3. rewrite app_length. f_equal. destruct (skipn _ _); reflexivity.
  Qed.

  Lemma key_valid n rx sc k q p : valid n p -> Z.of_nat n < 2 ^ 16 -> ok inrange (step_valid n) (split_key h dm rx sc k q p).
  Proof.
    intros V B. unfold split_key. destruct (beqb k (str "Q")); [exact V|].
    destruct (_ || _). { eapply ok_bind; [eapply at_valid, V|]. intros w _. apply setSelection_valid, V. }
    destruct (_ || _); [apply down_valid, V|].
    destruct (beqb k _).
    { unfold split_pup. eapply ok_bind; [eapply at_valid, V|]. intros w _. eapply ok_bind; [apply lift_inrange|]. intros i _. eapply ok_bind; [apply lift_inrange|].
      intros [b|] _; [apply setSelection_valid, V|]. eapply ok_bind; [apply lift_inrange|]. intros e _. destruct (epar e); [|exact V].
      eapply ok_bind with (P := fun _ => True); [eapply ok_bind; [apply lift_inrange|]; intros; exact Logic.I|]. intros [|] _; [|exact V].
      eapply ok_bind; [apply row_at_inrange|]. intros r _. apply setSelection_valid, V. }
    destruct (beqb k _).
    { unfold split_pdown. eapply ok_bind; [eapply at_valid, V|]. intros w _. eapply ok_bind; [apply lift_inrange|]. intros i _. eapply ok_bind; [apply lift_inrange|].
      intros [b|] _; [apply setSelection_valid, V|exact V]. }
    destruct (_ || _).
    { unfold split_expand. eapply ok_bind; [eapply at_valid, V|]. intros w _. destruct (wsel w); [|exact V]. eapply ok_bind; [apply lift_inrange|]. intros e _.
      cbv zeta. destruct (negb _); [exact V|]. destruct (mem _ _); [exact V|]. destruct (children _); [exact V|apply down_valid, V]. }
    destruct (_ || _).
    { unfold split_collapse. eapply ok_bind; [eapply at_valid, V|]. intros w _. eapply ok_bind; [apply lift_inrange|]. intros i _. eapply ok_bind; [apply lift_inrange|]. intros e _.
      cbv zeta. destruct (_ && _); [|exact V]. eapply ok_bind; [apply lift_inrange|]. intros r _. eapply ok_bind; [apply row_at_inrange|]. intros r' _. apply setSelection_valid, V. }
    destruct (beqb k _).
    { unfold split_search. destruct q as [q|]; [|exact V]. cbv zeta.
      assert (V1 : valid n (mkSplit (map (fun w => set_wres w []) (pwins p)) (pact p) (pcoll p))) by (destruct V; split; cbn; [rewrite map_length; assumption|assumption]).
      destruct (isEmpty q); [exact V1|]. eapply ok_bind; [exact (at_valid n _ V1)|]. intros w _. apply next_valid. split; [|apply V].
      cbn [pwins]. rewrite set_win_length, map_length. apply V. }
    destruct (beqb k _); [apply next_valid, V|].
    destruct (beqb k _); [apply change_valid; auto|].
    destruct (_ || _); [apply change_valid; auto|].
    destruct (_ || _); [apply change_valid; auto|]. exact V.
  Qed.

  Definition end_valid n (e : ending) : Prop := match e with Waits _ p | Ends _ p => valid n p end.
  Lemma wait_valid n rx f evs : Z.of_nat n < 2 ^ 16 -> forall sc p stop, valid n p -> ok inrange (end_valid n) (split_wait h dm rx f sc p stop evs).
  Proof.
    intros B. induction evs as [|[k q|w hh|] t IH]; intros sc p stop V; [exact V| | |].
    - cbn [split_wait]. eapply ok_bind; [apply (key_valid n); auto|]. intros [r p'] V'. unfold step_valid in V'. cbn [snd] in V'.
      destruct r; try exact V'.
      + eapply ok_bind; [apply (redraws_valid n), V'|]. intros p2 V2. destruct stop; [exact V2|apply IH, V2].
      + eapply ok_bind; [apply (redraws_valid n), V'|]. intros p2 V2. destruct stop; [exact V2|apply IH, V2].
      + destruct stop; [exact V'|apply IH, V'].
    - cbn [split_wait]. cbv zeta. eapply ok_bind; [apply (redraws_valid n), V|]. intros p2 V2. apply IH, V2.
    - apply IH, V.
  Qed.
End Index.

Lemma run_valid rx f len w hh a b evs : ok inrange (end_valid 2) (split_run rx f len w hh a b evs).
Proof.
  unfold split_run. destruct (build a b) as [dm|]; [|discriminate]. cbv zeta.
  assert (V : valid 2 (setSelection dm (mkSplit [new_win a; new_win b] 0 []) (Some (nid a)))) by (split; [reflexivity|cbn; lia]).
  eapply ok_bind; [apply (redraws_valid _ _ 2), V|]. intros p V'. apply wait_valid; [lia|exact V'].
Qed.
Lemma run_two_windows rx f len w hh a b evs :
  split_run rx f len w hh a b evs <> Bad Range /\
  forall e, split_run rx f len w hh a b evs = Done e -> two_windows (end_split e).
Proof.
  assert (V := run_valid rx f len w hh a b evs). split; [intros E; rewrite E in V; exact (V eq_refl)|].
  intros e E. rewrite E in V. unfold two_windows. destruct e as [sc p|sc p]; destruct V; cbn; split; auto; lia.
Qed.

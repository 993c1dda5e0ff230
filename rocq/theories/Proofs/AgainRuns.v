(** Whole runs: what waits is settled. *)
From Verif Require Import Spec.AgainSpec Spec.ViewerSpec Proofs.ViewProofs.
From Verif Require Proofs.AgainProofs Proofs.LineProofs.
From Coq Require Import Lia ZifyBool.
Open Scope Z_scope.

Section Runs.
  Variable (rx : bytes -> bool -> bytes -> bool) (root : node).

  Lemma loop_settled f : forall sc v v', two_lines (sh sc) -> redraw_loop root f sc v = Some v' -> settled root sc v'.
  Proof.
    induction f as [|f IH]; intros sc v v' T E; cbn [redraw_loop] in E; [discriminate|].
    destruct (redraw root sc v) as [[[] v1]|] eqn:R; cbn [obind] in E; [|apply (IH _ _ _ T E)|discriminate].
    injection E as <-. apply (AgainProofs.redraw_again root sc T _ _ R).
  Qed.
  Lemma settled_loop sc v : settled root sc v -> redraw_loop root (fuel_of root) sc v = Some v.
  Proof. intros S. unfold fuel_of. cbn [Nat.add redraw_loop]. rewrite S. reflexivity. Qed.

  (** Settled, or without a row known below the selection. *)
  Definition calm (sc : screen) (v : view) : Prop := vdown v = None \/ settled root sc v.
  Lemma once_calm sc v b v' : two_lines (sh sc) -> redraw root sc v = Some (b, v') -> calm sc v'.
  Proof. intros T E. destruct b; [right; apply (AgainProofs.redraw_again root sc T _ _ E)|left; apply (redraw_false _ _ _ _ E)]. Qed.

  Lemma next_calm sc v v' : two_lines (sh sc) -> nextResult root sc v = Some (NextInput, v') -> calm sc v'.
  Proof.
    intros T. unfold nextResult. destruct (vres v) as [|r l].
    - destruct (redraw root sc v) as [[b x]|] eqn:R; [|discriminate]. intros [= <-]. apply (once_calm _ _ _ _ T R).
    - destruct (snd (jump (r :: l) (vsel v) root false)) as [q|]; [destruct (unfold _ _ _ _); discriminate|].
      destruct (unfold _ _ _ _) as [c|]; [|discriminate]. cbn [obind]. destruct (redraw root sc _) as [[b x]|] eqn:R; [|discriminate]. intros [= <-]. apply (once_calm _ _ _ _ T R).
  Qed.
  Lemma key_calm sc k p v v' : two_lines (sh sc) -> calm sc v -> evalKey root rx sc k p v = Some (NextInput, v') -> calm sc v'.
  Proof.
    intros T C H. destruct (beqb k (str "/")) eqn:K1.
    - apply beqb_eq in K1. subst k. change (initSearch root rx p sc v = Some (NextInput, v')) in H. unfold initSearch in H.
      destruct p as [p|]; [|discriminate]. destruct (isEmpty p); [discriminate|]. apply (next_calm _ _ _ T H).
    - destruct (beqb k (str "N")) eqn:K2.
      + apply beqb_eq in K2. subst k. apply (next_calm _ _ _ T H).
      + rewrite (LineProofs.quiet_keys _ _ _ _ _ _ _ K1 K2 H). exact C.
  Qed.

  Lemma wait_calm : forall evs sc v stop sc' v' stop', two_lines (sh sc) -> all_two_lines evs -> calm sc v ->
    wait rx root sc v stop evs = Waiting sc' v' stop' -> two_lines (sh sc') /\ calm sc' v'.
  Proof.
    induction evs as [|[k p|w hh|] t IH]; intros sc v stop sc' v' stop' T A C H; cbn [wait] in H.
    - injection H as <- <- <-. auto.
    - assert (A' : all_two_lines t) by (intros x y Q; apply (A x y); right; exact Q).
      destruct (evalKey root rx sc k p v) as [[o v1]|] eqn:E; [|discriminate]. destruct o; try discriminate.
      3: destruct stop; [discriminate|]; apply (IH _ _ _ _ _ _ T A' (key_calm _ _ _ _ _ T C E) H).
      all: destruct (redraw_loop root (fuel_of root) sc v1) as [v2|] eqn:L; [|discriminate]; destruct stop; [discriminate|];
        apply (IH _ _ _ _ _ _ T A' (or_intror (loop_settled _ _ _ _ T L)) H).
    - assert (A' : all_two_lines t) by (intros x y Q; apply (A x y); right; exact Q).
      assert (T' : two_lines (sh (mkScreen w hh (slen sc)))) by (apply (A w hh); left; reflexivity).
      destruct (redraw_loop root (fuel_of root) (mkScreen w hh (slen sc)) v) as [v2|] eqn:L; [|discriminate].
      apply (IH _ _ _ _ _ _ T' A' (or_intror (loop_settled _ _ _ _ T' L)) H).
    - assert (A' : all_two_lines t) by (intros x y Q; apply (A x y); right; exact Q). apply (IH _ _ _ _ _ _ T A' C H).
  Qed.
  Lemma wait_settled : forall evs sc v stop sc' v' stop', two_lines (sh sc) -> all_two_lines evs -> unsearched evs -> settled root sc v ->
    wait rx root sc v stop evs = Waiting sc' v' stop' -> settled root sc' v'.
  Proof.
    induction evs as [|[k p|w hh|] t IH]; intros sc v stop sc' v' stop' T A U C H; cbn [wait] in H.
    - injection H as <- <- <-. auto.
    - assert (A' : all_two_lines t) by (intros x y Q; apply (A x y); right; exact Q). assert (U' : unsearched t) by (intros x y Q; apply (U x y); right; exact Q).
      destruct (evalKey root rx sc k p v) as [[o v1]|] eqn:E; [|discriminate]. destruct o; try discriminate.
      3: destruct stop; [discriminate|]; destruct (U k p (or_introl eq_refl)) as [U1 U2].
      3: assert (v1 = v) as -> by (refine (LineProofs.quiet_keys _ _ _ _ _ _ _ _ _ E); apply Bool.not_true_is_false; intros Q; apply beqb_eq in Q; contradiction).
      3: apply (IH _ _ _ _ _ _ T A' U' C H).
      all: destruct (redraw_loop root (fuel_of root) sc v1) as [v2|] eqn:L; [|discriminate]; destruct stop; [discriminate|];
        apply (IH _ _ _ _ _ _ T A' U' (loop_settled _ _ _ _ T L) H).
    - assert (A' : all_two_lines t) by (intros x y Q; apply (A x y); right; exact Q). assert (U' : unsearched t) by (intros x y Q; apply (U x y); right; exact Q).
      assert (T' : two_lines (sh (mkScreen w hh (slen sc)))) by (apply (A w hh); left; reflexivity).
      destruct (redraw_loop root (fuel_of root) (mkScreen w hh (slen sc)) v) as [v2|] eqn:L; [|discriminate].
      apply (IH _ _ _ _ _ _ T' A' U' (loop_settled _ _ _ _ T' L) H).
    - assert (A' : all_two_lines t) by (intros x y Q; apply (A x y); right; exact Q). assert (U' : unsearched t) by (intros x y Q; apply (U x y); right; exact Q).
      apply (IH _ _ _ _ _ _ T A' U' C H).
  Qed.

  Lemma run_settled sc v0 evs sc' v stop : two_lines (sh sc) -> all_two_lines evs -> run rx root sc v0 evs = Waiting sc' v stop ->
    unsearched evs \/ vdown v <> None -> settled root sc' v.
  Proof.
    intros T A R O. unfold run in R. destruct (redraw_loop root (fuel_of root) sc _) as [v1|] eqn:L; [|discriminate]. apply loop_settled in L; [|exact T].
    destruct O as [U|N]; [apply (wait_settled _ _ _ _ _ _ _ T A U L R)|]. destruct (wait_calm _ _ _ _ _ _ _ T A (or_intror L) R) as (_ & [Q|Q]); [contradiction|exact Q].
  Qed.

  (** What is settled does not notice a size that is the same. *)
  Lemma same_size sc v stop evs : settled root sc v -> wait rx root sc v stop (EvSize (sw sc) (sh sc) :: evs) = wait rx root sc v stop evs.
  Proof. intros S. cbn [wait]. replace (mkScreen (sw sc) (sh sc) (slen sc)) with sc by (destruct sc; reflexivity). rewrite (settled_loop _ _ S). reflexivity. Qed.
  Lemma continued_as_resized sc v stop w hh evs : settled root sc v -> wait rx root sc v stop (continued sc w hh ++ evs) = wait rx root sc v stop (EvSize w hh :: evs).
  Proof.
    intros S. unfold continued. destruct (negb (hh =? sh sc) || negb (w =? sw sc)) eqn:B; [reflexivity|]. assert (hh = sh sc /\ w = sw sc) as [-> ->] by lia.
    symmetry. apply same_size, S.
  Qed.

  Lemma wait_app a : forall b sc v stop sc' v' stop', wait rx root sc v stop a = Waiting sc' v' stop' -> wait rx root sc v stop (a ++ b) = wait rx root sc' v' stop' b.
  Proof.
    induction a as [|[k p|w hh|] t IH]; intros b sc v stop sc' v' stop' H; cbn [wait app] in *.
    - injection H as <- <- <-. reflexivity.
    - destruct (evalKey root rx sc k p v) as [[[] v1]|]; try discriminate;
        try (destruct (redraw_loop root (fuel_of root) sc v1); [|discriminate]); destruct stop; try discriminate; apply IH, H.
    - destruct (redraw_loop root (fuel_of root) _ v); [|discriminate]. apply IH, H.
    - apply IH, H.
  Qed.
  Lemma run_app sc v0 a b sc' v' stop' : run rx root sc v0 a = Waiting sc' v' stop' -> run rx root sc v0 (a ++ b) = wait rx root sc' v' stop' b.
  Proof. unfold run. destruct (redraw_loop _ _ _ _); [|discriminate]. apply wait_app. Qed.

  Lemma run_same_size sc v0 evs sc' v stop rest : two_lines (sh sc) -> all_two_lines evs -> run rx root sc v0 evs = Waiting sc' v stop ->
    unsearched evs \/ vdown v <> None -> run rx root sc v0 (evs ++ EvSize (sw sc') (sh sc') :: rest) = run rx root sc v0 (evs ++ rest).
  Proof. intros T A R O. assert (S := run_settled _ _ _ _ _ _ T A R O). rewrite !(run_app _ _ _ _ _ _ _ R). apply same_size, S. Qed.
  Lemma run_continued sc v0 evs sc' v stop w hh rest : two_lines (sh sc) -> all_two_lines evs -> run rx root sc v0 evs = Waiting sc' v stop ->
    unsearched evs \/ vdown v <> None -> run rx root sc v0 (evs ++ continued sc' w hh ++ rest) = run rx root sc v0 (evs ++ EvSize w hh :: rest).
  Proof. intros T A R O. assert (S := run_settled _ _ _ _ _ _ T A R O). rewrite !(run_app _ _ _ _ _ _ _ R). apply continued_as_resized, S. Qed.
End Runs.

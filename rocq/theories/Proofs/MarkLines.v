(** The marks of the comparison are below the title. *)
From Verif Require Export Proofs.SplitMarks.
From Coq Require Import Lia ZifyBool.
Open Scope Z_scope.

Section Lines.
  Variable (h : list elem) (dm : mat) (sc : screen) (coll : list Z).
  Definition low (w : win) : Prop := 1 <= wy w /\ forall q, In q (wmarks w) -> 1 <= fst q.
  Definition lows {A} (r : A * win) : Prop := low (snd r).

  Lemma check_low e w : low w -> low (check h e w).
  Proof.
    intros H. unfold check. destruct (negb (wfound w)).
    - destruct (sel_is _ _); [destruct (wy w <=? wscroll w); exact H|]. destruct (negb _); exact H.
    - destruct (wdown w); [exact H|]. cbv zeta. destruct (lookup _ _); [|exact H]. destruct (negb _); exact H.
  Qed.
  Lemma line_low w y : low w -> 1 <= y -> low (set_wy w y).
  Proof. intros (_ & B) Y. split; [exact Y|exact B]. Qed.
  Lemma mark_low line o w : low w -> 1 <= line -> low (displayDiffOp line o w).
  Proof.
    intros (A & B) L. unfold displayDiffOp. assert (X : low (add_mark w (line, o))) by (split; [exact A|]; intros q [<-|Q]; [exact L|exact (B q Q)]).
    destruct o; try exact X. split; assumption.
  Qed.
  Lemma put_low a i c d e w : low w -> ok any low (put dm a i c d e w).
  Proof.
    intros H. unfold put. assert (L : low (add_log w (i, c, wy w))) by exact H. destruct (wy w <=? wscroll w) eqn:E; [apply line_low; [exact L|destruct H; lia]|].
    destruct (getNbLines _ _) as [k|] eqn:K; [|exact Logic.I]. apply nb_pos in K. cbn [lift SplitView.bind ok]. destruct H as (A & B). apply line_low; [|lia]. apply mark_low; [exact L|]. destruct a; lia.
  Qed.
  Lemma open_low n w : low w -> ok any lows (open_container sc coll dm n w).
  Proof.
    intros H. unfold open_container. destruct (mem _ _); (eapply ok_bind; [apply put_low; exact H|]); intros w' T'; [exact T'|]. destruct (bottom _ _); exact T'.
  Qed.
  Lemma elem_low e w : low w -> ok any lows (draw_elem h sc coll dm e w).
  Proof.
    intros H. unfold draw_elem. assert (C := check_low e w H). set (w1 := check h e w) in *. clearbody w1. cbv zeta.
    destruct e as [n|m k v].
    - destruct (is_container n); [apply open_low; assumption|]. eapply ok_bind; [apply put_low; exact C|]. intros w' E. exact E.
    - unfold draw_entry.
      assert (LG : forall l, low (set_wy (add_log w1 l) (wy w1 + 1))) by (intros l; apply line_low; [exact C|destruct C; lia]).
      assert (KA : forall tx l, ok any lows (r <~ key_after sc dm (EEntry m k v) tx l w1 ; let '(b, w) := r in Done (b && negb (bottom sc w), w))).
      { intros tx l. eapply ok_bind with (P := lows); [|intros [b w'] E; exact E]. unfold key_after. destruct (_ <=? _); [exact (LG _)|].
        eapply ok_bind; [apply put_low; exact C|]. intros w' E. exact E. }
      destruct (_ && _); [apply KA|]. destruct (negb _); [apply KA|]. destruct (children v); [apply KA|].
      eapply ok_bind with (P := lows).
      + unfold key_alone. destruct (_ <=? _); [exact (LG _)|]. eapply ok_bind; [apply put_low; exact C|]. intros w' E. exact E.
      + intros [[|] w'] E; [|exact E]. eapply ok_bind; [apply open_low; exact E|]. intros r E'. exact E'.
  Qed.
  Lemma next_low w : low w -> ok any lows (draw_next h sc coll dm w).
  Proof.
    intros H. unfold draw_next. destruct (wstack w) as [|[i c] t]; [apply elem_low, H|]. destruct (_ =? _).
    - unfold close_container. eapply ok_bind; [apply put_low; exact H|]. intros w' E. exact E.
    - destruct (nth_error _ _); [|exact Logic.I]. apply elem_low, H.
  Qed.
  Lemma one_low w : low w -> ok any lows (one_item h sc coll dm w).
  Proof.
    intros T. unfold one_item. eapply ok_bind; [apply next_low, T|]. intros [r w'] K. unfold lows in K. cbn [snd] in K.
    destruct (_ || _); [|exact K]. destruct (_ && _); [exact K|].
    eapply ok_bind with (P := fun _ => True); [|intros d _; exact K].
    destruct (wdown w'); [exact Logic.I|]. eapply ok_bind with (P := fun _ => True); [apply ok_true|]. intros x _. apply ok_true.
  Qed.
  Lemma added_low f : forall w, low w -> ok any lows (added_items h sc coll dm f w).
  Proof.
    induction f as [|f IH]; intros w T; [exact Logic.I|]. cbn [added_items]. eapply ok_bind; [apply one_low, T|]. intros [[[|]|] w'] K; try exact K.
    eapply ok_bind with (P := fun _ => True); [apply ok_true|]. intros [|] _; [|exact K]. apply IH, K.
  Qed.
  Lemma gap_low k : forall w, low w -> low (gap_lines k w).
  Proof.
    induction k as [|k IH]; intros w T; [exact T|]. cbn [gap_lines]. apply IH. apply line_low; [|destruct T; lia]. apply mark_low; [exact T|apply T].
  Qed.

  Definition all_low (ps : list part) : Prop := Forall (fun p => low (fst p)) ps.
  Lemma gap_all_low f after : forall before, all_low before -> all_low after ->
    ok any (fun r => match r with None => True | Some (_, ps) => all_low ps end) (display_gap h sc coll dm f before after).
  Proof.
    induction after as [|[w busy] t IH]; intros before TB TA; [exact Logic.I|]. cbn [display_gap]. inversion TA as [|p ps H F]; subst. cbn [fst] in H.
    destruct (if busy then next_added dm w else Done false) as [[|]|] eqn:NA; cbn [SplitView.bind]; [| |exact Logic.I].
    - assert (X : forall k ls, all_low ls -> all_low (map (fun p : part => (gap_lines k (fst p), snd p)) ls)) by (intros k ls Q; apply Forall_map; eapply Forall_impl; [|exact Q]; intros q; apply gap_low).
      eapply ok_bind; [apply added_low, H|]. intros [[fin|] w'] K; unfold ok.
      + apply Forall_app. split; [apply X, TB|]. constructor; [exact K|apply X, F].
      + apply Forall_app. split; [exact TB|]. constructor; [exact K|exact F].
    - apply IH; [|exact F]. apply Forall_app. split; [exact TB|]. constructor; [exact H|constructor].
  Qed.
  Lemma display_low ps : forall mx, 0 <= mx -> all_low ps ->
    ok any (fun r => let '(b, l, mx') := r in 0 <= mx' /\ Forall (fun p => low (fst (fst p)) /\ 1 <= snd p) l) (display h sc coll dm ps mx).
  Proof.
    induction ps as [|[w busy] t IH]; intros mx M T; [split; [exact M|constructor]|]. inversion T as [|p ps H F]; subst. cbn [display fst] in *. destruct busy.
    - eapply ok_bind; [apply one_low, H|]. intros [[fin|] w'] K.
      + eapply ok_bind; [apply IH; [lia|exact F]|]. intros [[b l] mx'] (C & D). split; [exact C|]. constructor; [split; [exact K|apply H]|exact D].
      + split; [exact M|]. constructor; [split; [exact K|apply H]|]. apply Forall_map. eapply Forall_impl; [|exact F]. intros q Q. split; [exact Q|apply Q].
    - eapply ok_bind; [apply IH; [exact M|exact F]|]. intros [[b l] mx'] (C & D). split; [exact C|]. constructor; [split; [exact H|apply H]|exact D].
  Qed.
  Lemma items_low f : forall ps, all_low ps -> ok any (fun r => Forall low (snd r)) (redraw_items h sc coll dm f ps).
  Proof.
    induction f as [|f IH]; intros ps T; [exact Logic.I|]. cbn [redraw_items]. destruct (existsb snd ps); [|apply Forall_map, T].
    eapply ok_bind; [apply (gap_all_low (S f) ps [] (Forall_nil _) T)|]. intros [[[|] ps']|] H.
    - apply IH, H.
    - apply Forall_map, H.
    - eapply ok_bind; [apply (display_low ps 0 (Z.le_refl 0) T)|]. intros [[b l] mx] (M & C). destruct b.
      + apply IH, Forall_map. eapply Forall_impl; [|exact C]. intros q (Q1 & Q2). apply line_low; [exact Q1|lia].
      + apply Forall_map. eapply Forall_impl; [|exact C]. intros q Q. apply Q.
  Qed.
  Lemma redraw_low ws : ok any (fun r => Forall low (snd r)) (redraw_all h sc coll dm ws).
  Proof. apply items_low, Forall_map, Forall_forall. intros w _. split; [cbn; lia|intros q []]. Qed.
End Lines.

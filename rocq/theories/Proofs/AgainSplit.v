(** Drawing a comparison again. *)
From Verif Require Import Model.SimpleText Proofs.SplitLoop Proofs.DrawProofs.
From Coq Require Import Lia ZifyBool.
Open Scope Z_scope.

Definition lower (F : Z) (w : win) : win := set_wscroll w F.
Lemma lower_same w : lower (wscroll w) w = w.
Proof. destruct w; reflexivity. Qed.

(** The window will end with scrollTop [F]. *)
Definition towards (F : Z) (w : win) : Prop := F = wscroll w \/ (F < wscroll w /\ wfound w = false /\ wy w <= F + 1).
Lemma towards_back F w v : keeps w v -> towards F v -> towards F w.
Proof.
  intros (K1 & K2 & K3) [T|(T1 & T2 & T3)]; unfold towards.
  - destruct K3 as [K3|(K3 & K4 & K5)]; [left; lia|]. destruct (Z.eq_dec F (wscroll w)); [left; assumption|right]. split; [lia|]. split; [exact K3|lia].
  - right. destruct K3 as [K3|(K3 & K4 & K5)]; [|congruence]. split; [lia|]. split; [destruct (wfound w); [specialize (K2 eq_refl); congruence|reflexivity]|lia].
Qed.

Section Again.
  Variable (h : list elem) (sc : screen) (coll : list Z) (dm : mat).
  Hypothesis HS : 2 <= sh sc < 2 ^ 32.

  Lemma not_bottom F w : F <= wscroll w -> wy w <= F + 1 -> bottom sc w = false.
  Proof. intros A B. unfold bottom, hasReachedBottom, usub. rewrite Z.mod_small by lia. lia. Qed.

  (** What a part of the drawing does above the window. *)
  Definition follows (F : Z) (X : win -> out (bool * win)) : Prop := forall w b v, F < wscroll w -> X w = Done (b, v) ->
    wscroll v = wscroll w /\ wfound v = wfound w /\ wy w <= wy v /\ (wy v <= F + 1 -> X (lower F w) = Done (b, lower F v)).

  Lemma put_follows F s i c len mw w v : F < wscroll w -> put dm s i c len mw w = Done v ->
    wscroll v = wscroll w /\ wfound v = wfound w /\ wy w <= wy v /\ (wy v <= F + 1 -> wy w <= F /\ put dm s i c len mw (lower F w) = Done (lower F v)).
  Proof.
    intros L. unfold put. destruct (wy w <=? wscroll w) eqn:Q.
    - intros [= <-]. cbn [wscroll wfound wy set_wy add_log lower set_wscroll]. split; [reflexivity|]. split; [reflexivity|]. split; [lia|]. intros Y. split; [lia|].
      assert (Z : wy w <=? F = true) by lia. rewrite Z. reflexivity.
    - destruct (getNbLines _ _) as [k|] eqn:K; [|discriminate]. cbn [lift SplitView.bind]. intros E. apply nb_nonneg in K.
      assert (A : wscroll v = wscroll w /\ wfound v = wfound w /\ wy v = wy w + k).
      { injection E as <-. unfold displayDiffOp. destruct (shown_op dm i); cbn; auto. }
      destruct A as (A1 & A2 & A3). split; [exact A1|]. split; [exact A2|]. split; [lia|]. lia.
  Qed.

  (** Printing, then the cursor moves. *)
  Lemma text_follows F e tx s i c len mw w v : F < wscroll w -> put dm s i c len mw (prints e tx w) = Done v ->
    wscroll v = wscroll w /\ wfound v = wfound w /\ wy w <= wy v /\ (wy v <= F + 1 -> put dm s i c len mw (prints e tx (lower F w)) = Done (lower F v)).
  Proof.
    intros L E. destruct (put_follows F s i c len mw (prints e tx w) v L E) as (A1 & A2 & A3 & A4). cbn [prints wscroll wfound wy] in A1, A2, A3.
    split; [exact A1|]. split; [exact A2|]. split; [exact A3|]. intros Y. destruct (A4 Y) as (B1 & B2). cbn [prints wy] in B1.
    replace (prints e tx (lower F w)) with (lower F (prints e tx w)); [exact B2|]. unfold prints, lower, set_wscroll. cbn [wroot wsel wlast wup wdown wres wscroll wx wy wstack wfound wlog wmarks wcells].
    assert (Z1 : wy w <=? F = true) by lia. assert (Z2 : wy w <=? wscroll w = true) by lia. rewrite Z1, Z2. reflexivity.
  Qed.

  (** A printing whose last act is to look for the bottom. *)
  Lemma line_follows F e tx s i c len mw : follows F (fun w => w <~ put dm s i c len mw (prints e tx w) ; Done (negb (bottom sc w), w)).
  Proof.
    intros w b v L E. destruct (put dm s i c len mw (prints e tx w)) as [u|] eqn:P; [|discriminate E]. cbn [SplitView.bind] in E. injection E as <- <-.
    destruct (text_follows F _ _ _ _ _ _ _ _ _ L P) as (A1 & A2 & A3 & A4). split; [exact A1|]. split; [exact A2|]. split; [exact A3|]. intros Y. rewrite (A4 Y). cbn [SplitView.bind].
    rewrite (not_bottom F u) by lia. rewrite (not_bottom F (lower F u)) by (cbn; lia). reflexivity.
  Qed.

  Lemma close_follows F n : follows F (close_container sc dm n).
  Proof. intros w b v L E. apply (line_follows F (ENode n) _ true (nid n) true 1 (inner sc) (set_wx w (wx w - INDENT_LEVEL)) b v L E). Qed.

  Lemma open_follows F n : follows F (open_container sc coll dm n).
  Proof.
    intros w b v L E. unfold open_container in *. destruct (mem (nid n) coll); [apply (line_follows F (ENode n) _ false (nid n) false 7 (inner sc) w b v L E)|].
    destruct (put dm true (nid n) false 1 (inner sc) _) as [u|] eqn:P; [|discriminate E]. cbn [SplitView.bind] in E.
    destruct (text_follows F _ _ _ _ _ _ _ _ _ L P) as (A1 & A2 & A3 & A4).
    assert (W : wscroll v = wscroll u /\ wfound v = wfound u /\ wy v = wy u) by (destruct (bottom sc u); injection E as <- <-; auto). destruct W as (W1 & W2 & W3).
    split; [congruence|]. split; [congruence|]. split; [lia|]. intros Y. rewrite (A4 ltac:(lia)). cbn [SplitView.bind].
    rewrite (not_bottom F u) in E by lia. rewrite (not_bottom F (lower F u)) by (cbn; lia). injection E as <- <-. reflexivity.
  Qed.

  Lemma alone_follows F e : follows F (key_alone sc dm e).
  Proof.
    intros w b v L E. unfold key_alone in *. destruct (wy w <=? wscroll w) eqn:Q.
    - injection E as <- <-. cbn [wscroll wfound wy set_wy add_log]. split; [reflexivity|]. split; [reflexivity|]. split; [lia|]. intros Y.
      cbn [lower set_wscroll wy wscroll]. assert (Z : wy w <=? F = true) by lia. rewrite Z. reflexivity.
    - destruct (line_follows F e (key_texts e) false (eid e) false (slen sc e) (usub (usub (sw sc) 2) 2) w b v L E) as (A1 & A2 & A3 & A4).
      split; [exact A1|]. split; [exact A2|]. split; [exact A3|]. lia.
  Qed.
  Lemma after_follows F e tx len : follows F (key_after sc dm e tx len).
  Proof.
    intros w b v L E. unfold key_after in *. destruct (wy w <=? wscroll w) eqn:Q.
    - injection E as <- <-. cbn [wscroll wfound wy set_wy add_log]. split; [reflexivity|]. split; [reflexivity|]. split; [lia|]. intros Y.
      cbn [lower set_wscroll wy wscroll]. assert (Z : wy w <=? F = true) by lia. rewrite Z. reflexivity.
    - destruct (line_follows F e (key_texts e ++ [(node_type (value_of e), c_str tx)]) false (eid e) false (slen sc e + 2 + len) (inner sc) w b v L E) as (A1 & A2 & A3 & A4).
      split; [exact A1|]. split; [exact A2|]. split; [exact A3|]. lia.
  Qed.

  Lemma entry_follows F m k n : follows F (draw_entry sc coll dm m k n).
  Proof.
    assert (INL : forall tx len, follows F (fun w => r <~ key_after sc dm (EEntry m k n) tx len w ; let '(b, w) := r in Done (b && negb (bottom sc w), w))).
    { intros tx len w b v L E. destruct (key_after sc dm (EEntry m k n) tx len w) as [[b1 u]|] eqn:P; [|discriminate E]. cbn [SplitView.bind] in E. injection E as <- <-.
      destruct (after_follows F _ _ _ _ _ _ L P) as (A1 & A2 & A3 & A4). split; [exact A1|]. split; [exact A2|]. split; [exact A3|]. intros Y. rewrite (A4 Y). cbn [SplitView.bind].
      rewrite (not_bottom F u) by lia. rewrite (not_bottom F (lower F u)) by (cbn; lia). reflexivity. }
    intros w b v L E. unfold draw_entry in *. cbv zeta in *.
    destruct (is_container n && mem (nid n) coll); [apply (INL _ _ w b v L E)|]. destruct (negb (is_container n)); [apply (INL _ _ w b v L E)|].
    destruct (children n); [apply (INL _ _ w b v L E)|].
    destruct (key_alone sc dm (EEntry m k n) w) as [[b1 u]|] eqn:P; [|discriminate E]. cbn [SplitView.bind] in E.
    destruct (alone_follows F _ _ _ _ L P) as (A1 & A2 & A3 & A4). destruct b1.
    - destruct (open_container sc coll dm n u) as [[b2 x]|] eqn:P2; [|discriminate E]. cbn [SplitView.bind snd] in E. injection E as <- <-.
      destruct (open_follows F n u _ _ ltac:(lia) P2) as (B1 & B2 & B3 & B4). split; [congruence|]. split; [congruence|]. split; [lia|]. intros Y.
      rewrite (A4 ltac:(lia)). cbn [SplitView.bind]. rewrite (B4 Y). cbn [SplitView.bind snd].
      rewrite (not_bottom F x) by lia. rewrite (not_bottom F (lower F x)) by (cbn; lia). reflexivity.
    - injection E as <- <-. split; [exact A1|]. split; [exact A2|]. split; [exact A3|]. intros Y. rewrite (A4 Y). reflexivity.
  Qed.

  (** checkSelection started from a lower scrollTop. *)
  Lemma check_at F e w : F < wscroll w -> 1 <= wy w -> wfound w = false -> wy w <= F + 1 ->
    (wfound (check h e w) = false /\ wscroll (check h e w) = wscroll w /\ wy (check h e w) = wy w /\ check h e (lower F w) = lower F (check h e w)) \/
    (wfound (check h e w) = true /\ wscroll (check h e w) = wy w - 1 /\ (F = wy w - 1 -> check h e (lower F w) = check h e w)).
  Proof.
    intros L Y FO YF. unfold check. cbn [lower set_wscroll wfound wlast wy wscroll]. rewrite FO. cbn [negb]. destruct (sel_is (wlast w) (eid e)).
    - right. assert (Z : wy w <=? wscroll w = true) by lia. assert (Z0 : wy w =? 0 = false) by lia. rewrite Z, Z0. cbn [set_wfound set_wscroll wfound wscroll].
      split; [reflexivity|]. split; [reflexivity|]. intros ->. assert (Z1 : wy w <=? wy w - 1 = false) by lia. rewrite Z1. reflexivity.
    - left. destruct (negb (parent_is_entry h e)); cbn [set_wup wfound wscroll wy]; rewrite ?FO; auto.
  Qed.

  Definition body (e : elem) (w : win) : out (bool * win) :=
    match e with
    | EEntry m k v => draw_entry sc coll dm m k v w
    | ENode n =>
        if is_container n then open_container sc coll dm n w
        else w <~ put dm false (nid n) false (slen sc e) (inner sc) (prints e [(node_type n, c_str (prim_text n))] w) ; Done (negb (bottom sc w), w)
    end.
  Lemma elem_body e w : draw_elem h sc coll dm e w = body e (check h e w).
  Proof. reflexivity. Qed.
  Lemma body_follows F e : follows F (body e).
  Proof.
    intros w b v L E. destruct e as [n|m k x]; cbn [body] in *; [|apply (entry_follows F m k x w b v L E)].
    destruct (is_container n); [apply (open_follows F n w b v L E)|]. apply (line_follows F _ _ _ _ _ _ _ w b v L E).
  Qed.

  Lemma elem_again F e w b v : F < wscroll w -> 1 <= wy w -> wfound w = false -> wy w <= F + 1 -> draw_elem h sc coll dm e w = Done (b, v) -> towards F v ->
    draw_elem h sc coll dm e (lower F w) = Done (b, lower F v).
  Proof.
    intros L Y FO YF E T. rewrite elem_body in *. destruct (check_at F e w L Y FO YF) as [(C1 & C2 & C3 & C4)|(C1 & C2 & C3)].
    - destruct (body_follows F e (check h e w) b v ltac:(lia) E) as (A1 & A2 & A3 & A4). rewrite C4. apply A4. destruct T as [T|(_ & _ & T)]; lia.
    - destruct (body_follows (wscroll (check h e w) - 1) e (check h e w) b v ltac:(lia) E) as (A1 & A2 & _ & _).
      assert (FF : F = wscroll v) by (destruct T as [T|(_ & T & _)]; [exact T|congruence]). rewrite (C3 ltac:(lia)), FF, lower_same. exact E.
  Qed.

  Lemma next_again F w b v : F < wscroll w -> 1 <= wy w -> wfound w = false -> wy w <= F + 1 -> draw_next h sc coll dm w = Done (b, v) -> towards F v ->
    draw_next h sc coll dm (lower F w) = Done (b, lower F v).
  Proof.
    intros L Y FO YF E T. unfold draw_next in *. change (wstack (lower F w)) with (wstack w). change (wroot (lower F w)) with (wroot w).
    destruct (wstack w) as [|[i c] t]; [apply elem_again; assumption|]. destruct (i + 1 =? Z.of_nat (length (children c))).
    - destruct (close_follows F c (set_wstack w t) b v L E) as (A1 & A2 & A3 & A4). cbn [set_wstack wscroll wfound wy] in A1, A2, A3. apply A4. destruct T as [T|(_ & _ & T)]; lia.
    - destruct (nth_error (children c) (Z.to_nat (i + 1))) as [e|]; [|discriminate E].
      apply (elem_again F e (set_wstack w ((i + 1, c) :: t)) b v L Y FO YF E T).
  Qed.

  Lemma item_again F w b v : 1 <= wy w -> one_item h sc coll dm w = Done (Some b, v) -> keeps w v -> towards F v -> (b = true -> F = wscroll v) ->
    one_item h sc coll dm (lower F w) = Done (Some b, lower F v).
  Proof.
    intros Y E K T B. assert (TW := towards_back F w v K T). destruct TW as [->|(L & FO & YF)].
    - rewrite lower_same. assert (V : wscroll w = wscroll v) by (destruct T as [T|(T & _)]; [exact T|]; destruct K as (_ & _ & [K|(_ & _ & K)]); lia). rewrite V, lower_same. exact E.
    - unfold one_item in *. destruct (draw_next h sc coll dm w) as [[r u]|] eqn:D; [|discriminate E]. cbn [SplitView.bind] in E.
      assert (U : wscroll u = wscroll v /\ wfound u = wfound v /\ wy u = wy v /\ (b = false -> u = v)).
      { destruct (negb r || _); [|injection E as <- <-; auto]. destruct (negb r && negb (wfound u)); [discriminate E|].
        match type of E with SplitView.bind ?x _ = _ => destruct x as [down|]; [|discriminate E] end. cbn [SplitView.bind] in E. injection E as <- <-. cbn. split; [reflexivity|]. split; [reflexivity|]. split; [reflexivity|discriminate]. }
      destruct U as (U1 & U2 & U3 & U4).
      assert (TU : towards F u) by (unfold towards; rewrite U1, U2, U3; exact T).
      rewrite (next_again F w r u L Y FO YF D TU). cbn [SplitView.bind]. change (wstack (lower F u)) with (wstack u). change (wfound (lower F u)) with (wfound u).
      destruct (Z.eq_dec F (wscroll v)) as [Q|Q].
      + assert (EU : lower F u = u) by (rewrite Q, <- U1; apply lower_same). assert (EV : lower F v = v) by (rewrite Q; apply lower_same). rewrite EU, EV. exact E.
      + destruct b; [elim Q; apply B; reflexivity|]. rewrite <- (U4 eq_refl) in *. destruct (negb r || _); [|reflexivity].
        destruct (negb r && negb (wfound u)); [discriminate E|]. match type of E with SplitView.bind ?x _ = _ => destruct x as [down|]; [|discriminate E] end. discriminate E.
  Qed.

  Lemma next_added_lower F w : next_added dm (lower F w) = next_added dm w.
  Proof. reflexivity. Qed.
  Lemma gap_lower F k : forall w, gap_lines k (lower F w) = lower F (gap_lines k w).
  Proof. induction k as [|k IH]; intros w; [reflexivity|]. cbn [gap_lines]. exact (IH (set_wy (displayDiffOp (wy w) ORem w) (wy w + 1))). Qed.
End Again.

(** A finished redraw has drawn the selection of every window below its top. *)
From Verif Require Export Proofs.SplitMarks.
From Verif Require Import Proofs.RowProofs.
From Coq Require Import Lia ZifyBool.
Open Scope Z_scope.

Section See.
  Variable (h : list elem) (sc : screen) (coll : list Z) (dm : mat).

  (** Rows still to be drawn. *)
  Definition to_come (st : list (Z * node)) : list Z := flat_map (fun x => rowsL coll (skipn (Z.to_nat (fst x + 1)) (children (snd x)))) st.
  Definition sees (l : Z) (w : win) : Prop :=
    1 <= wy w /\ wlast w = Some l /\ Forall (fun x => -1 <= fst x) (wstack w) /\ (wfound w = true -> drawn_below_top w l).
  Definition tracks (l : Z) (w : win) : Prop := sees l w /\ (wfound w = false -> In l (to_come (wstack w))).
  (** While [e] is drawn, [l] is [e] or found before or to come. *)
  Definition drawing (l : Z) (e : elem) (w : win) : Prop :=
    1 <= wy w /\ wlast w = Some l /\ Forall (fun x => -1 <= fst x) (wstack w) /\
    (wfound w = true -> drawn_below_top w l \/ (l = eid e /\ wscroll w < wy w)) /\
    (wfound w = false -> In l (inside coll (value_of e) ++ to_come (wstack w))).
  Definition begun (l : Z) (n : node) (w : win) : Prop := sees l w /\ (wfound w = false -> In l (inside coll n ++ to_come (wstack w))).
  Definition after_draw (l : Z) (r : bool * win) : Prop := sees l (snd r) /\ (fst r = true -> tracks l (snd r)).

  Lemma check_draws l e w : 1 <= wy w -> wlast w = Some l -> Forall (fun x => -1 <= fst x) (wstack w) -> (wfound w = true -> drawn_below_top w l) ->
    (wfound w = false -> In l (rows_elem coll e ++ to_come (wstack w))) -> drawing l e (check h e w).
  Proof.
    intros Y L F T N. unfold check. destruct (wfound w) eqn:FD; cbn [negb].
    - specialize (T eq_refl). assert (X : drawing l e w) by (split; [exact Y|split; [exact L|split; [exact F|split; [auto|congruence]]]]).
      destruct (wdown w); [exact X|]. cbv zeta. destruct (lookup _ _); [|exact X]. destruct (negb _); exact X.
    - specialize (N eq_refl). rewrite L. cbn [sel_is]. destruct (l =? eid e) eqn:E.
      + apply Z.eqb_eq in E. split; [destruct (_ <=? _); exact Y|]. split; [destruct (_ <=? _); exact L|]. split; [destruct (_ <=? _); exact F|]. split; [|cbn; discriminate]. intros _. right. split; [exact E|].
        destruct (wy w <=? wscroll w) eqn:C; [|cbn; lia]. cbn. destruct (wy w =? 0) eqn:Z0; cbn; lia.
      + assert (X : In l (inside coll (value_of e) ++ to_come (wstack w))). { unfold rows_elem in N. destruct N as [N|N]; [|exact N]. apply Z.eqb_neq in E. congruence. }
        destruct (negb _); (split; [exact Y|]); (split; [exact L|]); (split; [exact F|]); (split; [cbn; congruence|]); intros _; exact X.
  Qed.

  Lemma put_like_ s i c d e w : 1 <= wy w -> ok any (fun w' => 1 <= wy w' /\ wlast w' = wlast w /\ wstack w' = wstack w /\ wfound w' = wfound w /\ wscroll w' = wscroll w /\
    wlog w' = (i, c, wy w) :: wlog w) (put dm s i c d e w).
  Proof.
    intros Y. unfold put. destruct (_ <=? _); [cbn; repeat split; lia|]. destruct (getNbLines _ _) as [k|] eqn:N; [|exact Logic.I]. apply nb_pos in N.
    cbn [lift SplitView.bind ok]. unfold displayDiffOp. destruct (shown_op _ _); cbn; repeat split; lia.
  Qed.
  Lemma below_more l w w' x : wscroll w' = wscroll w -> wlog w' = x :: wlog w -> drawn_below_top w l -> drawn_below_top w' l.
  Proof. intros S L (y & I & B). exists y. rewrite S, L. split; [right; exact I|exact B]. Qed.

  Lemma put_first l e s d f w : drawing l e w -> ok any (begun l (value_of e)) (put dm s (eid e) false d f w).
  Proof.
    intros (Y & L & F & T & N). eapply ok_mono; [apply put_like_, Y|]. intros w' (Y' & E1 & E2 & E3 & E4 & E5). unfold begun, sees. rewrite E1, E2, E3. split; [|exact N].
    split; [exact Y'|]. split; [exact L|]. split; [exact F|]. intros FD. destruct (T FD) as [B|[-> B]]; [apply (below_more l w w' _ E4 E5 B)|].
    exists (wy w). rewrite E4, E5. split; [left; reflexivity|exact B].
  Qed.
  Lemma put_more l n s i c d f w : begun l n w -> ok any (begun l n) (put dm s i c d f w).
  Proof.
    intros ((Y & L & F & T) & N). eapply ok_mono; [apply put_like_, Y|]. intros w' (Y' & E1 & E2 & E3 & E4 & E5). unfold begun, sees. rewrite E1, E2, E3. split; [|exact N].
    split; [exact Y'|]. split; [exact L|]. split; [exact F|]. intros FD. apply (below_more l w w' _ E4 E5 (T FD)).
  Qed.
  Lemma begun_nothing l n w b : begun l n w -> inside coll n = [] -> after_draw l (b, w).
  Proof. intros (S & N) I. rewrite I in N. split; [exact S|]. intros _. split; [exact S|exact N]. Qed.

  (** The container's text written, its children follow. *)
  Lemma open_begun l n w (P : forall e t s d f, ok any (begun l n) (put dm s (nid n) false d f (prints e t w))) : ok any (after_draw l) (open_container sc coll dm n w).
  Proof.
    unfold open_container. destruct (mem (nid n) coll) eqn:C.
    - eapply ok_bind; [apply P|]. intros w' B. apply (begun_nothing l n); [exact B|]. rewrite inside_children, C. reflexivity.
    - eapply ok_bind; [apply P|]. intros w' B. destruct (bottom _ _); [split; [apply B|discriminate]|].
      destruct B as ((Y & L & F & T) & N). rewrite inside_children, C in N.
      assert (S : sees l (set_wx (set_wstack w' ((-1, n) :: wstack w')) (wx w' + INDENT_LEVEL))) by (split; [exact Y|split; [exact L|split; [constructor; [cbn; lia|exact F]|exact T]]]).
      split; [exact S|]. intros _. split; [exact S|exact N].
  Qed.

  Lemma open_result n w : ok any (fun r => fst r = negb (bottom sc (snd r))) (open_container sc coll dm n w).
  Proof.
    unfold open_container. destruct (mem _ _); (eapply ok_bind; [apply ok_true|]); intros w' _; [reflexivity|]. destruct (bottom sc w') eqn:E; cbn; [rewrite E; reflexivity|].
    unfold bottom in *. cbn. rewrite E. reflexivity.
  Qed.
  Lemma prim_inside n : is_container n = false -> inside coll n = [].
  Proof. destruct n; [reflexivity|discriminate..]. Qed.

  Lemma elem_sees l e w : 1 <= wy w -> wlast w = Some l -> Forall (fun x => -1 <= fst x) (wstack w) -> (wfound w = true -> drawn_below_top w l) ->
    (wfound w = false -> In l (rows_elem coll e ++ to_come (wstack w))) -> ok any (after_draw l) (draw_elem h sc coll dm e w).
  Proof.
    intros Y L F T N. unfold draw_elem. assert (D := check_draws l e w Y L F T N). set (w1 := check h e w) in *. clearbody w1. cbv zeta.
    destruct e as [n|m k v].
    - destruct (is_container n) eqn:C; [apply open_begun; intros e t s d f; apply (put_first l (ENode n)), D|].
      eapply ok_bind; [apply (put_first l (ENode n)), D|]. intros w' B. apply (begun_nothing l n); [exact B|apply prim_inside, C].
    - unfold draw_entry.
      assert (KA : inside coll v = [] -> forall tx x, ok any (after_draw l) (r <~ key_after sc dm (EEntry m k v) tx x w1 ; let '(b, w) := r in Done (b && negb (bottom sc w), w))).
      { intros I tx x. eapply ok_bind with (P := after_draw l).
        - unfold key_after. destruct (wy w1 <=? wscroll w1) eqn:C.
          + destruct D as (Y1 & L1 & F1 & T1 & N1). cbn [value_of] in N1. rewrite I in N1.
            assert (S : sees l (set_wy (add_log w1 (eid (EEntry m k v), false, wy w1)) (wy w1 + 1))).
            { split; [cbn; lia|]. split; [exact L1|]. split; [exact F1|]. intros FD. destruct (T1 FD) as [B|[_ B]]; [|lia].
              apply (below_more l w1 _ (eid (EEntry m k v), false, wy w1)); [reflexivity|reflexivity|exact B]. }
            split; [exact S|]. intros _. split; [exact S|exact N1].
          + eapply ok_bind; [apply put_first, D|]. intros w' B. apply (begun_nothing l v); [exact B|exact I].
        - intros [b w'] A. destruct A as [S A]. cbn [fst snd] in *. split; [exact S|]. intros E. apply A. cbn [fst] in E. destruct b; [reflexivity|discriminate]. }
      destruct (is_container v) eqn:CV; cbn [andb negb]; [|apply KA, prim_inside, CV].
      destruct (mem (nid v) coll) eqn:C; [apply KA; rewrite inside_children, C; reflexivity|].
      destruct (children v) as [|x xs] eqn:CH; [apply KA; rewrite inside_children, C, CH; reflexivity|].
      eapply ok_bind with (P := fun r => begun l v (snd r)).
      + unfold key_alone. destruct (wy w1 <=? wscroll w1) eqn:CY.
        * destruct D as (Y1 & L1 & F1 & T1 & N1). split; [|exact N1]. split; [cbn; lia|]. split; [exact L1|]. split; [exact F1|]. intros FD. destruct (T1 FD) as [B|[_ B]]; [|lia].
          cbn [snd]. apply (below_more l w1 _ (eid (EEntry m k v), false, wy w1)); [reflexivity|reflexivity|exact B].
        * eapply ok_bind; [apply put_first, D|]. intros w' B. exact B.
      + intros [[|] w'] B; cbn [snd] in B; [|split; [apply B|discriminate]].
        eapply ok_bind; [apply ok_and; [apply open_begun; intros e t s d f; apply put_more, B|apply open_result]|]. intros [b w''] [[S A] R]. cbn [fst snd] in *. split; [exact S|].
        cbn [fst snd]. intros E. apply A. congruence.
  Qed.
  Lemma next_sees l w : tracks l w \/ (wstack w = [] /\ sees l w /\ wfound w = false /\ In l (rows coll (wroot w))) -> ok any (after_draw l) (draw_next h sc coll dm w).
  Proof.
    intros T. unfold draw_next. destruct (wstack w) as [|[i c] t] eqn:ST.
    - destruct T as [((Y & L & F & T) & N)|(_ & (Y & L & F & T) & NF & I)]; apply elem_sees; try assumption.
      + intros FD. specialize (N FD). rewrite ST in N. destruct N.
      + intros _. apply in_or_app. left. exact I.
    - destruct T as [((Y & L & F & T) & N)|(X & _)]; [|discriminate]. rewrite ST in *. inversion F as [|? ? F1 F2]; subst. cbn [fst] in F1. cbn [to_come flat_map fst snd] in N. fold (to_come t) in N.
      destruct (i + 1 =? Z.of_nat (length (children c))) eqn:E.
      + unfold close_container. rewrite skipn_all2 in N by lia. cbn [rowsL flat_map app] in N.
        eapply ok_bind; [apply (put_more l (NPrim (node_meta c) PNull))|].
        * split; [|exact N]. split; [exact Y|]. split; [exact L|]. split; [exact F2|exact T].
        * intros w' [S B]. split; [exact S|]. intros _. split; [exact S|exact B].
      + destruct (nth_error (children c) (Z.to_nat (i + 1))) as [e|] eqn:NE; [|exact Logic.I]. apply elem_sees; [exact Y|exact L|constructor; [cbn; lia|exact F2]|exact T|].
        intros FD. specialize (N FD). cbn [to_come flat_map wstack set_wstack fst snd]. fold (to_come t).
        assert (SK : skipn (Z.to_nat (i + 1)) (children c) = e :: skipn (Z.to_nat (i + 1 + 1)) (children c)).
        { replace (Z.to_nat (i + 1 + 1)) with (S (Z.to_nat (i + 1))) by lia. clear - NE. revert NE. generalize (Z.to_nat (i + 1)). generalize (children c).
          induction l as [|x l IH]; intros [|n]; try discriminate; [intros [= ->]; reflexivity|apply IH]. }
        rewrite SK in N. cbn [rowsL flat_map] in N. rewrite <- app_assoc in N. exact N.
  Qed.
  Definition after_one (l : Z) (r : option bool * win) : Prop :=
    match fst r with None => True | Some fin => tracks l (snd r) /\ (fin = true -> wfound (snd r) = true) end.
  Definition ready_to (l : Z) (w : win) : Prop := tracks l w \/ (wstack w = [] /\ sees l w /\ wfound w = false /\ In l (rows coll (wroot w))).
  Lemma one_sees l w : ready_to l w -> ok any (after_one l) (one_item h sc coll dm w).
  Proof.
    intros T. unfold one_item. eapply ok_bind; [apply next_sees, T|]. intros [r w'] [S A]. cbn [fst snd] in *.
    destruct (negb r || _) eqn:E; [|split; [apply A; destruct r; [reflexivity|discriminate]|discriminate]].
    destruct (negb r && negb (wfound w')) eqn:E2; [exact Logic.I|].
    assert (X : tracks l w' /\ wfound w' = true).
    { destruct r; cbn [negb andb orb] in *.
      - specialize (A eq_refl). split; [exact A|]. destruct (wfound w') eqn:FD; [reflexivity|]. exfalso. destruct A as [_ N]. specialize (N FD).
        destruct (wstack w'); [destruct N|discriminate].
      - apply negb_false_iff in E2. split; [|exact E2]. split; [exact S|congruence]. }
    eapply ok_bind with (P := fun _ => True); [|intros d _; split; [exact (proj1 X)|intros _; exact (proj2 X)]].
    destruct (wdown w'); [exact Logic.I|]. eapply ok_bind with (P := fun _ => True).
    - destruct (wsel w'); [|exact Logic.I]. destruct (lookup _ _); exact Logic.I.
    - intros [|c t] _; [|exact Logic.I]. destruct (wlast w'); [|exact Logic.I]. eapply ok_bind with (P := fun _ => True); [exact Logic.I|]. intros i _. eapply ok_bind with (P := fun _ => True); [|intros; exact Logic.I]. apply ok_true.
  Qed.
  Lemma added_sees l f : forall w, ready_to l w -> ok any (after_one l) (added_items h sc coll dm f w).
  Proof.
    induction f as [|f IH]; intros w T; [exact Logic.I|]. cbn [added_items]. eapply ok_bind; [apply one_sees, T|]. intros [[[|]|] w'] K; try exact K.
    eapply ok_bind with (P := fun _ => True); [destruct (next_added dm w'); exact Logic.I|]. intros [|] _; [|exact K].
    apply IH. left. exact (proj1 K).
  Qed.

  (** A window of the loop: still to be drawn, or finished. *)
  Definition on_way (l : Z) (p : part) : Prop := if snd p then ready_to l (fst p) else wfound (fst p) = true /\ drawn_below_top (fst p) l.
  Lemma on_way_wy l (w w' : win) busy : 1 <= wy w' -> wlast w' = wlast w -> wstack w' = wstack w -> wfound w' = wfound w -> wscroll w' = wscroll w -> wlog w' = wlog w -> wroot w' = wroot w ->
    on_way l (w, busy) -> on_way l (w', busy).
  Proof.
    intros Y E1 E2 E3 E4 E5 E6. unfold on_way, ready_to, tracks, sees, drawn_below_top. cbn [fst snd]. rewrite E1, E2, E3, E4, E5, E6. destruct busy; [|auto]. tauto.
  Qed.
  Lemma gap_like k : forall w, wy w <= wy (gap_lines k w) /\ wlast (gap_lines k w) = wlast w /\ wstack (gap_lines k w) = wstack w /\ wfound (gap_lines k w) = wfound w /\
    wscroll (gap_lines k w) = wscroll w /\ wlog (gap_lines k w) = wlog w /\ wroot (gap_lines k w) = wroot w.
  Proof.
    induction k as [|k IH]; intros w; [split; [cbn; lia|repeat split]|]. cbn [gap_lines]. destruct (IH (set_wy (displayDiffOp (wy w) ORem w) (wy w + 1))) as (A & B).
    split; [|exact B]. change (wy w + 1 <= wy (gap_lines k (set_wy (displayDiffOp (wy w) ORem w) (wy w + 1)))) in A. lia.
  Qed.
  Lemma gap_on_way l k w busy : on_way l (w, busy) -> on_way l (gap_lines k w, busy).
  Proof.
    intros O. destruct (gap_like k w) as (A & B1 & B2 & B3 & B4 & B5 & B6). destruct busy.
    - eapply on_way_wy; try eassumption. unfold on_way, ready_to, tracks, sees in O. cbn [fst snd] in O. destruct O as [O|O]; lia.
    - unfold on_way, drawn_below_top in *. cbn [fst snd] in *. rewrite B3, B4, B5. exact O.
  Qed.
  Lemma finish_on_way l fin w : tracks l w -> (fin = true -> wfound w = true) -> on_way l (w, negb fin).
  Proof.
    intros T F. destruct fin; cbn; [|left; exact T]. specialize (F eq_refl). split; [exact F|]. destruct T as ((_ & _ & _ & T) & _). apply T, F.
  Qed.

  Definition ways (ls : list Z) (ps : list part) : Prop := Forall2 on_way ls ps.
  Lemma gap_ways f after : forall before ls ls', ways ls before -> ways ls' after ->
    ok any (fun r => match r with Some (true, ps) => ways (ls ++ ls') ps | _ => True end) (display_gap h sc coll dm f before after).
  Proof.
    induction after as [|[w busy] t IH]; intros before ls ls' TB TA; [exact Logic.I|]. cbn [display_gap]. inversion TA as [|l p ls0 ps H F E1 E2]; subst.
    eapply ok_bind with (P := fun a => a = true -> busy = true). { destruct busy; [destruct (next_added dm w); [cbn; auto|exact Logic.I]|cbn; discriminate]. }
    intros [|] B.
    - assert (G : forall k l ls, ways l ls -> ways l (map (fun p : part => (gap_lines k (fst p), snd p)) ls)).
      { intros k x xs. induction 1 as [|b [w' bu] x xs X _ IHl]; constructor; [apply gap_on_way, X|exact IHl]. }
      rewrite (B eq_refl) in *. eapply ok_bind; [apply added_sees, H|]. intros [[fin|] w'] K; [|exact Logic.I]. unfold ok.
      apply Forall2_app; [apply G, TB|]. constructor; [apply finish_on_way; apply K|apply G, F].
    - specialize (IH (before ++ [(w, busy)]) (ls ++ [l]) ls0). rewrite <- app_assoc in IH. apply IH; [|exact F]. apply Forall2_app; [exact TB|]. constructor; [exact H|constructor].
  Qed.
  Lemma way_y l w busy : on_way l (w, busy) -> busy = true -> 1 <= wy w.
  Proof. intros O ->. unfold on_way, ready_to, tracks, sees in O. cbn [fst snd] in O. destruct O as [O|O]; lia. Qed.
  Lemma display_ways ps : forall ls mx, ways ls ps -> 0 <= mx -> ok any (fun r => let '(b, l, mx') := r in
    0 <= mx' /\ if b : bool then Forall2 (fun l p => on_way l (fst p) /\ (snd (fst p) = true -> 1 <= snd p)) ls l else True) (display h sc coll dm ps mx).
  Proof.
    induction ps as [|[w busy] t IH]; intros ls mx T MX; inversion T as [|l p ls0 ps H F E1 E2]; subst.
    - cbn. split; [exact MX|]. constructor.
    - cbn [display]. destruct busy.
      + eapply ok_bind; [apply one_sees, H|]. intros [[fin|] w'] K; [|cbn; auto].
        eapply ok_bind; [apply (IH ls0 _ F); lia|]. intros [[b x] mx'] (A & C). cbn [ok]. split; [exact A|]. destruct b; [|exact Logic.I].
        constructor; [|exact C]. cbn [fst snd]. split; [apply finish_on_way; apply K|]. intros _. apply (way_y l w true H eq_refl).
      + eapply ok_bind; [apply (IH ls0 _ F MX)|]. intros [[b x] mx'] (A & C). cbn [ok]. split; [exact A|]. destruct b; [|exact Logic.I].
        constructor; [|exact C]. cbn [fst snd]. split; [exact H|discriminate].
  Qed.
  Lemma items_sees f : forall ls ps, ways ls ps -> ok any (fun r => fst r = true -> Forall2 (fun l v => drawn_below_top v l) ls (snd r)) (redraw_items h sc coll dm f ps).
  Proof.
    induction f as [|f IH]; intros ls ps T; [exact Logic.I|]. cbn [redraw_items]. destruct (existsb snd ps) eqn:EX.
    - eapply ok_bind; [apply (gap_ways (S f) ps [] [] ls (Forall2_nil _) T)|]. intros [[[|] ps']|] H; cbn [app] in H.
      + apply IH, H.
      + cbn. discriminate.
      + eapply ok_bind; [apply (display_ways ps ls 0 T); lia|]. intros [[b l] mx] (A & C). destruct b; [|cbn; discriminate].
        apply IH. clear - C A. induction C as [|x p ls l H _ IHl]; constructor; [|exact IHl]. destruct H as [H Y]. destruct p as [[w busy] y]. cbn [fst snd] in *. destruct busy.
        * apply (on_way_wy x w); try reflexivity; [cbn; specialize (Y eq_refl); lia|exact H].
        * unfold on_way in *. cbn [fst snd] in *. exact H.
    - cbn. intros _. clear - T EX. induction T as [|l [w busy] ls ps H _ IHl]; cbn [existsb map] in *; constructor.
      + destruct busy; [discriminate|]. apply H.
      + apply IHl. destruct busy; [discriminate|exact EX].
  Qed.
  Lemma redraw_sees ws vs ls : redraw_all h sc coll dm ws = Done (true, vs) -> Forall2 (fun l w => wlast w = Some l /\ In l (rows coll (wroot w))) ls ws ->
    Forall2 (fun l v => drawn_below_top v l) ls vs.
  Proof.
    intros R H. assert (X := items_sees (items_fuel h) ls (map (fun w => (start w, true)) ws)). fold (redraw_all h sc coll dm ws) in X. rewrite R in X. cbn [ok fst snd] in X.
    apply X; [|reflexivity]. clear - H. induction H as [|l w ls ws (L & I) _ IH]; constructor; [|exact IH]. right. split; [reflexivity|]. split; [|split; [reflexivity|exact I]].
    split; [cbn; lia|]. split; [exact L|]. split; [constructor|discriminate].
  Qed.
End See.

(** Two redraws compared: with larger scroll positions a window gets at least as
    far. *)
From Verif Require Export Proofs.SplitLoop.
From Verif Require Import Proofs.RowProofs.
From Coq Require Import Lia ZifyBool.
Open Scope Z_scope.

(** Related results of two computations that end. *)
Definition two {A B} (P : A -> B -> Prop) (m : out A) (n : out B) : Prop :=
  match m, n with Done x, Done y => P x y | _, _ => True end.
Lemma two_bind {A B C E} (P : A -> B -> Prop) (Q : C -> E -> Prop) m n k l :
  two P m n -> (forall x y, P x y -> two Q (k x) (l y)) -> two Q (SplitView.bind m k) (SplitView.bind n l).
Proof. destruct m, n; cbn; auto; intros _ _; destruct (k a); exact Logic.I. Qed.
Lemma two_mono {A B} (P Q : A -> B -> Prop) m n : two P m n -> (forall x y, P x y -> Q x y) -> two Q m n.
Proof. destruct m, n; cbn; auto. Qed.

Lemma two_bad {A B} (P : A -> B -> Prop) m e : two P m (Bad e).
Proof. destruct m; exact Logic.I. Qed.

(** The same point of the document, not below, the selection still to come. *)
Definition sim (w w' : win) : Prop :=
  core w' = core w /\ wx w' = wx w /\ wstack w' = wstack w /\ wfound w = false /\ wfound w' = false /\ wy w' <= wy w.
(** Window [w'] is scrolled at least as far, or up to line [y]. *)
Definition ahead (w w' : win) (y : Z) : Prop := wscroll w <= wscroll w' \/ y <= wscroll w' + 1.

Section Sim.
  Variable (h : list elem) (sc : screen) (coll : list Z) (dm : mat).
  Hypothesis SW : 5 <= sw sc < 2 ^ 32.
  Hypothesis SH : 2 <= sh sc < 2 ^ 32.
  Hypothesis SL : forall e, 0 <= slen sc e.

  (** One call of write in both. *)
  Definition wrote (w w' v v' : win) : Prop :=
    like v w /\ like v' w' /\ wy w + 1 <= wy v /\ wy w' + 1 <= wy v' /\
    (wy w' <= wy w -> ahead w w' (wy v) -> wy v' <= wy v /\ (bottom sc v = false -> bottom sc v' = false)).
  Lemma sim_put s i c len maxw w w' : wx w' = wx w -> 1 <= len + wx w < 2 ^ 32 -> 1 <= maxw < 2 ^ 32 ->
    two (wrote w w') (put dm s i c len maxw w) (put dm s i c len maxw w').
  Proof.
    intros X L W.
    assert (LX : 1 <= len + wx w' < 2 ^ 32) by lia. 
    destruct (nb_some _ _ L W) as (k & K & KB).
    assert (L1 := put_like dm s i c len maxw w L W). assert (L2 := put_like dm s i c len maxw w' LX W).
    assert (V1 : forall v, put dm s i c len maxw w = Done v -> wy v = if wy w <=? wscroll w then wy w + 1 else wy w + k).
    { intros v. unfold put. cbv zeta. destruct (wy w <=? wscroll w); [intros [= <-]; reflexivity|]. rewrite K. cbn. intros [= <-]. unfold displayDiffOp. destruct (shown_op _ _); reflexivity. }
    assert (V2 : forall v, put dm s i c len maxw w' = Done v -> wy v = if wy w' <=? wscroll w' then wy w' + 1 else wy w' + k).
    { intros v. unfold put. cbv zeta. rewrite X. destruct (wy w' <=? wscroll w'); [intros [= <-]; reflexivity|]. rewrite K. cbn. intros [= <-]. unfold displayDiffOp. destruct (shown_op _ _); reflexivity. }
    destruct (put dm s i c len maxw w) as [v|]; [|exact Logic.I]. destruct (put dm s i c len maxw w') as [v'|]; [|exact Logic.I].
    specialize (V1 v eq_refl). specialize (V2 v' eq_refl). destruct L1 as (L1 & B1 & _), L2 as (L2 & B2 & _). cbn [two].
    split; [exact L1|]. split; [exact L2|]. split; [lia|]. split; [lia|]. intros Y A.
    assert (S1 : wscroll v = wscroll w) by apply L1. assert (S2 : wscroll v' = wscroll w') by apply L2.
    unfold bottom, hasReachedBottom, usub. rewrite S1, S2, Z.mod_small by lia. unfold ahead in A. clear L1 L2 K.
    destruct A, (wy w <=? wscroll w) eqn:?, (wy w' <=? wscroll w') eqn:?; lia.
  Qed.

  Lemma sim_prints e t s i c len maxw w w' : wx w' = wx w -> 1 <= len + wx w < 2 ^ 32 -> 1 <= maxw < 2 ^ 32 ->
    two (wrote w w') (put dm s i c len maxw (prints e t w)) (put dm s i c len maxw (prints e t w')).
  Proof. exact (sim_put s i c len maxw (prints e t w) (prints e t w')). Qed.

  Lemma inner_good : 1 <= inner sc < 2 ^ 32.
  Proof. apply inner_ok. exact SW. Qed.

  (** One item in both: when the first finds its selection so does the second;
      when the first goes on so does the second. *)
  Definition drew (w w' : win) (x y : bool * win) : Prop :=
    (wfound (snd x) = true -> wfound (snd y) = true) /\
    (wfound (snd x) = false -> wscroll (snd x) = wscroll w /\ wy w <= wy (snd x)) /\
    (wfound (snd x) = false -> fst x = true -> ahead w w' (wy (snd x)) ->
       fst y = true /\ sim (snd x) (snd y) /\ wscroll (snd y) = wscroll w').

  Lemma check_sim e w w' : sim w w' ->
    let v := check h e w in let v' := check h e w' in
    wfound v' = wfound v /\ wx v = wx w /\ wx v' = wx w /\ wstack v = wstack w /\ wstack v' = wstack w /\ wy v = wy w /\ wy v' = wy w' /\ core v = core w /\ core v' = core w /\
    (wfound v = false -> wscroll v = wscroll w /\ wscroll v' = wscroll w').
  Proof.
    intros (S1 & S2 & S3 & S4 & S5 & S6). cbv zeta. rewrite !check_core, S1. unfold check. rewrite S4, S5. cbn [negb].
    assert (E : wlast w' = wlast w) by (injection S1; auto). rewrite E. destruct (sel_is _ _).
    - destruct (wy w <=? wscroll w), (wy w' <=? wscroll w'); cbn; repeat split; auto; discriminate.
    - destruct (negb _); cbn; rewrite ?S4, ?S5, ?S2, ?S3; repeat split; auto.
  Qed.

  Definition text_of (e : elem) : Z := match e with ENode _ => slen sc e | EEntry _ _ v => slen sc e + slen sc (ENode v) end.
  Lemma sim_elem e w w' : sim w w' -> 0 <= wx w -> text_of e + 16 + wx w < 2 ^ 32 -> 1 <= wx w ->
    two (drew w w') (draw_elem h sc coll dm e w) (draw_elem h sc coll dm e w').
  Proof.
    intros S X0 TB X1. assert (C := check_sim e w w' S). cbv zeta in C. unfold draw_elem. cbv zeta.
    set (w1 := check h e w) in *. set (w1' := check h e w') in *. clearbody w1 w1'. destruct C as (C1 & C2 & C3 & C4 & C5 & C6 & C7 & C8 & C9 & C10).
    destruct S as (_ & _ & _ & _ & _ & SY).
    assert (I := inner_good).
    (* from the window after the check to the whole *)
    assert (FIN : forall (x y : bool * win), like (snd x) w1 /\ like (snd y) w1' /\ wy w1 <= wy (snd x) /\ (fst x = true -> ahead w1 w1' (wy (snd x)) -> fst y = true /\ wy (snd y) <= wy (snd x)) -> drew w w' x y).
    { intros [b v] [b' v'] ((L1 & L2 & L3 & L4 & L5 & L6 & L7) & (K1 & K2 & K3 & K4 & K5 & K6 & K7) & Y & H). cbn [fst snd] in *. unfold drew. cbn [fst snd]. rewrite L7, K7, C1.
      split; [auto|]. split; [intros F; rewrite L4; split; [apply C10, F|lia]|]. intros F B A. destruct (C10 F) as [D1 D2].
      destruct (H B) as [H1 H2]; [unfold ahead in *; rewrite D1, D2; exact A|]. split; [exact H1|]. split; [|congruence]. unfold sim. rewrite L7, K7, C1. repeat split; auto; congruence. }
    assert (ONE : forall e' t s i c len, 0 <= len -> len + wx w < 2 ^ 32 ->
      two (drew w w') (v <~ put dm s i c len (inner sc) (prints e' t w1) ; Done (negb (bottom sc v), v)) (v <~ put dm s i c len (inner sc) (prints e' t w1') ; Done (negb (bottom sc v), v))).
    { intros e' t s i c len L0 L1. eapply two_bind; [apply sim_prints; [lia|lia|exact I]|]. intros v v' (W1 & W2 & W3 & W4 & W5). cbn [two]. apply FIN. cbn [fst snd].
      split; [exact W1|]. split; [exact W2|]. split; [lia|]. intros B A. destruct (W5 ltac:(lia) A) as [W6 W7]. destruct (bottom sc v); [discriminate B|]. rewrite W7 by reflexivity. auto. }
    (* opening a container, possibly below its key *)
    assert (OPEN : forall e' t n u u', like u w1 -> like u' w1' -> wy w1 <= wy u -> (wfound w1 = false -> ahead w w' (wy u) -> wy u' <= wy u) ->
      two (fun x y => drew w w' x y /\ fst x = negb (bottom sc (snd x)) /\ fst y = negb (bottom sc (snd y)))
          (v <~ put dm true (nid n) false 1 (inner sc) (prints e' t u) ; if bottom sc v then Done (false, v) else Done (true, set_wx (set_wstack v ((-1, n) :: wstack v)) (wx v + INDENT_LEVEL)))
          (v <~ put dm true (nid n) false 1 (inner sc) (prints e' t u') ; if bottom sc v then Done (false, v) else Done (true, set_wx (set_wstack v ((-1, n) :: wstack v)) (wx v + INDENT_LEVEL)))).
    { intros e' t n u u' (U1 & U2 & U3 & U4 & U5 & U6 & U7) (V1 & V2 & V3 & V4 & V5 & V6 & V7) Y1 HU.
      assert (T0 : 0 <= text_of e) by (clear - SL; destruct e as [n'|m' k' v']; cbn [text_of]; [apply SL|]; assert (Q1 := SL (ENode v')); assert (Q2 := SL (EEntry m' k' v')); lia).
      eapply two_bind; [apply sim_prints; [lia|lia|exact I]|]. intros v v' ((A1 & A2 & A3 & A4 & A5 & A6 & A7) & (B1 & B2 & B3 & B4 & B5 & B6 & B7) & W3 & W4 & W5).
      assert (CONC : forall x x' : bool * win, wfound (snd x) = wfound v -> wfound (snd x') = wfound v' -> wscroll (snd x) = wscroll v -> wscroll (snd x') = wscroll v' -> wy (snd x) = wy v ->
                (wfound v = false -> fst x = true -> bottom sc v = false -> wy v' <= wy v -> bottom sc v' = false -> fst x' = true /\ sim (snd x) (snd x')) -> (fst x = true -> bottom sc v = false) -> drew w w' x x').
      { intros [b0 x] [b1 x'] F1 F2 E1 E2 EY K KB. cbn [fst snd] in *. unfold drew. cbn [fst snd]. rewrite F1, F2, A7, B7, U7, V7, C1, E1, E2, A4, B4, U4, V4, EY. split; [auto|].
        split; [intros F; split; [apply C10, F|clear - W3 Y1 C6; lia]|]. intros F B A. destruct (C10 F) as [D1 D2]. rewrite D1, D2 in *. 
        assert (HA : ahead w w' (wy u)) by (clear - A W3; unfold ahead in *; lia). specialize (HU F HA).
        destruct W5 as [W6 W7]; [exact HU|clear - A U4 V4 D1 D2; unfold ahead in *; lia|]. assert (BV := KB B).
        destruct (K ltac:(congruence) B BV W6 (W7 BV)) as [K1 K2]. auto. }
      destruct (bottom sc v) eqn:BB, (bottom sc v') eqn:BB'; cbn [two].
      - split; [|cbn [fst snd]; rewrite BB, BB'; auto]. apply CONC; auto. intros _ [=].
      - split; [|cbn [fst snd]; rewrite BB; split; [reflexivity|change (true = negb (bottom sc v')); rewrite BB'; reflexivity]]. apply CONC; auto. intros _ [=].
      - split; [|cbn [fst snd]; rewrite BB'; split; [change (true = negb (bottom sc v)); rewrite BB; reflexivity|reflexivity]]. apply CONC; auto. intros; congruence.
      - split; [|cbn [fst snd]; split; [change (true = negb (bottom sc v)); rewrite BB; reflexivity|change (true = negb (bottom sc v')); rewrite BB'; reflexivity]].
        apply CONC; auto. cbn [fst snd]. intros F _ _ Y _. split; [reflexivity|]. unfold sim. cbn [core wroot wsel wlast wres wx wstack wfound wy set_wx set_wstack].
        split; [change (core v' = core v); congruence|]. split; [congruence|]. split; [congruence|]. split; [exact F|]. split; [congruence|exact Y]. }
    destruct e as [n|m k v]; cbn [text_of] in TB.
    - destruct (is_container n); [|apply ONE; [apply SL|lia]]. assert (Q := SL (ENode n)). unfold open_container. destruct (mem (nid n) coll); [apply ONE; lia|].
      eapply two_mono; [apply OPEN; [repeat split|repeat split|lia|lia]|]. intros x y H. apply H.
    - assert (Q := SL (ENode v)). assert (Q' := SL (EEntry m k v)). unfold draw_entry. cbv zeta.
      assert (KA : forall tx len, 0 <= len <= slen sc (ENode v) + 8 ->
        two (drew w w') (r <~ key_after sc dm (EEntry m k v) tx len w1 ; let '(b, w) := r in Done (b && negb (bottom sc w), w))
                        (r <~ key_after sc dm (EEntry m k v) tx len w1' ; let '(b, w) := r in Done (b && negb (bottom sc w), w))).
      { intros tx len L. assert (O := fun t => ONE (EEntry m k v) t false (eid (EEntry m k v)) false (slen sc (EEntry m k v) + 2 + len) ltac:(lia) ltac:(lia)).
        assert (E : exists t, forall u, (r <~ key_after sc dm (EEntry m k v) tx len u ; let '(b, w) := r in Done (b && negb (bottom sc w), w)) = (x <~ put dm false (eid (EEntry m k v)) false (slen sc (EEntry m k v) + 2 + len) (inner sc) (prints (EEntry m k v) t u) ; Done (negb (bottom sc x), x))).
        { exists (key_texts (EEntry m k v) ++ [(SimpleText.node_type v, SimpleText.c_str tx)])%list. intros u. unfold key_after. destruct (wy u <=? wscroll u) eqn:YY; [unfold put, prints; cbn [wy wscroll]; cbv zeta; rewrite YY; reflexivity|].
          destruct (put dm false (eid (EEntry m k v)) false (slen sc (EEntry m k v) + 2 + len) (inner sc) _); [|reflexivity]; cbn [SplitView.bind]; rewrite andb_diag; reflexivity. }
        destruct E as (t & E). rewrite !E. apply O. }
      destruct (is_container v && mem (nid v) coll) eqn:E1; [apply KA; lia|]. destruct (negb (is_container v)) eqn:E2; [apply KA; lia|]. destruct (children v) eqn:E3; [apply KA; lia|].
      assert (CO : mem (nid v) coll = false) by (destruct (mem (nid v) coll), (is_container v); cbn in *; congruence).
      eapply two_bind with (P := fun x y => like (snd x) w1 /\ like (snd y) w1' /\ wy w1 + 1 <= wy (snd x) /\
        (wfound w1 = false -> ahead w w' (wy (snd x)) -> wy (snd y) <= wy (snd x) /\ (fst x = true -> fst y = true))).
      + assert (I2 : 1 <= usub (usub (sw sc) 2) 2 < 2 ^ 32) by (apply inner2_ok; exact SW).
        assert (SP := sim_prints (EEntry m k v) (key_texts (EEntry m k v)) false (eid (EEntry m k v)) false (slen sc (EEntry m k v)) _ w1 w1' ltac:(lia) ltac:(lia) I2).
        assert (E : forall u, key_alone sc dm (EEntry m k v) u = (x <~ put dm false (eid (EEntry m k v)) false (slen sc (EEntry m k v)) (usub (usub (sw sc) 2) 2) (prints (EEntry m k v) (key_texts (EEntry m k v)) u) ; Done ((wy u <=? wscroll u) || negb (bottom sc x), x))).
        { intros u. unfold key_alone. destruct (wy u <=? wscroll u) eqn:YY; [unfold put, prints; cbn [wy wscroll]; cbv zeta; rewrite YY; reflexivity|]. reflexivity. }
        rewrite !E. eapply two_bind; [exact SP|]. intros x x' (X1' & X2 & X3 & X4 & X5). cbn [two fst snd]. split; [exact X1'|]. split; [exact X2|]. split; [lia|].
        intros F A. destruct (C10 F) as [D1 D2]. destruct X5 as [X6 X7]; [lia|unfold ahead in *; rewrite D1, D2; exact A|]. split; [exact X6|].
        destruct (wy w1' <=? wscroll w1') eqn:YY; [auto|]. cbn [orb]. intros B. destruct (bottom sc x) eqn:BX; [|rewrite X7; reflexivity].
        cbn [negb] in B. rewrite orb_false_r in B. exfalso. unfold ahead in A. lia.
      + intros [b x] [b' x'] (X1' & X2 & X3 & X4). cbn [fst snd] in *. unfold open_container. rewrite CO. destruct b, b'.
        * eapply two_bind; [apply (OPEN _ _ v x x' X1' X2 ltac:(lia))|].
          -- intros F A. apply X4; assumption.
          -- intros [b z] [b' z'] (H1 & H2 & H3). cbn [fst snd two] in *. unfold drew in *. cbn [fst snd] in *. rewrite <- H2, <- H3. exact H1.
        * assert (PL := fun t => put_prints dm (ENode v) t true (nid v) false 1 (inner sc) x). assert (wx x = wx w1) by apply X1'. match goal with |- context [prints _ ?t _] => specialize (PL t) end. destruct (put dm true (nid v) false 1 (inner sc) _) as [z|]; [|exact Logic.I].
          destruct PL as (PL & PY & _); [lia|exact I|].
          assert (ZZ : forall z2 : win, like z w1 -> wfound z2 = wfound z -> wscroll z2 = wscroll z -> wy z2 = wy z -> drew w w' (negb (bottom sc z2), z2) (false, x')).
          { intros z2 LZ F2 SC2 Y2. unfold drew. cbn [fst snd]. assert (FX : wfound x' = wfound w1') by apply X2. destruct LZ as (_ & _ & _ & LS & _ & _ & LF). rewrite F2, SC2, Y2, LF, LS, FX, C1.
            split; [auto|]. split; [intros F; split; [apply C10, F|lia]|]. intros F _ A. exfalso. destruct (X4 F) as [_ X5]; [unfold ahead in *; lia|]. discriminate (X5 eq_refl). }
          assert (LZ : like z w1) by (destruct X1' as (Q1 & Q2 & Q3 & Q4 & Q5 & Q6 & Q7), PL as (R1 & R2 & R3 & R4 & R5 & R6 & R7); unfold like; repeat split; congruence).
          cbn [SplitView.bind]. destruct (bottom sc z) eqn:BZ; cbn [SplitView.bind two fst snd]; apply ZZ; auto.
        * assert (PL := fun t => put_prints dm (ENode v) t true (nid v) false 1 (inner sc) x'). assert (wx x' = wx w1') by apply X2. match goal with |- context [prints _ ?t _] => specialize (PL t) end. destruct (put dm true (nid v) false 1 (inner sc) _) as [z|]; [|exact Logic.I].
          destruct PL as (PL & PY & _); [lia|exact I|].
          assert (LZ : like z w1') by (destruct X2 as (Q1 & Q2 & Q3 & Q4 & Q5 & Q6 & Q7), PL as (R1 & R2 & R3 & R4 & R5 & R6 & R7); unfold like; repeat split; congruence).
          assert (ZZ : forall b (z2 : win), wfound z2 = wfound z -> drew w w' (false, x) (b, z2)).
          { intros b z2 F2. unfold drew. cbn [fst snd]. destruct X1' as (_ & _ & _ & XS & _ & _ & XF). destruct LZ as (_ & _ & _ & LS & _ & _ & LF). rewrite F2, LF, C1, XF.
            split; [auto|]. split; [intros F; rewrite XS; split; [apply C10, F|lia]|discriminate]. }
          cbn [SplitView.bind]. destruct (bottom sc z) eqn:BZ; cbn [SplitView.bind two fst snd]; apply ZZ; auto.
        * apply FIN. cbn [fst snd]. split; [exact X1'|]. split; [exact X2|]. split; [lia|]. discriminate.
  Qed.
End Sim.

(** What the rest of a redraw can do to a window: nothing if it is finished, and
    the selection stays found. *)
Section Went.
  Variable (h : list elem) (sc : screen) (coll : list Z) (dm : mat).
  Definition stays (w v : win) : Prop := wfound w = true -> wfound v = true.
  Definition stay {A} (w : win) (r : A * win) : Prop := stays w (snd r).

  Lemma check_stays e w : stays w (check h e w).
  Proof.
    intros F. unfold check. rewrite F. cbn [negb]. destruct (wdown w); [exact F|]. cbv zeta. destruct (lookup _ _); [|exact F]. destruct (negb _); exact F.
  Qed.
  Lemma put_stays a b c d e w : ok any (fun w' => wfound w' = wfound w) (put dm a b c d e w).
  Proof. unfold put. destruct (_ <=? _); [reflexivity|]. destruct (getNbLines _ _); [|exact Logic.I]. cbn. unfold displayDiffOp. destruct (shown_op _ _); reflexivity. Qed.
  Lemma open_stays n w : ok any (fun r => wfound (snd r) = wfound w) (open_container sc coll dm n w).
  Proof. unfold open_container. destruct (mem _ _); (eapply ok_bind; [apply put_stays|]); intros w' E; [exact E|]. destruct (bottom _ _); exact E. Qed.
  Lemma elem_stays e w : ok any (stay w) (draw_elem h sc coll dm e w).
  Proof.
    unfold draw_elem. assert (C := check_stays e w). set (w1 := check h e w) in *. clearbody w1.
    assert (T : forall m : out (bool * win), ok any (fun r => wfound (snd r) = wfound w1) m -> ok any (stay w) m) by (intros m H; eapply ok_mono; [exact H|]; intros r E; unfold stay, stays in *; rewrite E; exact C).
    destruct e as [n|m k v]; cbv zeta.
    - destruct (is_container n); [apply T, open_stays|]. apply T. eapply ok_bind; [apply put_stays|]. intros w' E. exact E.
    - unfold draw_entry. apply T.
      assert (KA : forall tx l, ok any (fun r => wfound (snd r) = wfound w1) (r <~ key_after sc dm (EEntry m k v) tx l w1 ; let '(b, w) := r in Done (b && negb (bottom sc w), w))).
      { intros tx l. eapply ok_bind with (P := fun r => wfound (snd r) = wfound w1); [|intros [b w'] E; exact E]. unfold key_after. destruct (_ <=? _); [reflexivity|].
        eapply ok_bind; [apply put_stays|]. intros w' E. exact E. }
      destruct (_ && _); [apply KA|]. destruct (negb _); [apply KA|]. destruct (children v); [apply KA|].
      eapply ok_bind with (P := fun r => wfound (snd r) = wfound w1).
      + unfold key_alone. destruct (_ <=? _); [reflexivity|]. eapply ok_bind; [apply put_stays|]. intros w' E. exact E.
      + intros [[|] w'] E; [|exact E]. eapply ok_bind; [apply open_stays|]. intros r E'. unfold ok in *. cbn [snd] in *. congruence.
  Qed.
  Lemma next_stays w : ok any (stay w) (draw_next h sc coll dm w).
  Proof.
    unfold draw_next. destruct (wstack w) as [|[i c] t]; [apply elem_stays|]. destruct (_ =? _).
    - unfold close_container. eapply ok_bind; [apply put_stays|]. intros w' E. unfold ok, stay, stays. cbn [snd]. rewrite E. auto.
    - destruct (nth_error _ _); [|exact Logic.I]. eapply ok_mono; [apply elem_stays|]. intros r E. exact E.
  Qed.

  (** What is made of an item drawn. *)
  Lemma item_cases w b v o u : draw_next h sc coll dm w = Done (b, v) -> one_item h sc coll dm w = Done (o, u) ->
    wfound u = wfound v /\ wy u = wy v /\ (o = None -> wfound v = false) /\ (o <> None -> wscroll u = wscroll v) /\
    (o = Some false -> u = v /\ b = true /\ wstack v <> []).
  Proof.
    intros E. unfold one_item. rewrite E. cbn [SplitView.bind]. destruct (_ || _) eqn:A.
    - destruct (_ && _) eqn:B.
      + intros [= <- <-]. cbn. repeat split; auto; try discriminate; [|congruence]. destruct (wfound v); [destruct b; discriminate B|reflexivity].
      + match goal with |- (SplitView.bind ?m _) = _ -> _ => destruct m as [d|] end; [|discriminate]. cbn [SplitView.bind]. intros [= <- <-]. cbn. repeat split; auto; try discriminate.
    - intros [= <- <-]. destruct b; [|discriminate A]. destruct (wstack v) eqn:S; [discriminate A|]. repeat split; auto; discriminate.
  Qed.
  Lemma item_more w b v : draw_next h sc coll dm w = Done (b, v) -> b = true -> wstack v <> [] -> one_item h sc coll dm w = Done (Some false, v).
  Proof. intros E -> S. unfold one_item. rewrite E. cbn [SplitView.bind]. destruct (wstack v); [congruence|reflexivity]. Qed.

  Lemma item_stays w : ok any (stay w) (one_item h sc coll dm w).
  Proof.
    assert (N := next_stays w). destruct (draw_next h sc coll dm w) as [[b v]|] eqn:E.
    - destruct (one_item h sc coll dm w) as [[o u]|] eqn:O; [|exact Logic.I]. destruct (item_cases _ _ _ _ _ E O) as (F & _). unfold ok, stay, stays in *. cbn [snd] in *. rewrite F. exact N.
    - unfold one_item. rewrite E. exact Logic.I.
  Qed.
  Lemma added_stays f : forall w, ok any (stay w) (added_items h sc coll dm f w).
  Proof.
    induction f as [|f IH]; intros w; [exact Logic.I|]. cbn [added_items]. eapply ok_bind; [apply item_stays|]. intros [[[|]|] w'] K; try exact K.
    eapply ok_bind with (P := fun _ => True); [destruct (next_added dm w'); exact Logic.I|]. intros [|] _; [|exact K].
    eapply ok_mono; [apply IH|]. intros r K'. unfold stay, stays in *. cbn in *. auto.
  Qed.

  Definition went (p : part) (v : win) : Prop :=
    stays (fst p) v /\ (snd p = false -> wfound v = wfound (fst p) /\ wscroll v = wscroll (fst p)).
  Definition pwent (p q : part) : Prop := went p (fst q) /\ (snd p = false -> snd q = false).
  Lemma went_refl p : went p (fst p).
  Proof. split; [intros F; exact F|auto]. Qed.
  Lemma pwent_refl p : pwent p p.
  Proof. split; [apply went_refl|auto]. Qed.
  Lemma went_trans p q v : pwent p q -> went q v -> went p v.
  Proof.
    intros ((A1 & A2) & A3) (B1 & B2). split; [intros F; apply B1, A1, F|]. intros S. destruct (A2 S) as [A4 A5], (B2 (A3 S)) as [B4 B5]. split; congruence.
  Qed.
  Lemma pwent_trans p q r : pwent p q -> pwent q r -> pwent p r.
  Proof. intros A [B1 B2]. split; [eapply went_trans; eauto|]. intros S. apply B2, A, S. Qed.
  Lemma gap_pwent k p : pwent p (gap_lines k (fst p), snd p).
  Proof.
    assert (E := gap_rest k (fst p)). unfold rest in E. unfold pwent, went, stays. cbn [fst snd].
    assert (E1 : wfound (gap_lines k (fst p)) = wfound (fst p)) by congruence. assert (E2 : wscroll (gap_lines k (fst p)) = wscroll (fst p)) by congruence. rewrite E1, E2. auto.
  Qed.
  Lemma busy_pwent w v b : stays w v -> pwent (w, true) (v, b).
  Proof. intros S. split; [|discriminate]. split; [exact S|discriminate]. Qed.
  Lemma Forall2_same {A} (R : A -> A -> Prop) (l : list A) : (forall x, R x x) -> Forall2 R l l.
  Proof. intros H. induction l; constructor; auto. Qed.
  Lemma Forall2_map_r {A B} (R : A -> B -> Prop) (f : A -> B) (l : list A) : (forall x, R x (f x)) -> Forall2 R l (map f l).
  Proof. intros H. induction l; constructor; auto. Qed.

  Lemma gap_went f after : forall before,
    ok any (fun r => match r with None => True | Some (_, ps) => Forall2 pwent (before ++ after) ps end) (display_gap h sc coll dm f before after).
  Proof.
    induction after as [|[w busy] t IH]; intros before; [exact Logic.I|]. cbn [display_gap].
    eapply ok_bind with (P := fun x => x = true -> busy = true). { destruct busy; [destruct (next_added dm w); [intros _; reflexivity|exact Logic.I]|intros [=]]. }
    intros [|] B.
    - rewrite B by reflexivity. eapply ok_bind; [apply added_stays|]. intros [[fin|] w'] K; unfold ok; cbv zeta.
      + apply Forall2_app; [apply Forall2_map_r; intros; apply gap_pwent|]. constructor; [apply busy_pwent, K|apply Forall2_map_r; intros; apply gap_pwent].
      + apply Forall2_app; [apply Forall2_same, pwent_refl|]. constructor; [apply busy_pwent, K|apply Forall2_same, pwent_refl].
    - eapply ok_mono; [apply IH|]. intros [[b ps]|]; [|auto]. rewrite <- app_assoc. auto.
  Qed.
  Lemma display_went ps : forall mx, ok any (fun r => Forall2 pwent ps (map fst (snd (fst r)))) (display h sc coll dm ps mx).
  Proof.
    induction ps as [|[w busy] t IH]; intros mx; [constructor|]. cbn [display]. destruct busy.
    - eapply ok_bind; [apply item_stays|]. intros [[fin|] w'] K.
      + eapply ok_bind; [apply IH|]. intros [[b l] mx'] H. cbn in *. constructor; [apply busy_pwent, K|exact H].
      + cbn. constructor; [apply busy_pwent, K|]. rewrite map_map. cbn [fst]. rewrite map_id. apply Forall2_same, pwent_refl.
    - eapply ok_bind; [apply IH|]. intros [[b l] mx'] H. cbn in *. constructor; [apply pwent_refl|exact H].
  Qed.
  Lemma Forall2_trans {A B C} (R : A -> B -> Prop) (S : B -> C -> Prop) (T : A -> C -> Prop) l m n :
    (forall x y z, R x y -> S y z -> T x z) -> Forall2 R l m -> Forall2 S m n -> Forall2 T l n.
  Proof. intros H F. revert n. induction F; intros n G; inversion G; subst; constructor; eauto. Qed.
  Lemma items_went f : forall ps, ok any (fun r => Forall2 went ps (snd r)) (redraw_items h sc coll dm f ps).
  Proof.
    assert (LAST : forall ps ps' : list part, Forall2 pwent ps ps' -> Forall2 went ps (map fst ps')) by (intros ps ps' F; induction F as [|p q l m P F IH]; constructor; [apply P|exact IH]).
    induction f as [|f IH]; intros ps; [exact Logic.I|]. cbn [redraw_items]. destruct (existsb snd ps); [|cbn; apply Forall2_map_r, went_refl].
    eapply ok_bind; [apply (gap_went (S f) ps [])|]. intros [[[|] ps']|] H; cbn [app] in H.
    - eapply ok_mono; [apply IH|]. intros r E. eapply Forall2_trans; [|exact H|exact E]. intros x y z. apply went_trans.
    - cbn. apply LAST, H.
    - eapply ok_bind; [apply display_went|]. intros [[b l] mx] HL. cbn [fst snd] in HL. destruct b.
      + eapply ok_mono; [apply IH|]. intros r E. eapply Forall2_trans with (S := went) (m := map fst l); [|exact HL|]; [intros x y z; apply went_trans|].
        destruct r as [b' m]. cbn [snd] in *. clear - E. revert m E. induction l as [|x l IHl]; intros m E; cbn [map] in E; inversion E; subst; [constructor|]. cbn [map]. constructor; auto.
      + cbn. apply LAST in HL. rewrite map_map in HL. exact HL.
  Qed.
End Went.

Section SimItems.
  Variable (r : node) (h : list elem) (sc : screen) (coll : list Z) (dm : mat) (nn : nat).
  Hypothesis M : in_memory r.
  Hypothesis LK : forall i, In i (ids r) -> lookup h i = lookup (elems r) i.
  Hypothesis SW : 5 <= sw sc < 2 ^ 32.
  Hypothesis SH : 2 <= sh sc < 2 ^ 32.
  Hypothesis NS : (nesting r <= nn)%nat.
  Hypothesis SL : forall e, 0 <= slen sc e.
  Hypothesis BK : lines_of (slen sc) (4 * Z.of_nat nn + 16) (elems r) < 2 ^ 32.
  Hypothesis LH : (length (elems r) <= length h)%nat.

  Lemma text_bound e w : In e (elems r) -> (length (wstack w) <= nesting r)%nat -> wx w = 2 + INDENT_LEVEL * Z.of_nat (length (wstack w)) -> text_of sc e + 16 + wx w < 2 ^ 32.
  Proof.
    intros I L X. assert (Q := lines_sub (slen sc) (4 * Z.of_nat nn + 16) r SL ltac:(lia) e I). unfold INDENT_LEVEL in X.
    assert (T : text_of sc e + 2 * (4 * Z.of_nat nn + 16) <= lines_of (slen sc) (4 * Z.of_nat nn + 16) (eelems e)); [|lia].
    assert (G : forall n, slen sc (ENode n) + 2 * (4 * Z.of_nat nn + 16) <= lines_of (slen sc) (4 * Z.of_nat nn + 16) (elems n)).
    { intros n. rewrite elems_children. cbn [lines_of fold_right]. fold (lines_of (slen sc) (4 * Z.of_nat nn + 16) (flat_map eelems (children n))).
      assert (P := lines_nonneg (slen sc) (4 * Z.of_nat nn + 16) (flat_map eelems (children n)) SL ltac:(lia)). lia. }
    destruct e as [n|m k v]; cbn [text_of eelems]; [apply G|]. cbn [lines_of fold_right]. fold (lines_of (slen sc) (4 * Z.of_nat nn + 16) (elems v)). specialize (G v). lia.
  Qed.

  Lemma sim_next w w' : fine r coll w -> sim w w' -> two (drew w w') (draw_next h sc coll dm w) (draw_next h sc coll dm w').
  Proof.
    intros (F1 & F2 & F3 & F4 & F5) S. assert (S0 := S). destruct S as (S1 & S2 & S3 & S4 & S5 & S6).
    unfold draw_next. rewrite S3. destruct (wstack w) as [|[i c] t] eqn:ST.
    - assert (R : wroot w' = wroot w) by (unfold core in S1; congruence). rewrite R.
      unfold INDENT_LEVEL in F3. cbn [length] in F3. apply sim_elem; auto; try lia. rewrite F1. apply text_bound; [rewrite elems_children; left; reflexivity|rewrite ST; cbn; lia|rewrite ST; cbn; exact F3].
    - destruct F2 as (C1 & C2 & (C3 & k & pre & q & post & PQ & VQ) & C4). assert (LT := chain_length r coll nn NS ((i, c) :: t)). cbn [chain length] in LT. 
      assert (LT' : (S (length t) <= nesting r)%nat) by (apply LT; split; [exact C1|]; split; [exact C2|]; split; [|exact C4]; split; [exact C3|]; eauto 6).
      unfold INDENT_LEVEL in F3. cbn [length] in F3. 
      destruct (_ =? _) eqn:E.
      + unfold close_container. assert (HB : 4 * Z.of_nat nn + 16 < 2 ^ 32).
        { assert (Q := lines_nonneg (slen sc) (4 * Z.of_nat nn + 16) (flat_map eelems (children r)) SL ltac:(lia)). assert (Q' := SL (ENode r)). revert BK. rewrite elems_children. cbn [lines_of fold_right]. fold (lines_of (slen sc) (4 * Z.of_nat nn + 16) (flat_map eelems (children r))). lia. }
        eapply two_bind; [apply (sim_prints sc dm SH (ENode c) _ true (nid c) true 1 (inner sc) (set_wx (set_wstack w t) (wx w - INDENT_LEVEL)) (set_wx (set_wstack w' t) (wx w' - INDENT_LEVEL))); [cbn; congruence|cbn [wx set_wx set_wstack]; unfold INDENT_LEVEL; lia|apply inner_ok, SW]|].
        intros v v' ((A1 & A2 & A3 & A4 & A5 & A6 & A7) & (B1 & B2 & B3 & B4 & B5 & B6 & B7) & W3 & W4 & W5). cbn [two]. cbn [wx wy wscroll wup wdown wstack wfound set_wx set_wstack] in *.
        unfold drew. cbn [fst snd]. rewrite A7, S4. split; [discriminate|]. split; [intros _; split; [exact A4|lia]|]. intros _ B A.
        destruct W5 as [W6 W7]; [exact S6|exact A|]. split; [destruct (bottom sc v); [discriminate B|]; rewrite W7; reflexivity|]. split; [|exact B4].
        unfold sim. rewrite A1, B1, A5, B5, A6, B6, A7, B7. repeat split; auto. cbn. congruence.
      + destruct (nth_error (children c) (Z.to_nat (i + 1))) as [e|] eqn:NE; [|exact Logic.I]. assert (IE := nth_error_In _ _ NE).
        assert (IN : In e (elems r)).
        { destruct (in_split _ _ IE) as (l1 & l2 & K). rewrite <- VQ in K, C3. exact (place_in r _ _ _ _ _ (PL_child r coll k pre q post l1 e l2 PQ C3 K)). }
        apply (sim_elem h sc coll dm SW SH SL e (set_wstack w ((i + 1, c) :: t)) (set_wstack w' ((i + 1, c) :: t))).
        * unfold sim. cbn [core wroot wsel wlast wres wx wstack wfound wy set_wstack]. repeat split; auto.
        * cbn [wx set_wstack]. lia.
        * apply text_bound; [exact IN|cbn; exact LT'|cbn [wx wstack set_wstack length]; exact F3].
        * cbn [wx set_wstack]. lia.
  Qed.

  (** One item of the first made the window go on, unfound: so in the second. *)
  Definition itemd (w w' : win) (x y : option bool * win) : Prop :=
    (wfound (snd x) = true -> wscroll (snd x) <= wscroll w' -> wfound (snd y) = true) /\
    (wfound (snd x) = false -> fst x = Some false -> ahead w w' (wy (snd x)) -> fst y = Some false /\ sim (snd x) (snd y) /\ wscroll (snd y) = wscroll w').
  Lemma sim_item w w' : fine r coll w -> sim w w' -> two (itemd w w') (one_item h sc coll dm w) (one_item h sc coll dm w').
  Proof.
    intros F S. assert (T := sim_next w w' F S). destruct (one_item h sc coll dm w) as [[o u]|] eqn:O; [|exact Logic.I]. destruct (one_item h sc coll dm w') as [[o' u']|] eqn:O'; [|exact Logic.I].
    destruct (draw_next h sc coll dm w) as [[b v]|] eqn:N; [|unfold one_item in O; rewrite N in O; discriminate O].
    destruct (draw_next h sc coll dm w') as [[b' v']|] eqn:N'; [|unfold one_item in O'; rewrite N' in O'; discriminate O'].
    destruct (item_cases h sc coll dm _ _ _ _ _ N O) as (A1 & A2 & A3 & A4 & A5), (item_cases h sc coll dm _ _ _ _ _ N' O') as (B1 & B2 & B3 & B4 & B5).
    cbn [two] in *. destruct T as (T1 & T2 & T3). cbn [fst snd] in *. unfold itemd. cbn [fst snd]. rewrite A1, B1. split; [auto|].
    intros FF E A. destruct (A5 E) as (-> & Eb & Es). destruct (T3 FF Eb A) as (T4 & T5 & T6).
    rewrite (item_more h sc coll dm _ _ _ N' T4) in O'; [injection O' as <- <-; auto|]. destruct T5 as (_ & _ & T5 & _). congruence.
  Qed.
  Lemma next_added_sim w w' : sim w w' -> next_added dm w' = next_added dm w.
  Proof. intros (S1 & _ & S3 & _). unfold next_added. rewrite S3. assert (E : wroot w' = wroot w) by (unfold core in S1; congruence). rewrite E. reflexivity. Qed.

  Lemma sim_added f : forall w w', (items_left r w <= f)%nat -> 1 <= wy w -> fine r coll w -> placed r coll w -> sim w w' ->
    two (itemd w w') (added_items h sc coll dm f w) (added_items h sc coll dm f w').
  Proof.
    induction f as [|f IH]; intros w w' IF Y F P S; [exact Logic.I|]. cbn [added_items].
    assert (T := sim_item w w' F S). assert (A := item_ok r h sc coll dm nn M LK SW NS SL BK LH w Y F P).
    destruct (one_item h sc coll dm w) as [[o v]|]; [|exact Logic.I]. destruct (one_item h sc coll dm w') as [[o' v']|]; [|apply two_bad].
    cbn [SplitView.bind two ok] in *. destruct A as (A1 & A2 & A3). destruct T as (T1 & T2). cbn [fst snd] in *.
    set (n := match o' with Some true => _ | Some false => _ | None => _ end).
    assert (FN : wfound v' = true -> forall y, n = Done y -> wfound (snd y) = true).
    { intros FV y. unfold n. destruct o' as [[|]|]; [intros [= <-]; exact FV| |intros [= <-]; exact FV]. destruct (next_added dm v') as [x|]; [|discriminate]. cbn [SplitView.bind]. destruct x; [|intros [= <-]; exact FV].
      intros E. assert (Q := added_stays h sc coll dm f v'). rewrite E in Q. apply Q, FV. }
    destruct o as [[|]|].
    - cbn [two]. destruct n as [y|] eqn:EN; [|exact Logic.I]. split; [|discriminate]. cbn [fst snd]. intros FV SV. apply FN; [apply T1; assumption|reflexivity].
    - destruct A3 as (K & FI & IL & LL). destruct (next_added dm v) as [[|]|] eqn:NA; [| |exact Logic.I]; cbn [SplitView.bind].
      + assert (PV := placed_core r coll v w A1 P). assert (B := added_ok r h sc coll dm nn M LK SW NS SL BK LH f v ltac:(lia) ltac:(lia) FI PV).
        specialize (IH v). destruct (added_items h sc coll dm f v) as [[o2 v2]|] eqn:AD; [|exact Logic.I]. cbn [ok] in B. destruct B as (B1 & B2 & B3). cbn [fst snd] in *.
        destruct n as [y|] eqn:EN; [|exact Logic.I]. cbn [two].
        assert (KV : o2 <> None -> keeps v v2) by (destruct o2 as [[|]|]; [intros _; apply B3|intros _; apply B3|congruence]).
        assert (NF : wfound v2 = true -> o2 <> None) by (intros FV ->; destruct B3 as (_ & B3 & _); congruence).
        assert (SIMS : wfound v = false -> ahead w w' (wy v) -> itemd v v' (o2, v2) y /\ wscroll v' = wscroll w').
        { intros FV AH. destruct (T2 FV eq_refl AH) as (-> & SV & SC). split; [|exact SC]. specialize (IH v' ltac:(lia) ltac:(lia) FI PV SV).
          assert (E : n = added_items h sc coll dm f v') by (unfold n; rewrite (next_added_sim v v' SV), NA; reflexivity). rewrite <- E, EN in IH. exact IH. }
        assert (SCW : wfound v = false -> wscroll v = wscroll w) by (intros FV; destruct K as (_ & _ & [Q|(_ & Q & _)]); [exact Q|congruence]).
        split; cbn [fst snd].
        * intros F2 S2. specialize (KV (NF F2)). destruct KV as (K1 & K2 & K3). destruct (wfound v) eqn:FV.
          { apply FN; [|reflexivity]. apply T1; [reflexivity|]. destruct K3 as [K3|(K3 & _)]; [lia|discriminate K3]. }
          specialize (SCW eq_refl). destruct SIMS as [SI SC]; [reflexivity|unfold ahead; destruct K3 as [K3|(_ & _ & K3)]; lia|]. apply SI; [exact F2|]. cbn [snd]. lia.
        * intros F2 -> AH. specialize (KV ltac:(discriminate)). destruct KV as (K1 & K2 & K3). assert (FV : wfound v = false) by (destruct (wfound v); [rewrite K2 in F2; auto|reflexivity]).
          specialize (SCW FV). destruct SIMS as [[_ SI] SC]; [exact FV|unfold ahead in *; lia|]. cbn [fst snd] in SI. destruct SI as (SI1 & SI2 & SI3); [exact F2|reflexivity|unfold ahead in *; rewrite SC, SCW; exact AH|].
          split; [exact SI1|]. split; [exact SI2|congruence].
      + cbn [two]. destruct n as [y|] eqn:EN; [|exact Logic.I]. split; cbn [fst snd].
        * intros FV SV. apply FN; [apply T1; assumption|reflexivity].
        * intros FV _ AH. destruct (T2 FV eq_refl AH) as (-> & SV & SC). unfold n in EN. rewrite (next_added_sim v v' SV), NA in EN. cbn [SplitView.bind] in EN. injection EN as <-. auto.
    - cbn [two]. destruct n as [y|] eqn:EN; [|exact Logic.I]. destruct A3 as (_ & A3 & _). split; cbn [fst snd]; [congruence|discriminate].
  Qed.
End SimItems.

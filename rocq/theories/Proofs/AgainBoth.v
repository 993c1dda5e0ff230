(** Drawing a comparison again: both windows. *)
From Verif Require Import Spec.SplitSpec Proofs.SplitLoop Proofs.AgainSplit.
From Verif Require Proofs.SplitPress.
From Coq Require Import Lia ZifyBool.
Open Scope Z_scope.

Section Items.
  Variable (r : node) (h : list elem) (sc : screen) (coll : list Z) (dm : mat) (nn : nat).
  Hypothesis HS : 2 <= sh sc < 2 ^ 32.
  Hypothesis M : in_memory r.
  Hypothesis LK : forall i, In i (ids r) -> lookup h i = lookup (elems r) i.
  Hypothesis SW : 5 <= sw sc < 2 ^ 32.
  Hypothesis NS : (nesting r <= nn)%nat.
  Hypothesis SL : forall e, 0 <= slen sc e.
  Hypothesis BK : lines_of (slen sc) (4 * Z.of_nat nn + 16) (elems r) < 2 ^ 32.
  Hypothesis LH : (length (elems r) <= length h)%nat.
  Let iok := item_ok r h sc coll dm nn M LK SW NS SL BK LH.
  Let aok := added_ok r h sc coll dm nn M LK SW NS SL BK LH.

  Lemma item_back F w fin v : 1 <= wy w -> fine r coll w -> placed r coll w -> one_item h sc coll dm w = Done (Some fin, v) ->
    towards F v -> (fin = true -> F = wscroll v) -> one_item h sc coll dm (lower F w) = Done (Some fin, lower F v) /\ towards F w.
  Proof.
    intros Y FI P E T B. assert (A := iok w Y FI P). rewrite E in A. destruct A as (_ & _ & A). cbn [fst snd] in A. assert (K : keeps w v) by (destruct fin; apply A).
    split; [apply item_again; assumption|apply (towards_back F w v K T)].
  Qed.

  Lemma added_back F f : forall w fin v, (items_left r w <= f)%nat -> 1 <= wy w -> fine r coll w -> placed r coll w -> added_items h sc coll dm f w = Done (Some fin, v) ->
    towards F v -> (fin = true -> F = wscroll v) -> added_items h sc coll dm f (lower F w) = Done (Some fin, lower F v) /\ towards F w.
  Proof.
    induction f as [|f IH]; intros w fin v IF Y FI P E T B; [discriminate E|]. cbn [added_items] in E |- *. assert (A := iok w Y FI P).
    destruct (one_item h sc coll dm w) as [[[x|] u]|] eqn:O; cbn [SplitView.bind] in E; [|discriminate E|discriminate E].
    destruct A as (A1 & A2 & A3). cbn [fst snd] in A1, A2, A3. destruct x.
    - injection E as <- <-. destruct (item_back F w true u Y FI P O T B) as (I1 & I2). rewrite I1. split; [reflexivity|exact I2].
    - destruct A3 as (K & FU & IU & LU). assert (PU := placed_core r coll u w A1 P).
      destruct (next_added dm u) as [[|]|] eqn:N; cbn [SplitView.bind] in E; [| |discriminate E].
      + destruct (IH u fin v ltac:(lia) ltac:(lia) FU PU E T B) as (J1 & J2). destruct (item_back F w false u Y FI P O J2 ltac:(discriminate)) as (I1 & I2).
        rewrite I1. cbn [SplitView.bind]. rewrite next_added_lower, N. cbn [SplitView.bind]. split; [exact J1|exact I2].
      + injection E as <- <-. destruct (item_back F w false u Y FI P O T B) as (I1 & I2). rewrite I1. cbn [SplitView.bind]. rewrite next_added_lower, N. split; [reflexivity|exact I2].
  Qed.
End Items.

(** A window and whether it is still drawing. *)
Definition fit (F : Z) (p : part) : Prop := towards F (fst p) /\ (snd p = false -> F = wscroll (fst p)).
Definition low (F : Z) (p : part) : part := (lower F (fst p), snd p).
Lemma gap_scroll k w : wscroll (gap_lines k w) = wscroll w.
Proof. assert (R := gap_rest k w). unfold rest in R. congruence. Qed.
Lemma gap_found k w : wfound (gap_lines k w) = wfound w.
Proof. assert (R := gap_rest k w). unfold rest in R. congruence. Qed.
Lemma fit_gap F k w x : fit F (gap_lines k w, x) -> fit F (w, x).
Proof.
  intros [T B]. unfold fit, towards in *. cbn [fst snd] in *. rewrite gap_scroll, gap_found, gap_wy in *. split; [|exact B]. destruct T as [T|(T1 & T2 & T3)]; [left; exact T|right]. split; [exact T1|]. split; [exact T2|lia].
Qed.
Lemma fit_y F w y x : wy w <= y -> fit F (set_wy w y, x) -> fit F (w, x).
Proof. intros Y [T B]. unfold fit, towards in *. cbn [fst snd set_wy wscroll wfound wy] in *. split; [|exact B]. destruct T as [T|(T1 & T2 & T3)]; [left; exact T|right]. split; [exact T1|]. split; [exact T2|lia]. Qed.

Section Loop.
  Variable (a b : node) (h : list elem) (sc : screen) (coll : list Z) (dm : mat) (nn : nat).
  Hypothesis HS : 2 <= sh sc < 2 ^ 32.
  Hypothesis HH : h = elems a ++ elems b.
  Hypothesis MA : in_memory a.
  Hypothesis MB : in_memory b.
  Hypothesis D : NoDup (ids a ++ ids b).
  Hypothesis NA : (nesting a <= nn)%nat.
  Hypothesis NB : (nesting b <= nn)%nat.
  Hypothesis SW : 5 <= sw sc < 2 ^ 32.
  Hypothesis SL : forall e, 0 <= slen sc e.
  Hypothesis BK : lines_of (slen sc) (4 * Z.of_nat nn + 16) (elems a ++ elems b) < 2 ^ 32.

  Let back_a := fun F => added_back a h sc coll dm nn HS MA (LKA a b h HH MA) SW NA SL (BKA a b sc nn NA NB SL BK) (LHA a b h sc nn HH NA NB) F.
  Let back_b := fun F => added_back b h sc coll dm nn HS MB (LKB a b h HH D) SW NB SL (BKB a b sc nn NA NB SL BK) (LHB a b h sc nn HH NA NB) F.
  Let item_a := fun F => item_back a h sc coll dm nn HS MA (LKA a b h HH MA) SW NA SL (BKA a b sc nn NA NB SL BK) (LHA a b h sc nn HH NA NB) F.
  Let item_b := fun F => item_back b h sc coll dm nn HS MB (LKB a b h HH D) SW NB SL (BKB a b sc nn NA NB SL BK) (LHB a b h sc nn HH NA NB) F.

  Lemma gap_back F G f p q p' q' : inv a b sc coll nn p q -> (iw a p + iw b q <= f)%nat -> display_gap h sc coll dm f [] [p; q] = Done (Some (true, [p'; q'])) ->
    fit F p' -> fit G q' -> display_gap h sc coll dm f [] [low F p; low G q] = Done (Some (true, [low F p'; low G q'])) /\ fit F p /\ fit G q.
  Proof.
    destruct p as [w0 b0], q as [w1 b1]. intros ((PA1 & PA2) & (PB1 & PB2) & EY & Y1 & _) IF E FP FQ. cbn [fst snd] in *. unfold low. cbn [fst snd].
    cbn [display_gap app] in E |- *. rewrite (next_added_lower dm F w0).
    destruct (if b0 then next_added dm w0 else Done false) as [[|]|] eqn:N0; cbn [SplitView.bind] in E |- *; [| |discriminate E].
    - destruct b0; [|discriminate N0]. unfold iw in IF. cbn [fst snd] in IF.
      destruct (added_items h sc coll dm f w0) as [[[fin|] v]|] eqn:A; cbn [SplitView.bind] in E; [|discriminate E|discriminate E].
      cbv zeta in E. cbn [map app fst snd] in E. injection E as <- <-. cbn [fst snd] in *.
      destruct (back_a F f w0 fin v ltac:(lia) Y1 PA2 PA1 A (proj1 FP)) as (B1 & B2). { intros ->. apply (proj2 FP). reflexivity. }
      rewrite B1. cbn [SplitView.bind]. cbv zeta. cbn [map app fst snd]. rewrite gap_lower. cbn [lower set_wscroll wy]. split; [reflexivity|]. split; [split; [exact B2|discriminate]|]. apply (fit_gap _ _ _ _ FQ).
    - rewrite (next_added_lower dm G w1). destruct (if b1 then next_added dm w1 else Done false) as [[|]|] eqn:N1; cbn [SplitView.bind] in E |- *; [|discriminate E|discriminate E].
      destruct b1; [|discriminate N1]. unfold iw in IF. cbn [fst snd] in IF.
      destruct (added_items h sc coll dm f w1) as [[[fin|] v]|] eqn:A; cbn [SplitView.bind] in E; [|discriminate E|discriminate E].
      cbv zeta in E. cbn [map app fst snd] in E. injection E as <- <-. cbn [fst snd] in *.
      destruct (back_b G f w1 fin v ltac:(lia) ltac:(lia) PB2 PB1 A (proj1 FQ)) as (B1 & B2). { intros ->. apply (proj2 FQ). reflexivity. }
      rewrite B1. cbn [SplitView.bind]. cbv zeta. cbn [map app fst snd]. rewrite gap_lower. cbn [lower set_wscroll wy]. split; [reflexivity|]. split; [apply (fit_gap _ _ _ _ FP)|split; [exact B2|discriminate]].
  Qed.
  Lemma gap_none F G f p q : display_gap h sc coll dm f [] [p; q] = Done None -> display_gap h sc coll dm f [] [low F p; low G q] = Done None.
  Proof.
    destruct p as [w0 b0], q as [w1 b1]. unfold low. cbn [fst snd display_gap app]. rewrite (next_added_lower dm F w0), (next_added_lower dm G w1).
    destruct (if b0 then next_added dm w0 else Done false) as [[|]|]; cbn [SplitView.bind]; [|intros E|discriminate].
    - destruct (added_items h sc coll dm f w0) as [[[x|] v]|]; discriminate.
    - destruct (if b1 then next_added dm w1 else Done false) as [[|]|]; cbn [SplitView.bind] in *; [|reflexivity|discriminate].
      destruct (added_items h sc coll dm f w1) as [[[x|] v]|]; discriminate.
  Qed.

  (** One item of a window, or none if it is finished. *)
  Lemma display_back F G p q p' q' y z mx : inv a b sc coll nn p q -> display h sc coll dm [p; q] 0 = Done (true, [(p', y); (q', z)], mx) ->
    fit F p' -> fit G q' -> display h sc coll dm [low F p; low G q] 0 = Done (true, [(low F p', y); (low G q', z)], mx) /\ fit F p /\ fit G q.
  Proof.
    destruct p as [w0 b0], q as [w1 b1]. intros ((PA1 & PA2) & (PB1 & PB2) & EY & Y1 & _) E FP FQ. cbn [fst snd] in *.
    assert (SECOND : forall m l, display h sc coll dm [(w1, b1)] m = Done (true, l, mx) -> l = [(q', z)] ->
      display h sc coll dm [low G (w1, b1)] m = Done (true, [(low G q', z)], mx) /\ fit G (w1, b1)).
    { intros m l. unfold low. cbn [display fst snd]. destruct b1.
      - destruct (one_item h sc coll dm w1) as [[[fin|] v]|] eqn:O; cbn [SplitView.bind]; [|discriminate|discriminate]. intros [= <- <-] [= <- <-]. cbn [fst snd].
        destruct (item_b G w1 fin v ltac:(lia) PB2 PB1 O (proj1 FQ)) as (B1 & B2). { intros ->. apply (proj2 FQ). reflexivity. }
        rewrite B1. cbn [SplitView.bind lower set_wscroll wy]. split; [reflexivity|]. split; [exact B2|discriminate].
      - cbn [SplitView.bind]. intros [= <- <-] [= <- <-]. split; [reflexivity|exact FQ]. }
    assert (STEP : forall g w m t, display h sc coll dm ((w, g) :: t) m =
      if g then r <~ one_item h sc coll dm w ;
          match r with
          | (None, w') => Done (false, ((w', g), wy w) :: map (fun p => (p, wy (fst p))) t, m)
          | (Some fin, w') => r <~ display h sc coll dm t (Z.max m (usub (wy w') (wy w))) ; let '(b, l, mx) := r in Done (b, ((w', negb fin), wy w) :: l, mx)
          end
        else r <~ display h sc coll dm t m ; let '(b, l, mx) := r in Done (b, ((w, g), wy w) :: l, mx)) by reflexivity.
    change (low F (w0, b0)) with (lower F w0, b0). rewrite STEP in E |- *. clear STEP. destruct b0.
    - destruct (one_item h sc coll dm w0) as [[[fin|] v]|] eqn:O; cbn [SplitView.bind] in E; [|discriminate E|discriminate E].
      match type of E with SplitView.bind ?X _ = _ => destruct X as [[[x l] m]|] eqn:R end; cbn [SplitView.bind] in E; [|discriminate E].
      injection E as -> <- <- -> ->. destruct (SECOND _ _ R eq_refl) as (S1 & S2).
      destruct (item_a F w0 fin v Y1 PA2 PA1 O (proj1 FP)) as (B1 & B2). { intros ->. apply (proj2 FP). reflexivity. }
      rewrite B1. cbn [SplitView.bind]. change (wy (lower F v)) with (wy v). change (wy (lower F w0)) with (wy w0). rewrite S1. cbn [SplitView.bind]. split; [reflexivity|]. split; [split; [exact B2|discriminate]|exact S2].
    - match type of E with SplitView.bind ?X _ = _ => destruct X as [[[x l] m]|] eqn:R end; cbn [SplitView.bind] in E; [|discriminate E].
      injection E as -> <- <- -> ->. destruct (SECOND _ _ R eq_refl) as (S1 & S2). rewrite S1. cbn [SplitView.bind]. split; [reflexivity|]. split; [exact FP|exact S2].
  Qed.

  Lemma items_back f : forall p q v0 v1, inv a b sc coll nn p q -> (iw a p + iw b q < f)%nat -> redraw_items h sc coll dm f [p; q] = Done (true, [v0; v1]) ->
    redraw_items h sc coll dm f [low (wscroll v0) p; low (wscroll v1) q] = Done (true, [v0; v1]) /\ fit (wscroll v0) p /\ fit (wscroll v1) q.
  Proof.
    induction f as [|f IH]; intros p q v0 v1 I F E; [discriminate E|]. cbn [redraw_items] in E |- *.
    change (existsb snd [low (wscroll v0) p; low (wscroll v1) q]) with (existsb snd [p; q]). destruct (existsb snd [p; q]) eqn:EX.
    - assert (GK := gap_ok a b h sc coll dm nn HH MA MB D NA NB SW SL BK (S f) p q I ltac:(lia)).
      destruct (display_gap h sc coll dm (S f) [] [p; q]) as [[[[|] ps]|]|] eqn:GP; cbn [SplitView.bind] in E; [|discriminate E| |discriminate E].
      + destruct GK as (p' & q' & -> & K1 & K2 & I' & W). destruct (IH p' q' v0 v1 I' ltac:(lia) E) as (R & FP & FQ).
        destruct (gap_back (wscroll v0) (wscroll v1) (S f) p q p' q' I (Nat.lt_le_incl _ _ F) GP FP FQ) as (G1 & G2 & G3). rewrite G1. cbn [SplitView.bind]. auto.
      + assert (DK := display_ok a b h sc coll dm nn HH MA MB D NA NB SW SL BK p q I).
        rewrite (gap_none (wscroll v0) (wscroll v1) _ _ _ GP). cbn [SplitView.bind].
        destruct (display h sc coll dm [p; q] 0) as [[[[|] l] mx]|] eqn:DP; cbn [SplitView.bind] in E; [|discriminate E|discriminate E].
        destruct (next_inv a b sc coll nn NA NB SL p q l mx I EX DK) as (p' & q' & -> & K1 & K2 & I' & W). cbn [map fst snd] in E.
        destruct (IH _ _ v0 v1 I' ltac:(lia) E) as (R & FP & FQ). destruct DK as (p2 & q2 & EL & _ & _ & Y1 & Y2 & _). cbn [fst snd] in EL, Y1, Y2. injection EL as <- <-.
        apply fit_y in FP; [|exact Y1]. apply fit_y in FQ; [|exact Y2]. destruct p' as [u0 c0], q' as [u1 c1]. cbn [fst snd] in *.
        destruct (display_back _ _ _ _ _ _ _ _ _ I DP FP FQ) as (G1 & G2 & G3). rewrite G1. cbn [SplitView.bind map fst snd low]. split; [exact R|auto].
    - destruct p as [w0 b0], q as [w1 b1]. cbn [map fst] in E. injection E as <- <-. unfold low. cbn [map fst snd]. rewrite !lower_same. split; [reflexivity|]. split; (split; [left; reflexivity|reflexivity]).
  Qed.

  (** What is on screen, drawn again. *)
  Lemma both_again w0 w1 v0 v1 : placed a coll w0 -> placed b coll w1 -> redraw_all h sc coll dm [w0; w1] = Done (true, [v0; v1]) ->
    redraw_all h sc coll dm [v0; v1] = Done (true, [v0; v1]).
  Proof.
    intros P0 P1 E. assert (C := redraw_core h sc coll dm [w0; w1]). rewrite E in C. cbn [ok snd map] in C.
    assert (C0 : core v0 = core w0) by congruence. assert (C1 : core v1 = core w1) by congruence.
    assert (IW : (iw a (start w0, true) + iw b (start w1, true) < items_fuel h)%nat) by (unfold iw, items_left, items_fuel; cbn [fst snd start wstack]; rewrite HH, app_length; lia).
    destruct (items_back _ _ _ v0 v1 (start_inv a b sc coll nn NA NB w0 w1 P0 P1) IW E) as (R & _).
    unfold redraw_all. cbn [map]. replace (start v0, true) with (low (wscroll v0) (start w0, true)).
    - replace (start v1, true) with (low (wscroll v1) (start w1, true)); [exact R|]. unfold core in C1. injection C1 as X1 X2 X3 X4. unfold low, start, lower, set_wscroll. cbn. congruence.
    - unfold core in C0. injection C0 as X1 X2 X3 X4. unfold low, start, lower, set_wscroll. cbn. congruence.
  Qed.
End Loop.

(** * The comparison while it waits *)
Section Waiting.
  Variable (rx : bytes -> bool -> bytes -> bool) (f : nat) (a b : node) (m : mat) (len : elem -> Z) (sc : screen).
  Hypothesis OK : comparable a b m len f.
  Hypothesis G : roomy_windows sc.
  Hypothesis LEN : slen sc = len.
  Notation h := (split_memory a b).

  Lemma compares_again p : compares a b m sc p -> redraw_all h sc (pcoll p) m (pwins p) = Done (true, pwins p).
  Proof.
    assert (OK' := OK). destruct OK' as (MA & MB & FA & FB & D & B & SL & BK & FU).
    intros ((ws & R) & (w0 & w1 & E & R0 & R1) & H & _). assert (C := redraw_core h sc (pcoll p) m ws). rewrite R in C. cbn [ok snd] in C. rewrite E in *.
    destruct ws as [|u0 [|u1 [|]]]; try discriminate C. cbn [map] in C. assert (C0 : core u0 = core w0) by congruence. assert (C1 : core u1 = core w1) by congruence.
    assert (P0 : placed a (pcoll p) w0) by (destruct R0 as (Q0 & Q1 & Q2 & Q3); repeat split; assumption).
    assert (P1 : placed b (pcoll p) w1) by (destruct R1 as (Q0 & Q1 & Q2 & Q3); repeat split; assumption).
    destruct G as [G1 G2]. refine (both_again a b h sc (pcoll p) m (Nat.max (nesting a) (nesting b)) G2 eq_refl MA MB D (Nat.le_max_l _ _) (Nat.le_max_r _ _) G1 _ _ u0 u1 w0 w1 _ _ R).
    - rewrite LEN. exact SL.
    - rewrite LEN. exact BK.
    - apply (placed_core a (pcoll p) u0 w0 C0 P0).
    - apply (placed_core b (pcoll p) u1 w1 C1 P1).
  Qed.

  (** A change of size that leaves both windows their size. *)
  Lemma compares_same_size p stop w hh evs : compares a b m sc p -> room w hh -> w / 2 = sw sc -> hh - 2 = sh sc ->
    split_wait h m rx f sc p stop (EvSize w hh :: evs) = split_wait h m rx f sc p stop evs.
  Proof.
    intros C R EW EH. assert (L : length (pwins p) = 2%nat) by (destruct C as (_ & _ & _ & (L & _) & _); exact L).
    cbn [split_wait]. cbv zeta. rewrite (SplitPress.sized_screen w hh p sc L R), EW, EH. replace (mkScreen (sw sc) (sh sc) (slen sc)) with sc by (destruct sc; reflexivity).
    destruct (SplitPress.settle f a b m len sc OK G LEN p (SplitPress.compares_J a b m sc p C)) as (p' & E & _). assert (K := compares_again p C). destruct f as [|g]; [discriminate E|].
    cbn [redraws]. rewrite K. cbn [SplitView.bind]. destruct p; reflexivity.
  Qed.
End Waiting.

Lemma split_wait_app h m rx f x : forall y sc p sc' p', split_wait h m rx f sc p false x = Done (Waits sc' p') -> (forall e, In e x -> e <> EvStop) ->
  split_wait h m rx f sc p false (x ++ y) = split_wait h m rx f sc' p' false y.
Proof.
  induction x as [|[k q|w hh|] t IH]; intros y sc p sc' p' E N; cbn [split_wait app] in *.
  - injection E as <- <-. reflexivity.
  - assert (N' : forall e, In e t -> e <> EvStop) by (intros e I; apply N; right; exact I).
    destruct (split_key h m rx sc k q p) as [[o p1]|]; [|discriminate E]. cbn [SplitView.bind] in *.
    destruct o; try discriminate E; try (apply IH; assumption); (destruct (redraws h m f sc p1) as [p2|]; [|discriminate E]); cbn [SplitView.bind] in *; apply IH; assumption.
  - assert (N' : forall e, In e t -> e <> EvStop) by (intros e I; apply N; right; exact I). cbv zeta in *.
    destruct (redraws h m f _ p) as [p1|]; [|discriminate E]. cbn [SplitView.bind] in *. apply IH; assumption.
  - destruct (N EvStop); [left; reflexivity|reflexivity].
Qed.
Lemma split_run_same_size rx f a b m len w hh evs sc p w' hh' rest : comparable a b m len f -> room w hh -> rooms evs -> unsearched evs -> (forall e, In e evs -> e <> EvStop) ->
  split_run rx f len w hh a b evs = Done (Waits sc p) -> room w' hh' -> w' / 2 = sw sc -> hh' - 2 = sh sc ->
  split_run rx f len w hh a b (evs ++ EvSize w' hh' :: rest) = split_run rx f len w hh a b (evs ++ rest).
Proof.
  intros OK RW R U N E RW' EW EH. assert (X := SplitPress.run_compares rx f a b m len w hh evs OK RW R U). rewrite E in X. destruct X as (G & L & C).
  revert E. unfold split_run. assert (OK' := OK). destruct OK' as (_ & _ & _ & _ & _ & B & _). rewrite B. cbv zeta.
  destruct (redraws _ _ _ _ _) as [p1|]; [|discriminate]. cbn [SplitView.bind]. intros E. rewrite !(split_wait_app _ _ _ _ _ _ _ _ _ _ E N).
  apply (compares_same_size rx f a b m len sc OK G L p false w' hh' rest C RW' EW EH).
Qed.

(** One window of the comparison during a redraw: nothing undefined, rows only,
    and every item brings the end nearer. *)
From Verif Require Export Proofs.SplitMem.
From Verif Require Import Proofs.RowProofs Proofs.ViewProofs Proofs.NbLinesProofs.
From Coq Require Import Lia ZifyBool.
Open Scope Z_scope.

Lemma nb_some n w : 1 <= n < 2 ^ 32 -> 1 <= w < 2 ^ 32 -> exists k, getNbLines n w = Some k /\ 1 <= k <= n.
Proof.
  intros N W. set (c := (n + w - 1) / w).
  assert (C : (c - 1) * w < n <= c * w).
  { unfold c. assert (Q := Z.div_mod (n + w - 1) w ltac:(lia)). assert (R := Z.mod_pos_bound (n + w - 1) w ltac:(lia)). nia. }
  assert (1 <= c <= n) by nia. exists c. split; [|lia]. apply nb_lines_ceil; try assumption; lia.
Qed.

(** The same window but for the cursor's line and what was drawn. *)
Definition like (v w : win) : Prop :=
  core v = core w /\ wup v = wup w /\ wdown v = wdown w /\ wscroll v = wscroll w /\ wx v = wx w /\ wstack v = wstack w /\ wfound v = wfound w.

Definition never (f : fault) : Prop := False.
Lemma never_done {A} (P : A -> Prop) m : ok never P m -> exists a, m = Done a /\ P a.
Proof. destruct m; [eauto|intros []]. Qed.

(** Lines and indentation: an upper bound for the lines of a list of elements,
    each counted with its text and twice [hh]. *)
Definition lines_of (len : elem -> Z) (hh : Z) (l : list elem) : Z := fold_right (fun e s => len e + 2 * hh + s) 0 l.
Lemma lines_app len hh l l' : lines_of len hh (l ++ l') = lines_of len hh l + lines_of len hh l'.
Proof. induction l as [|e l IH]; cbn [app lines_of fold_right]; [reflexivity|]. fold (lines_of len hh (l ++ l')). fold (lines_of len hh l). rewrite IH. lia. Qed.
Lemma lines_nonneg len hh l : (forall e, 0 <= len e) -> 0 <= hh -> 0 <= lines_of len hh l.
Proof. intros L H. induction l as [|e l IH]; [reflexivity|]. cbn [lines_of fold_right]. fold (lines_of len hh l). specialize (L e). lia. Qed.
Lemma lines_flat len hh (f : elem -> list elem) l x : (forall e, 0 <= len e) -> 0 <= hh -> In x l -> lines_of len hh (f x) <= lines_of len hh (flat_map f l).
Proof.
  intros L H. induction l as [|e l IH]; [intros []|]. cbn [flat_map]. rewrite lines_app. assert (P := lines_nonneg len hh (flat_map f l) L H). assert (Q := lines_nonneg len hh (f e) L H).
  intros [->|I]; [lia|]. specialize (IH I). lia.
Qed.
Lemma lines_sub len hh n : (forall e, 0 <= len e) -> 0 <= hh -> forall e, In e (elems n) -> lines_of len hh (eelems e) <= lines_of len hh (elems n).
Proof.
  intros L H. induction n as [n IH] using node_kids_ind. intros e I. rewrite elems_children in I. destruct I as [<-|I]; [cbn [eelems]; lia|].
  apply in_flat_map in I. destruct I as (x & J & I). rewrite (elems_children n). cbn [lines_of fold_right]. fold (lines_of len hh (flat_map eelems (children n))).
  assert (Q := lines_flat len hh eelems (children n) x L H J). assert (P := L (ENode n)).
  enough (lines_of len hh (eelems e) <= lines_of len hh (eelems x)) by lia.
  specialize (IH x J e). destruct x as [c|m k v]; cbn [eelems value_of] in *; [apply IH, I|]. destruct I as [<-|I]; [cbn [eelems]; lia|]. specialize (IH I).
  cbn [lines_of fold_right]. fold (lines_of len hh (elems v)). specialize (L (EEntry m k v)). lia.
Qed.

Section Draw.
  Variable (r : node) (h : list elem) (sc : screen) (coll : list Z) (dm : mat).
  Hypothesis M : in_memory r.
  Hypothesis LK : forall i, In i (ids r) -> lookup h i = lookup (elems r) i.
  Hypothesis SW : 5 <= sw sc < 2 ^ 32.
  Variable nn : nat.
  Hypothesis NS : (nesting r <= nn)%nat.
  Hypothesis SL : forall e, 0 <= slen sc e.
  Let half : Z := 4 * Z.of_nat nn + 16.
  Let lines (l : list elem) : Z := lines_of (slen sc) half l.
  Hypothesis BK : lines (elems r) < 2 ^ 32.


  Lemma put_like s i c len maxw w : 1 <= len + wx w < 2 ^ 32 -> 1 <= maxw < 2 ^ 32 ->
    ok never (fun v => like v w /\ wy w + 1 <= wy v <= wy w + (len + wx w) /\ (wy w <= wscroll w -> wy v = wy w + 1)) (put dm s i c len maxw w).
  Proof.
    clear - dm. intros L W. unfold put. cbv zeta. destruct (wy w <=? wscroll w) eqn:Y.
    - cbn. split; [repeat split|]. lia.
    - destruct (nb_some _ _ L W) as (k & -> & K). cbn. unfold displayDiffOp. destruct (shown_op dm i); (split; [repeat split|cbn; lia]).
  Qed.

  Lemma put_prints e t s i c len maxw w : 1 <= len + wx w < 2 ^ 32 -> 1 <= maxw < 2 ^ 32 ->
    ok never (fun v => like v w /\ wy w + 1 <= wy v <= wy w + (len + wx w) /\ (wy w <= wscroll w -> wy v = wy w + 1)) (put dm s i c len maxw (prints e t w)).
  Proof. exact (put_like s i c len maxw (prints e t w)). Qed.

  Definition is_row (o : option Z) : Prop := forall i, o = Some i -> In i (rows coll r).
  Definition open_at (c : node) : Prop := mem (nid c) coll = false /\ exists k pre q post, place r coll k pre q post /\ value_of q = c.
  Fixpoint chain (st : list (Z * node)) : Prop :=
    match st with
    | [] => True
    | (i, c) :: t => chain t /\ -1 <= i < Z.of_nat (length (children c)) /\ open_at c /\ (nesting c + length t <= nesting r)%nat
    end.
  Lemma chain_length st : chain st -> (length st <= nesting r)%nat.
  Proof.
    destruct st as [|[i c] t]; [cbn; lia|]. cbn. intros (_ & _ & _ & N). assert (1 <= nesting c)%nat by (destruct c; cbn; lia). lia.
  Qed.
  Lemma kid_nesting c e : In e (children c) -> (nesting (value_of e) < nesting c)%nat.
  Proof.
    destruct c as [m p|m l|m l]; cbn [children]; [intros []| |]; intros I; apply in_map_iff in I; destruct I as (x & <- & I); cbn [value_of nesting].
    - apply le_n_S. induction l as [|y l IH]; [destruct I|]. cbn. destruct I as [->|I]; [lia|]. specialize (IH I). lia.
    - apply le_n_S. induction l as [|y l IH]; [destruct I|]. cbn. destruct I as [->|I]; [lia|]. specialize (IH I). lia.
  Qed.

  (** The items left. *)
  Definition wt (l : list elem) : nat := 2 * length (flat_map eelems l).
  Fixpoint left_in (st : list (Z * node)) : nat :=
    match st with
    | [] => O
    | (i, c) :: t => (S (wt (skipn (Z.to_nat (i + 1)) (children c))) + left_in t)%nat
    end.
  Fixpoint lines_in (st : list (Z * node)) : Z :=
    match st with
    | [] => 0
    | (i, c) :: t => half + lines (flat_map eelems (skipn (Z.to_nat (i + 1)) (children c))) + lines_in t
    end.
  Definition lines_left (w : win) : Z := match wstack w with [] => lines (elems r) | st => lines_in st end.
  Definition items_left (w : win) : nat := match wstack w with [] => 2 * length (elems r) | st => left_in st end.

  (** The window is in the middle of its document. *)
  Definition fine (w : win) : Prop :=
    wroot w = r /\ chain (wstack w) /\ wx w = 2 + INDENT_LEVEL * Z.of_nat (length (wstack w)) /\ is_row (wup w) /\ is_row (wdown w).

  (** What drawing an item does. *)
  Definition moved (w v : win) : Prop :=
    core v = core w /\ is_row (wup v) /\ is_row (wdown v) /\
    wy w + 1 <= wy v /\ (wfound w = true -> wfound v = true) /\
    (wscroll v = wscroll w \/ (wfound w = false /\ wfound v = true /\ wy w <= wscroll w /\ wscroll v = if wy w =? 0 then 0 else wy w - 1)).
  Lemma check_facts e w : is_row (wup w) -> is_row (wdown w) -> In e (elems r) -> parent_is_entry (elems r) e = false -> In (eid e) (rows coll r) ->
    (forall p, epar e = Some p -> is_entry h p = false) ->
    let v := check h e w in
    core v = core w /\ wx v = wx w /\ wstack v = wstack w /\ wy v = wy w /\ is_row (wup v) /\ is_row (wdown v) /\ (wfound w = true -> wfound v = true) /\
    (wscroll v = wscroll w \/ (wfound w = false /\ wfound v = true /\ wy w <= wscroll w /\ wscroll v = if wy w =? 0 then 0 else wy w - 1)).
  Proof.
    intros U D I PE R NP. cbv zeta. unfold check. destruct (wfound w) eqn:F; cbn [negb].
    - destruct (wdown w) eqn:DW; [rewrite DW; repeat split; auto|]. cbv zeta.
      assert (Q : forall o : option elem, let v := match o with Some e' => if negb (parent_is_entry h e') then set_wdown w (Some (eid e)) else w | None => w end in
        core v = core w /\ wx v = wx w /\ wstack v = wstack w /\ wy v = wy w /\ is_row (wup v) /\ is_row (wdown v) /\ (wfound w = true -> wfound v = true) /\
        (wscroll v = wscroll w \/ (wfound w = false /\ wfound v = true /\ wy w <= wscroll w /\ wscroll v = if wy w =? 0 then 0 else wy w - 1))).
      { intros [e'|]; [destruct (negb _)|]; cbn; rewrite ?F, ?DW; repeat split; auto. intros i [= <-]. exact R. }
      rewrite F in Q. destruct (epar e) as [p|] eqn:EP; [rewrite (NP p eq_refl), andb_false_r|]; apply Q.
    - destruct (sel_is (wlast w) (eid e)) eqn:S.
      + destruct (wy w <=? wscroll w) eqn:Y; cbn; repeat split; auto. right. repeat split; auto. lia.
      + destruct (negb _); cbn; rewrite ?F; repeat split; auto; try congruence.
  Qed.

  Lemma inner_ok : 1 <= inner sc < 2 ^ 32.
  Proof. clear - SW. unfold inner, usub. rewrite Z.mod_small by lia. lia. Qed.
  Lemma inner2_ok : 1 <= usub (usub (sw sc) 2) 2 < 2 ^ 32.
  Proof. clear - SW. unfold usub. rewrite (Z.mod_small (sw sc - 2)) by lia. rewrite Z.mod_small by lia. lia. Qed.

  Lemma moved_like w w1 v : core w1 = core w /\ wx w1 = wx w /\ wstack w1 = wstack w /\ wy w1 = wy w /\ is_row (wup w1) /\ is_row (wdown w1) /\ (wfound w = true -> wfound w1 = true) /\
    (wscroll w1 = wscroll w \/ (wfound w = false /\ wfound w1 = true /\ wy w <= wscroll w /\ wscroll w1 = if wy w =? 0 then 0 else wy w - 1)) ->
    like v w1 -> wy w1 + 1 <= wy v -> moved w v.
  Proof.
    intros (A1 & A2 & A3 & A4 & A5 & A6 & A7 & A8) (B1 & B2 & B3 & B4 & B5 & B6 & B7) Y. unfold moved. rewrite B1, B2, B3, B4, B7. rewrite A4 in Y.
    repeat (split; [assumption|]). auto.
  Qed.

  Lemma wt_cons e l : wt (e :: l) = (2 * length (eelems e) + wt l)%nat.
  Proof. unfold wt. cbn [flat_map]. rewrite app_length. lia. Qed.
  Lemma wt_node n : (2 * length (elems n) = 2 + wt (children n))%nat.
  Proof. rewrite elems_children. cbn [length]. unfold wt. lia. Qed.

  (** Drawing an element found at its place; [st] is the stack below it. *)
  Section Element.
    Variable (e : elem) (k : nat) (pre post : list Z) (st : list (Z * node)) (w : win).
    Hypothesis PL : place r coll k pre e post.
    Hypothesis ST : wstack w = st.
    Hypothesis CH : chain st.
    Hypothesis FR : wroot w = r.
    Hypothesis FX : wx w = 2 + INDENT_LEVEL * Z.of_nat (length st).
    Hypothesis FU : is_row (wup w).
    Hypothesis FD : is_row (wdown w).
    Hypothesis NE : (nesting (value_of e) + length st <= nesting r)%nat.

    Definition grown (x : bool * win) : Prop :=
      moved w (snd x) /\ fst x = negb (bottom sc (snd x)) /\ wy (snd x) <= wy w + lines (eelems e) /\
      (fst x = true -> fine (snd x) /\ (left_in (wstack (snd x)) < 2 * length (eelems e) + left_in st)%nat /\
        wy (snd x) + lines_in (wstack (snd x)) <= wy w + lines (eelems e) + lines_in st).

    Lemma draw_elem_ok : ok never grown (draw_elem h sc coll dm e w).
    Proof.
      assert (IN := place_in r _ _ _ _ _ PL). assert (RW := place_row r M _ _ _ _ _ PL).
      assert (RR : In (eid e) (rows coll r)) by (rewrite (place_rows r _ _ _ _ _ PL); apply in_or_app; right; left; reflexivity).
      assert (NP : forall p, epar e = Some p -> is_entry h p = false).
      { intros p EP. assert (Q := parent_h r h M LK e IN). rewrite RW in Q. unfold parent_is_entry in Q. rewrite EP in Q. exact Q. }
      assert (C := check_facts e w FU FD IN RW RR NP). cbv zeta in C.
      unfold draw_elem. cbv zeta. set (w1 := check h e w) in *. clearbody w1.
      assert (X1 : wx w1 = wx w) by apply C. assert (S1 : wstack w1 = wstack w) by apply C. assert (Y1 : wy w1 = wy w) by apply C.
      assert (LS := chain_length st CH). assert (HN : 16 <= half) by (unfold half; lia).
      assert (XB : 2 <= wx w1 <= half - 14) by (rewrite X1, FX; unfold INDENT_LEVEL, half; lia).
      assert (LB : lines (eelems e) < 2 ^ 32) by (assert (Q := lines_sub (slen sc) half r SL ltac:(lia) e IN); unfold lines in *; lia).
      assert (LN : forall n, lines (elems n) = slen sc (ENode n) + 2 * half + lines (flat_map eelems (children n))) by (intros n; rewrite elems_children; reflexivity).
      assert (L0 : forall l, 0 <= lines l) by (intros l; apply lines_nonneg; [exact SL|lia]).
      assert (EP : (1 <= length (eelems e))%nat) by (destruct e; cbn [eelems]; [rewrite elems_children|]; cbn; lia).
      assert (MV : forall v, like v w1 -> wy w1 + 1 <= wy v -> moved w v) by (intros v; apply (moved_like w w1 v C)).
      assert (FN : forall v, like v w1 -> fine v).
      { intros v (B1 & B2 & B3 & B4 & B5 & B6 & B7). unfold fine. rewrite B5, B6, B2, B3, X1, S1, ST, FX.
        repeat split; try apply C; try exact CH. assert (E : core v = core w) by (rewrite B1; apply C). injection E. congruence. }
      assert (ONE : forall e' t s i c len, 0 <= len -> len + half <= lines (eelems e) -> ok never grown (v <~ put dm s i c len (inner sc) (prints e' t w1) ; Done (negb (bottom sc v), v))).
      { intros e' t s i c len L L'. eapply ok_bind; [apply put_prints; [lia|apply inner_ok]|]. intros v (LV & YV & _). split; [apply MV; [exact LV|cbn [snd]; lia]|]. split; [reflexivity|].
        cbn [fst snd]. split; [lia|]. intros _. split; [apply FN, LV|]. destruct LV as (_ & _ & _ & _ & _ & SV & _). rewrite SV, S1, ST. lia. }
      assert (OPEN : forall e' t u n, like u w1 -> wy w1 <= wy u -> wy u + lines (elems n) <= wy w1 + lines (eelems e) -> value_of e = n -> mem (nid n) coll = false ->
                ok never grown (v <~ put dm true (nid n) false 1 (inner sc) (prints e' t u) ; if bottom sc v then Done (false, v) else Done (true, set_wx (set_wstack v ((-1, n) :: wstack v)) (wx v + INDENT_LEVEL)))).
      { intros e' t u n (U1 & U2 & U3 & U4 & U5 & U6 & U7) YU YU' V C'. rewrite LN in YU'. assert (SN := SL (ENode n)). assert (L1 := L0 (flat_map eelems (children n))).
        eapply ok_bind; [apply put_prints; [lia|apply inner_ok]|]. intros v (LV & YV & _).
        assert (LV' : like v w1) by (destruct LV as (V1 & V2 & V3 & V4 & V5 & V6 & V7); unfold like; repeat split; congruence).
        assert (MVV : moved w v) by (apply MV; [exact LV'|lia]).
        destruct (bottom sc v) eqn:BB; [split; [exact MVV|cbn [fst snd]; rewrite BB; split; [reflexivity|split; [lia|discriminate]]]|].
        split; [exact MVV|]. cbn [fst snd]. split; [change (true = negb (bottom sc v)); rewrite BB; reflexivity|]. cbn [wy set_wx set_wstack]. split; [lia|]. intros _.
        destruct (FN v LV') as (F1 & F2 & F3 & F4 & F5). assert (SV : wstack v = st) by (destruct LV' as (_ & _ & _ & _ & _ & Q & _); congruence).
        rewrite SV in *. split; [|split].
        + split; [exact F1|]. split; [|split; [cbn [wx wstack set_wx set_wstack length]; rewrite F3; lia|split; assumption]].
          cbn [chain wstack set_wx set_wstack]. split; [exact F2|]. split; [lia|]. split; [|subst n; exact NE]. split; [exact C'|]. eauto 6.
        + cbn [wstack set_wx set_wstack left_in]. change (Z.to_nat (-1 + 1)) with O. cbn [skipn].
          enough (S (wt (children n)) < 2 * length (eelems e))%nat by lia. assert (Q := wt_node n). subst n. destruct e; cbn [eelems value_of length] in *; lia.
        + cbn [wstack set_wx set_wstack lines_in]. change (Z.to_nat (-1 + 1)) with O. cbn [skipn]. lia. }
      assert (EV : forall m key v, lines (eelems (EEntry m key v)) = slen sc (EEntry m key v) + 2 * half + lines (elems v)) by reflexivity.
      destruct e as [n|m key v] eqn:EE; cbv iota.
      - assert (LE : lines (eelems (ENode n)) = lines (elems n)) by reflexivity. rewrite LE, LN in *. assert (SN := SL (ENode n)). assert (L1 := L0 (flat_map eelems (children n))).
        destruct (is_container n) eqn:IC.
        + unfold open_container. destruct (mem (nid n) coll) eqn:CO; [apply ONE; lia|].
          apply OPEN; [repeat split|lia|rewrite LN; lia|reflexivity|exact CO].
        + apply ONE; lia.
      - unfold draw_entry. cbv zeta. rewrite EV, LN in *. assert (SE := SL (EEntry m key v)). assert (SN := SL (ENode v)). assert (L1 := L0 (flat_map eelems (children v))).
        assert (KA : forall tx len, 0 <= len <= slen sc (ENode v) + 8 -> ok never grown (r <~ key_after sc dm (EEntry m key v) tx len w1 ; let '(b, w) := r in Done (b && negb (bottom sc w), w))).
        { intros tx len L. assert (Q := fun t => ONE (EEntry m key v) t false (eid (EEntry m key v)) false (slen sc (EEntry m key v) + 2 + len) ltac:(lia) ltac:(lia)).
          unfold key_after. destruct (wy w1 <=? wscroll w1) eqn:YY.
          - specialize (Q nil). revert Q. unfold put. cbv zeta. change (wy (prints (EEntry m key v) [] w1)) with (wy w1). change (wscroll (prints (EEntry m key v) [] w1)) with (wscroll w1). rewrite YY. cbn [SplitView.bind ok andb]. auto.
          - match goal with |- context [prints _ ?t w1] => specialize (Q t) end. revert Q. destruct (put _ _ _ _ _ _ _) as [u|]; [|intros []]. intros Q. change (grown (negb (bottom sc u) && negb (bottom sc u), u)). rewrite andb_diag. exact Q. }
        destruct (is_container v && mem (nid v) coll) eqn:C1; [apply KA; lia|].
        destruct (negb (is_container v)) eqn:C2; [apply KA; lia|].
        destruct (children v) eqn:CV; [apply KA; lia|]. rewrite <- CV in *.
        assert (CO : mem (nid v) coll = false) by (destruct (mem (nid v) coll), (is_container v); cbn in *; congruence).
        eapply ok_bind with (P := fun x => like (snd x) w1 /\ wy w1 + 1 <= wy (snd x) <= wy w1 + slen sc (EEntry m key v) + half /\ (fst x = false -> bottom sc (snd x) = true)).
        + unfold key_alone. destruct (wy w1 <=? wscroll w1) eqn:YY; [cbn; split; [repeat split|split; [lia|discriminate]]|].
          eapply ok_bind; [apply put_prints; [lia|apply inner2_ok]|]. intros u (LU & YU & _). cbn. split; [exact LU|]. split; [lia|]. destruct (bottom sc u); [reflexivity|discriminate].
        + intros [b u] (LU & YU & BU). cbn [fst snd] in *. destruct b.
          * unfold open_container. rewrite CO. eapply ok_bind; [apply OPEN; [exact LU|lia|rewrite LN; lia|reflexivity|exact CO]|].
            intros [b x] (G1 & G2 & G3). cbn [fst snd] in *. split; [exact G1|]. split; [reflexivity|]. cbn [fst snd]. rewrite <- G2. exact G3.
          * split; [apply MV; [exact LU|cbn [snd]; lia]|]. cbn [fst snd]. rewrite BU by reflexivity. split; [reflexivity|]. split; [|discriminate]. rewrite EE, EV, LN. lia.
    Qed.
  End Element.

  Lemma skipn_nth {A} (l : list A) : forall n x, nth_error l n = Some x -> skipn n l = x :: skipn (S n) l.
  Proof. induction l as [|y l IH]; intros [|n] x E; try discriminate E; [injection E as ->; reflexivity|]. exact (IH n x E). Qed.

  (** The next item, from any point. *)
  Definition progress (w : win) (x : bool * win) : Prop :=
    moved w (snd x) /\ fst x = negb (bottom sc (snd x)) /\ wy (snd x) <= wy w + lines_left w /\
    (fst x = true -> fine (snd x) /\ (left_in (wstack (snd x)) < items_left w)%nat /\ wy (snd x) + lines_in (wstack (snd x)) <= wy w + lines_left w).
  Lemma lines_in_nonneg st : 0 <= lines_in st.
  Proof using SL.
    clear NS. induction st as [|[i c] t IH]; [cbn; lia|]. cbn [lines_in]. assert (0 <= half) by (unfold half; lia).
    assert (Q := lines_nonneg (slen sc) half (flat_map eelems (skipn (Z.to_nat (i + 1)) (children c))) SL H). unfold lines. lia.
  Qed.
  Lemma draw_next_ok w : fine w -> ok never (progress w) (draw_next h sc coll dm w).
  Proof.
    intros (F1 & F2 & F3 & F4 & F5). unfold draw_next. destruct (wstack w) as [|[i c] t] eqn:ST.
    - rewrite F1. eapply ok_mono; [apply (draw_elem_ok (ENode r) O [] [] [] w (PL_root r coll) ST F2 F1 F3 F4 F5); cbn; lia|].
      intros [b v] (G1 & G2 & G4 & G3). split; [exact G1|]. split; [exact G2|].
      assert (LL : lines_left w = lines (eelems (ENode r))) by (unfold lines_left; rewrite ST; reflexivity). rewrite LL. split; [exact G4|].
      intros T. destruct (G3 T) as (A & B & C). split; [exact A|]. unfold items_left. rewrite ST. cbn [left_in lines_in] in *. cbn [eelems] in B. lia.
    - destruct F2 as (C1 & C2 & (C3 & k & pre & q & post & PQ & VQ) & C4).
      assert (LT := chain_length t C1).
      assert (IL : items_left w = (S (wt (skipn (Z.to_nat (i + 1)) (children c))) + left_in t)%nat) by (unfold items_left; rewrite ST; reflexivity).
      assert (LL : lines_left w = half + lines (flat_map eelems (skipn (Z.to_nat (i + 1)) (children c))) + lines_in t) by (unfold lines_left; rewrite ST; reflexivity).
      assert (HN : 16 <= half) by (unfold half; lia). assert (LT' := lines_in_nonneg t).
      destruct (i + 1 =? Z.of_nat (length (children c))) eqn:E.
      + assert (L0 := lines_nonneg (slen sc) half (flat_map eelems (skipn (Z.to_nat (i + 1)) (children c))) SL ltac:(lia)). fold (lines (flat_map eelems (skipn (Z.to_nat (i + 1)) (children c)))) in L0.
        assert (HB : half < 2 ^ 32).
        { assert (Q := lines_nonneg (slen sc) half (flat_map eelems (children r)) SL ltac:(lia)). assert (Q' := SL (ENode r)). revert BK. unfold lines. rewrite elems_children. cbn [lines_of fold_right]. fold (lines_of (slen sc) half (flat_map eelems (children r))). lia. }
        unfold close_container. eapply ok_bind; [apply put_prints; [cbn [wx set_wx set_wstack]; rewrite F3; cbn [length]; unfold INDENT_LEVEL, half in *; lia|apply inner_ok]|].
        intros v ((V1 & V2 & V3 & V4 & V5 & V6 & V7) & YV & _). cbn [wx wy wscroll wup wdown wstack wfound set_wx set_wstack] in *.
        split; [unfold moved; cbn [snd]; rewrite V2, V3, V4, V7; repeat split; auto; try lia; try apply V1|]. split; [reflexivity|]. cbn [fst snd].
        assert (YB : wy v + lines_in t <= wy w + lines_left w) by (rewrite F3 in YV; cbn [length] in YV; unfold INDENT_LEVEL, half in *; lia).
        split; [lia|]. intros _. split; [|split].
        * unfold fine. rewrite V2, V3, V5, V6, F3. cbn [length]. split; [injection V1 as -> ; exact F1|]. split; [exact C1|]. split; [lia|]. auto.
        * rewrite V6, IL. lia.
        * rewrite V6. exact YB.
      + destruct (nth_error (children c) (Z.to_nat (i + 1))) as [e|] eqn:NE; [|apply nth_error_None in NE; lia].
        assert (IE := nth_error_In _ _ NE). destruct (in_split _ _ IE) as (l1 & l2 & K).
        assert (NS' := kid_nesting c e IE). rewrite <- VQ in K, C3.
        eapply ok_mono; [apply (draw_elem_ok e _ _ _ ((i + 1, c) :: t) (set_wstack w ((i + 1, c) :: t)) (PL_child r coll k pre q post l1 e l2 PQ C3 K) eq_refl)|].
        * cbn [chain]. split; [exact C1|]. split; [lia|]. split; [|exact C4]. subst c. split; [exact C3|]. eauto 6.
        * exact F1.
        * exact F3.
        * exact F4.
        * exact F5.
        * cbn [length]. lia.
        * intros [b v] (G1 & G2 & G4 & G3). split; [exact G1|]. split; [exact G2|]. cbn [fst snd] in *. cbn [wy set_wstack] in G4, G3.
          rewrite LL, IL, (skipn_nth _ _ _ NE), wt_cons. cbn [flat_map]. unfold lines in *. rewrite lines_app.
          assert (L0 := lines_nonneg (slen sc) half (flat_map eelems (skipn (S (Z.to_nat (i + 1))) (children c))) SL ltac:(lia)). split; [lia|].
          intros T. destruct (G3 T) as (A & B & C). split; [exact A|].
          cbn [left_in lines_in] in B, C. replace (Z.to_nat (i + 1 + 1)) with (S (Z.to_nat (i + 1))) in B, C by lia. unfold lines in C. lia.
  Qed.

  (** Selected is nothing or a row; the last selection is a row. *)
  Definition placed (w : win) : Prop := wroot w = r /\ (exists l, wlast w = Some l /\ In l (rows coll r)) /\ is_row (wsel w).
  Lemma placed_core v w : core v = core w -> placed w -> placed v.
  Proof. intros E. injection E as E1 E2 E3 E4. unfold placed. rewrite E1, E2, E3. auto. Qed.

  (** What an item does: absent, finished, or more to come. *)
  Definition scroll_kept (w v : win) : Prop :=
    wscroll v = wscroll w \/ (wfound w = false /\ wfound v = true /\ wy w <= wscroll w /\ wscroll v = if wy w =? 0 then 0 else wy w - 1).
  Definition ready_rows (v : win) : Prop := exists u d, wup v = Some u /\ wdown v = Some d /\ In u (rows coll r) /\ In d (rows coll r).
  Definition after_item (w : win) (x : option bool * win) : Prop :=
    core (snd x) = core w /\ wy w + 1 <= wy (snd x) <= wy w + lines_left w /\
    match fst x with
    | None => wfound w = false /\ wfound (snd x) = false /\ wscroll (snd x) = wscroll w + 1 /\ wscroll w <= wy (snd x)
    | Some fin => scroll_kept w (snd x) /\ (wfound w = true -> wfound (snd x) = true) /\
        if fin : bool then ready_rows (snd x) else fine (snd x) /\ (items_left (snd x) < items_left w)%nat /\ wy (snd x) + lines_left (snd x) <= wy w + lines_left w
    end.

  Lemma first_child n c l : In (nid n) (rows coll r) -> mem (nid n) coll = false -> In (ENode n) (elems r) -> children n = c :: l -> In (eid c) (rows coll r).
  Proof.
    intros I C J K. destruct (place_of r coll _ I) as (k & pre & e & post & P & E).
    assert (e = ENode n) by (apply (eid_inj r M); [apply (place_in r _ _ _ _ _ P)|exact J|exact E]). subst e.
    assert (Q := PL_child r coll k pre (ENode n) post [] c l P C K). rewrite (place_rows r _ _ _ _ _ Q). apply in_or_app. right. left. reflexivity.
  Qed.

  Lemma next_row l f : In l (rows coll r) -> (length (elems r) <= f)%nat -> exists o, findNext (S f) h l = Some o /\ is_row o.
  Proof.
    intros I F. rewrite (findNext_h r h M LK) by (apply (rows_ids r coll), I).
    destruct (place_of r coll l I) as (k & pre & e & post & P & <-). assert (D := place_size r _ _ _ _ _ P).
    destruct (findNext_place r M coll k pre e post P (S f)) as (o & E & H); [lia|]. exists o. split; [exact E|].
    intros i ->. destruct H as [H|(x & post' & [= ->] & ->)]; [discriminate|]. rewrite (place_rows r _ _ _ _ _ P). apply in_or_app. right. apply in_or_app. right. left. reflexivity.
  Qed.

  Hypothesis LH : (length (elems r) <= length h)%nat.

  Lemma one_item_ok w : fine w -> placed w -> ok never (after_item w) (one_item h sc coll dm w).
  Proof.
    intros F PL. unfold one_item. eapply ok_bind; [apply draw_next_ok, F|].
    intros [b v] ((M1 & M2 & M3 & M4' & M5 & M6) & B & YB & N). cbn [fst snd] in *. cbv zeta. assert (M4 : wy w + 1 <= wy v <= wy w + lines_left w) by lia.
    assert (PV := placed_core v w M1 PL).
    assert (SC0 : negb b && negb (wfound v) = true -> wfound w = false /\ wscroll v = wscroll w /\ wscroll w <= wy v).
    { intros E. assert (wfound v = false) by (destruct (wfound v); [rewrite andb_false_r in E|]; auto). assert (wscroll v = wscroll w) by (destruct M6 as [?|(_ & ? & _)]; [assumption|congruence]).
      split; [destruct (wfound w); [rewrite M5 in H by reflexivity; discriminate|reflexivity]|]. split; [assumption|]. destruct b; [discriminate E|].
      assert (bottom sc v = true) by (destruct (bottom sc v); [reflexivity|discriminate B]). unfold bottom, hasReachedBottom in H1. lia. }
    destruct (negb b || match wstack v with [] => true | _ => false end) eqn:E1.
    - destruct (negb b && negb (wfound v)) eqn:E2.
      + destruct (SC0 eq_refl) as (S1 & S2 & S3). split; [exact M1|]. split; [exact M4|]. cbn [fst snd wfound wscroll set_wscroll wy]. rewrite S2. repeat split; auto.
        destruct (wfound v); [destruct b; discriminate E2|reflexivity].
      + eapply ok_bind with (P := fun d => exists i, d = Some i /\ In i (rows coll r)).
        * destruct (wdown v) as [d|] eqn:DV; [cbn; exists d; split; [reflexivity|apply M3; reflexivity]|].
          destruct PV as (P1 & (l & P2 & P3) & P4).
          assert (NX : ok never (fun d => exists i, d = Some i /\ In i (rows coll r)) (i <~ lift (wlast v) ; next <~ lift (findNext (S (length h)) h i) ; Done (Some (match next with Some x => x | None => i end)))).
          { rewrite P2. cbn [lift SplitView.bind]. destruct (next_row l (length h) P3 LH) as (o & -> & IO). cbn. destruct o as [x|]; [exists x; split; [reflexivity|apply IO; reflexivity]|exists l; auto]. }
          destruct (wsel v) as [i|] eqn:SV; [|exact NX].
          assert (IR := P4 i eq_refl). destruct (lookup_ids r M i (rows_ids r coll i IR)) as (e & LE). rewrite LK by (apply (rows_ids r coll), IR). rewrite LE. cbn [lift SplitView.bind].
          apply lookup_some in LE. destruct LE as [IE <-]. destruct e as [n|]; [|exact NX]. destruct (mem (nid n) coll) eqn:CO; [exact NX|].
          destruct (children n) as [|c cl] eqn:K; [exact NX|]. cbn. exists (eid c). split; [reflexivity|]. eapply first_child; eauto.
        * intros d (i & -> & ID). split; [exact M1|]. split; [exact M4|]. cbn [fst snd]. split; [exact M6|]. split; [exact M5|].
          destruct PV as (P1 & (l & P2 & P3) & P4). cbn [wup wdown set_wup set_wdown]. unfold ready_rows. cbn [wup wdown set_wup set_wdown].
          destruct (wup v) as [u|] eqn:UV; [exists u, i|rewrite P2; exists l, i]; repeat split; auto.
    - destruct b; [|discriminate E1]. destruct (N eq_refl) as (N1 & N2 & N3). split; [exact M1|]. split; [exact M4|]. cbn [fst snd]. split; [exact M6|]. split; [exact M5|]. split; [exact N1|].
      unfold items_left at 1, lines_left at 1. destruct (wstack v); [discriminate E1|]. auto.
  Qed.
End Draw.

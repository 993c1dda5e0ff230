(** Which rows the Up and Down keys lead to. *)
From Verif Require Import Model.SimpleText Spec.ViewSpec Spec.ReachSpec.
From Verif Require Import Proofs.RowProofs Proofs.DrawProofs Proofs.ViewProofs Proofs.LoopProofs Proofs.PageProofs Proofs.PressProofs.
From Coq Require Import Lia ZifyBool.
Open Scope Z_scope.

Section Exec.
  Variable root : node.
  Hypothesis M : in_memory root.
  Variable sc : screen.
  Notation h := (elems root).

  (** Once the selection is found, scrollTop does not change. *)
  Lemma exec_kept l : forall s b s', dfound s = true -> exec h sc l s = Some (b, s') -> dscroll s' = dscroll s /\ dfound s' = true.
  Proof.
    induction l as [|c l IH]; intros s b s' F E; cbn [exec] in E; [injection E as <- <-; auto|].
    destruct (step h sc c s) as [[b1 s1]|] eqn:S; [|discriminate]. cbn [obind] in E. destruct (step_spec _ _ _ _ _ _ S) as (O & SC & _).
    assert (F1 : dfound s1 = true).
    { unfold ob in O. injection O as _ _ ->. unfold chk, checkSelection. destruct (celem c) as [e|]; [|exact F]. rewrite F. cbn [negb].
      destruct (ddown s); [exact F|]. destruct (negb _); [reflexivity|exact F]. }
    assert (S1 : dscroll s1 = dscroll s) by (rewrite SC; destruct (chk_scroll root c s) as [Q|(Q & _)]; [exact Q|congruence]).
    destruct b1; [destruct (IH _ _ _ F1 E); split; congruence|]. injection E as <- <-. auto.
  Qed.

  (** It is lowered to the place of the selection, if that is above. *)
  Lemma exec_scrolls i l : forall K n s b s', wf root (Some i) (dfound s) l -> closed K l -> ~ In i K -> dfound s = false ->
    0 <= n -> (dy s <= dscroll s -> dy s = 1 + n) -> (dscroll s < dy s -> dscroll s <= n) -> 1 <= dy s ->
    exec h sc l s = Some (b, s') -> dfound s' = true ->
    exists a c t, l = a ++ c :: t /\ cid c = i /\ ~ In i (map cid a) /\ dscroll s' = Z.min (dscroll s) (n + Z.of_nat (length a)).
  Proof.
    induction l as [|c l IH]; intros K n s b s' W C NK F N P1 P2 Y E F'; cbn [exec] in E; [injection E as <- <-; congruence|].
    destruct (step h sc c s) as [[b1 s1]|] eqn:S; [|discriminate]. cbn [obind] in E.
    destruct (step_spec _ _ _ _ _ _ S) as (O & SC & LN & _). destruct (chk_ob _ _ _ _ _ W) as (CO & CF).
    inversion W as [|f c' t' A B W1]; subst. cbn [closed] in C. destruct C as [C1 C2]. 
    assert (F1 : dfound s1 = hit (Some i) c). { transitivity (dfound (chk h c s)); [unfold ob in O; congruence|]. rewrite CF, F. reflexivity. }
    destruct (hit (Some i) c) eqn:HH.
    - exists [], c, l. split; [reflexivity|]. unfold hit in HH. destruct (celem c) as [e|] eqn:CE; [|discriminate HH]. cbn [sel_is] in HH. apply Z.eqb_eq in HH.
      split; [rewrite (B e eq_refl); auto|]. split; [intros []|].
      assert (S' : dscroll s' = dscroll s1). { destruct b1; [apply (exec_kept _ _ _ _ F1 E)|]. injection E as <- <-. reflexivity. }
      rewrite S', SC. unfold chk, checkSelection. rewrite CE, F. cbn [negb]. destruct (A F) as [-> _]. cbn [sel_is]. rewrite HH, Z.eqb_refl. cbn [dscroll length].
      destruct (dy s <=? dscroll s) eqn:L; [destruct (dy s =? 0) eqn:Z0|]; lia.
    - assert (CI : cid c <> i).
      { intros Q. destruct (celem c) as [e|] eqn:CE; [|apply NK; rewrite <- Q; auto]. unfold hit in HH. rewrite CE in HH. cbn [sel_is] in HH. rewrite (B e eq_refl) in Q. lia. }
      assert (S1 : dscroll s1 = dscroll s). { rewrite SC. destruct (chk_scroll root c s) as [Q|(_ & Q & _)]; [exact Q|]. rewrite CF, F in Q. discriminate Q. }
      destruct b1; [|injection E as <- <-; congruence].
      rewrite F in W1. cbn [orb] in W1. rewrite <- F1 in W1.
      assert (Y1 : 1 <= dy s1). { destruct LN as [(_ & -> & _)|(_ & (k & Q & ->) & _)]; [lia|]. apply nb_nonneg in Q. lia. }
      destruct (IH (cid c :: K) (n + 1) s1 b s' W1 C2 ltac:(intros [Q|Q]; auto) F1 ltac:(lia)) as (a & c' & t & EQ & I & NI & Q); auto.
      { destruct LN as [(L1 & -> & _)|(L1 & (k & Q & ->) & _)]; [lia|]. apply nb_nonneg in Q. lia. }
      { destruct LN as [(L1 & -> & _)|(L1 & (k & Q & ->) & _)]; [lia|]. apply nb_nonneg in Q. lia. }
      exists (c :: a), c', t. split; [rewrite EQ; reflexivity|]. split; [exact I|]. cbn [map length]. split; [intros [J|J]; auto|]. lia.
  Qed.

  (** The row after the selection is on screen if it was reached. *)
  Lemma exec_next sel l : forall s b s' d, wf root sel (dfound s) l -> dfound s = true -> ddown s = None -> dscroll s < dy s ->
    exec h sc l s = Some (b, s') -> ddown s' = Some d -> exists line q, In (d, line, q) (dlines s').
  Proof.
    induction l as [|c l IH]; intros s b s' d W F D Y E D'; cbn [exec] in E; [injection E as <- <-; congruence|].
    destruct (step h sc c s) as [[b1 s1]|] eqn:S; [|discriminate]. cbn [obind] in E.
    destruct (step_spec _ _ _ _ _ _ S) as (O & SC & LN & _). destruct (chk_ob _ _ _ _ _ W) as (CO & CF).
    inversion W as [|f c' t' A B W1]; subst.
    assert (F1 : dfound s1 = true) by (transitivity (dfound (chk h c s)); [unfold ob in O; congruence|]; rewrite CF, F; reflexivity).
    assert (S1 : dscroll s1 = dscroll s) by (rewrite SC; destruct (chk_scroll root c s) as [Q|(Q & _)]; [exact Q|congruence]).
    rewrite S1 in LN. destruct LN as [(L1 & _)|(_ & (k & K & YE) & LI)]; [lia|]. apply nb_nonneg in K.
    destruct (ddown s1) as [d1|] eqn:D1.
    - assert (Q : d1 = cid c).
      { rewrite CO in O. unfold ob in O. rewrite D, F, F1, D1 in O. unfold crow in O. destruct (celem c) as [e|] eqn:CE; [|discriminate O].
        destruct (parent_is_entry h e); [discriminate O|]. cbn in O. rewrite (B e eq_refl). congruence. }
      assert (X : exists line q, In (d1, line, q) (dlines s1)) by (rewrite LI, <- Q; eauto using in_eq).
      assert (Z1 : d1 = d).
      { destruct b1; [|injection E as <- <-; congruence].
        assert (T : forall l s b s', wf root sel (dfound s) l -> dfound s = true -> ddown s = Some d1 -> exec h sc l s = Some (b, s') -> ddown s' = Some d1).
        { clear - M. intros l s b s' W F D E. destruct (exec_ob root sc sel l s b s' W E) as (seen & rest & _ & O & _). unfold ob in O. rewrite F, D, scan_after in O. congruence. }
        rewrite F in W1. cbn [orb] in W1. rewrite <- F1 in W1. specialize (T l s1 b s' W1 F1 D1 E). congruence. }
      rewrite Z1 in X. destruct X as (line & q & X). exists line, q. destruct b1; [|injection E as <- <-; exact X].
      destruct (exec_lines root sc _ _ _ _ E) as (new & ->). apply in_or_app. auto.
    - destruct b1; [|injection E as <- <-; congruence]. rewrite F in W1. cbn [orb] in W1. rewrite <- F1 in W1. apply (IH s1 b s' d); auto. lia.
  Qed.

  Lemma exec_after i l : forall s b s' d, wf root (Some i) (dfound s) l -> dfound s = false -> ddown s = None -> 1 <= dy s -> 0 <= dscroll s ->
    exec h sc l s = Some (b, s') -> ddown s' = Some d -> exists line q, In (d, line, q) (dlines s').
  Proof.
    induction l as [|c l IH]; intros s b s' d W F D Y T E D'; cbn [exec] in E; [injection E as <- <-; congruence|].
    destruct (step h sc c s) as [[b1 s1]|] eqn:S; [|discriminate]. cbn [obind] in E.
    destruct (step_spec _ _ _ _ _ _ S) as (O & SC & LN & _). destruct (chk_ob _ _ _ _ _ W) as (CO & CF).
    inversion W as [|f c' t' A B W1]; subst.
    assert (F1 : dfound s1 = hit (Some i) c). { transitivity (dfound (chk h c s)); [unfold ob in O; congruence|]. rewrite CF, F. reflexivity. }
    assert (D1 : ddown s1 = None).
    { rewrite CO in O. unfold ob in O. rewrite D, F in O. unfold crow in O. destruct (celem c) as [e|]; [destruct (parent_is_entry h e)|]; cbn in O; [congruence| |congruence].
      destruct (i =? eid e); congruence. }
    assert (Y1 : dy s <= dy s1). { destruct LN as [(_ & -> & _)|(_ & (k & Q & ->) & _)]; [lia|]. apply nb_nonneg in Q. lia. }
    rewrite F in W1. cbn [orb] in W1. rewrite <- F1 in W1.
    destruct b1; [|injection E as <- <-; congruence]. destruct (hit (Some i) c) eqn:HH.
    - apply (exec_next (Some i) l s1 b s' d); auto. destruct (chk_scroll root c s) as [Q|(_ & _ & Q1 & Q)]; rewrite Q in SC; [|destruct (dy s =? 0); lia].
      unfold hit in HH. destruct (celem c) as [e|] eqn:CE; [|discriminate HH]. unfold chk, checkSelection in Q. rewrite CE, F in Q. cbn [negb] in Q. destruct (A F) as [CS _]. rewrite CS, HH in Q. cbn [dscroll] in Q.
      destruct (dy s <=? dscroll s) eqn:L; [destruct (dy s =? 0) eqn:Z0|]; lia.
    - apply (IH s1 b s' d); auto; [lia|]. rewrite SC. destruct (chk_scroll root c s) as [->|(_ & Q & _)]; [exact T|]. rewrite CF, F in Q. discriminate Q.
  Qed.
End Exec.

(** First occurrences. *)
Lemma first_split {A} (f : A -> Z) i (a a' : list A) s s' t t' : a ++ s :: t = a' ++ s' :: t' ->
  f s = i -> f s' = i -> ~ In i (map f a) -> ~ In i (map f a') -> a = a' /\ s = s' /\ t = t'.
Proof.
  revert a'. induction a as [|x a IH]; intros [|y a'] E S S' N N'; cbn [app map] in *.
  - injection E as -> ->. auto.
  - injection E as -> _. exfalso. apply N'. left. exact S.
  - injection E as -> _. exfalso. apply N. left. exact S'.
  - injection E as -> E. destruct (IH a' E S S') as (-> & -> & ->); auto; intros I; [apply N|apply N']; right; exact I.
Qed.

Section Redraw.
  Variable root : node.
  Hypothesis M : in_memory root.
  Variable sc : screen.
  Hypothesis RO : roomy root sc.
  Notation h := (elems root).
  Notation w := (sw sc).
  Definition pg (coll : list Z) : list strip := page (slen sc) coll (nid root) 0 root.

  Lemma page_prog coll sel : row_sel root sel -> map holder (pg coll) = map cid (prog sc coll 0 sel root).
  Proof.
    intros RS. assert (F := tprog_page root M sc coll sel (proj1 RO) RS root 0 (nid root) sel (root_in root) eq_refl (fun _ _ => eq_refl)).
    rewrite <- tprog_prog. unfold pg. induction F as [|t s tl sl F FF IH]; [reflexivity|]. cbn [map]. f_equal; [|exact IH]. symmetry. apply F.
  Qed.

  Lemma prog_elem_in coll n : forall x sel c e, In (ENode n) h -> In c (prog sc coll x sel n) -> celem c = Some e -> In e h.
  Proof.
    induction n as [n IH] using node_kids_ind. intros x sel c e I J CE. rewrite prog_children in J.
    assert (Q : In c (flat_map (prog_elem sc coll (x + INDENT_LEVEL) sel) (children n)) -> In e h).
    { intros K. apply in_flat_map in K. destruct K as (y & Y1 & Y2). assert (IY := kid_in root n y I Y1). destruct y as [v|m k v]; cbn [prog_elem] in Y2.
      - exact (IH _ Y1 _ _ _ _ IY Y2 CE).
      - assert (One : forall c0, c = c0 -> celem c0 = Some (EEntry m k v) -> In e h) by (intros c0 -> C0; congruence). unfold key_cmd in Y2.
        destruct (is_container v && _); [destruct Y2 as [<-|[]]; eapply One; reflexivity|]. destruct (negb _); [destruct Y2 as [<-|[]]; eapply One; reflexivity|].
        destruct (children v); [destruct Y2 as [<-|[]]; eapply One; reflexivity|]. destruct Y2 as [<-|Y2]; [eapply One; reflexivity|].
        exact (IH _ Y1 _ _ _ _ (value_in root _ IY) Y2 CE). }
    assert (B : In c (box sc coll sel (ENode n) (nid n) x (flat_map (prog_elem sc coll (x + INDENT_LEVEL) sel) (children n))) -> In e h).
    { unfold box. destruct (mem _ _); intros K; [destruct K as [<-|[]]; cbn [celem] in CE; congruence|]. destruct K as [<-|K]; [cbn [celem] in CE; congruence|].
      apply in_app_or in K. destruct K as [K|[<-|[]]]; [auto|discriminate CE]. }
    destruct n as [m p|m l|m l]; [|auto|auto]. destruct J as [<-|[]]. cbn [celem] in CE. congruence.
  Qed.

  (** Where the first strip of a row is. *)
  Lemma map_split {A} (f : A -> Z) l a i t : map f l = a ++ i :: t -> exists l1 x l2, l = l1 ++ x :: l2 /\ map f l1 = a /\ f x = i /\ map f l2 = t.
  Proof.
    revert a. induction l as [|y l IH]; intros [|z a] E; cbn [map app] in E; try discriminate E.
    - injection E as E1 E2. exists [], y, l. auto.
    - injection E as E1 E2. destruct (IH a E2) as (l1 & x & l2 & -> & Q1 & Q2 & Q3). exists (y :: l1), x, l2. cbn [map app]. rewrite Q1, E1. auto.
  Qed.

  Lemma prog_firsts coll sel : row_sel root sel -> forall l1 c l2, prog sc coll 0 sel root = l1 ++ c :: l2 -> forall i, crow root c = [i] -> In i (rows coll root) ->
    cid c = i /\ ~ In i (map cid l1).
  Proof.
    intros RS l1 c l2 E i CR VI. assert (W := root_wf root M sc coll sel RS). assert (ID := wf_ids root _ _ _ W).
    assert (C := prog_closed sc coll root 0 sel [] [] I). rewrite app_nil_r in C.
    split.
    - unfold crow in CR. destruct (celem c) as [e|] eqn:CE; [|discriminate CR]. destruct (parent_is_entry h e); [discriminate CR|]. injection CR as <-.
      apply (ID c e); [rewrite E; apply in_elt|exact CE].
    - intros J. apply in_map_iff in J. destruct J as (c0 & E0 & J). rewrite E in C. apply closed_prefix in C.
      destruct (closed_opened _ _ C ltac:(intros c1 e1 I1; apply ID; rewrite E; apply in_or_app; auto) c0 J) as [[]|(c1 & e & I1 & CE & EE)].
      assert (NE : parent_is_entry h e = false).
      { destruct (parent_is_entry h e) eqn:P; [|reflexivity]. exfalso. 
        assert (IE : In e h).
        { assert (X : In c1 (prog sc coll 0 sel root)) by (rewrite E; apply in_or_app; auto). exact (prog_elem_in coll root 0 sel c1 e (root_in root) X CE). }
        assert (Q := wf_value root M (Some i) e (visible_row_sel root M _ _ VI) IE P). cbn [sel_is] in Q. lia. }
      assert (X : In i (prows root l1)). { unfold prows. apply in_flat_map. exists c1. split; [exact I1|]. unfold crow. rewrite CE, NE, EE, E0. left. reflexivity. }
      assert (ND := rows_NoDup root M coll). rewrite <- (root_prog_rows root M sc coll sel), E, prows_app in ND. change (prows root (c :: l2)) with (crow root c ++ prows root l2) in ND. rewrite CR in ND.
      cbn [app] in ND. apply NoDup_remove_2 in ND. apply ND, in_or_app. auto.
  Qed.

  (** Consecutive rows are some lines apart. *)
  Lemma flat_split {A} (f : A -> list Z) l pre i post : (forall x, In x l -> (length (f x) <= 1)%nat) -> flat_map f l = pre ++ i :: post ->
    exists l1 x l2, l = l1 ++ x :: l2 /\ flat_map f l1 = pre /\ f x = [i] /\ flat_map f l2 = post.
  Proof.
    revert pre. induction l as [|y l IH]; intros pre O E; cbn [flat_map] in E; [destruct pre; discriminate E|].
    assert (O1 := O y (or_introl eq_refl)). destruct (f y) as [|j [|]] eqn:Y; cbn [length app] in *; [| |lia].
    - destruct (IH pre (fun x J => O x (or_intror J)) E) as (l1 & x & l2 & -> & Q1 & Q2 & Q3). exists (y :: l1), x, l2. cbn [flat_map app]. rewrite Y. auto.
    - destruct pre as [|p pre]; cbn [app] in E; injection E as -> E.
      + exists [], y, l. auto.
      + destruct (IH pre (fun x J => O x (or_intror J)) E) as (l1 & x & l2 & -> & Q1 & Q2 & Q3). exists (y :: l1), x, l2. cbn [flat_map app]. rewrite Y, Q1. auto.
  Qed.

  Lemma rows_apart coll pre i d post : rows coll root = pre ++ i :: d :: post -> exists n, apart sc coll root i d n.
  Proof.
    intros E. assert (VI : In i (rows coll root)) by (rewrite E; apply in_elt). assert (VD : In d (rows coll root)) by (rewrite E; apply in_or_app; right; right; left; reflexivity).
    assert (RS := visible_row_sel root M _ _ VI). assert (P := root_prog_rows root M sc coll (Some i)). rewrite E in P.
    assert (ONE : forall l (c : cmd), In c l -> (length (crow root c) <= 1)%nat) by (intros l c _; unfold crow; destruct (celem c); [destruct (parent_is_entry _ _)|]; cbn; lia).
    destruct (flat_split (crow root) _ _ _ _ (ONE _) P) as (l1 & c & l2 & E1 & Q1 & Q2 & Q3).
    destruct (flat_split (crow root) l2 [] d post (ONE _) Q3) as (l3 & c' & l4 & E2 & Q4 & Q5 & Q6). subst l2.
    destruct (prog_firsts coll (Some i) RS l1 c _ E1 i Q2 VI) as (C1 & C2).
    destruct (prog_firsts coll (Some i) RS (l1 ++ c :: l3) c' l4 ltac:(rewrite E1, <- app_assoc; reflexivity) d Q5 VD) as (D1 & D2).
    assert (H := page_prog coll (Some i) RS). rewrite E1, map_app in H. cbn [map] in H. destruct (map_split holder _ _ _ _ H) as (a & s & t & G1 & G2 & G3 & G4).
    rewrite map_app in G4. cbn [map] in G4. destruct (map_split holder _ _ _ _ G4) as (b & s' & u & G5 & G6 & G7 & _). subst t.
    eexists. exists a, s, b, s', u. split; [exact G1|]. split; [congruence|]. split; [rewrite G2; exact C2|]. split; [congruence|]. split; [|reflexivity].
    rewrite map_app in *. cbn [map] in *. rewrite G2, G3, G6. exact D2.
  Qed.

  (** What a redraw does to scrollTop. *)
  Lemma redraw_scroll v0 v i : redraw root sc v0 = Some (true, v) -> vsel v0 = Some i -> In i (rows (vcoll v0) root) -> 0 <= vscroll v0 ->
    exists a s t, pg (vcoll v0) = a ++ s :: t /\ holder s = i /\ ~ In i (map holder a) /\ vscroll v = Z.min (vscroll v0) (Z.of_nat (length a)).
  Proof.
    intros RD SE VI T. assert (RS := visible_row_sel root M _ _ VI). assert (W := root_wf root M sc (vcoll v0) (Some i) RS).
    unfold redraw in RD. rewrite (draw_exec (mem_of root) sc (vcoll v0) root) in RD. change (mem_of root) with h in RD. fold (drawing root sc v0) in RD.
    destruct (drawing root sc v0) as [[r s]|] eqn:D; [|discriminate]. cbn [obind] in RD. unfold drawing in D. rewrite SE in D.
    destruct (negb r && negb (dfound s)) eqn:B; [discriminate RD|].
    assert (FO : dfound s = true).
    { destruct (dfound s) eqn:F; [reflexivity|]. exfalso. destruct r; [|discriminate B].
      destruct (exec_prefix root sc (Some i) _ (mkD 1 (vscroll v0) None None false []) _ _ W D) as (done & rest & EP & OB & TR & _).
      rewrite (TR eq_refl), app_nil_r in EP. rewrite <- EP, (root_prog_rows root M) in OB. apply in_split in VI. destruct VI as (a & b & Q).
      assert (N := rows_NoDup root M (vcoll v0)). rewrite Q in OB, N.
      change (ob (mkD 1 (vscroll v0) None None false [])) with (None : option Z, None : option Z, false) in OB.
      rewrite (scan_at i a b) in OB; [unfold ob in OB; congruence|]. intros J. apply NoDup_remove_2 in N. apply N, in_or_app. auto. }
    assert (C := prog_closed sc (vcoll v0) root 0 (Some i) [] [] Logic.I). rewrite app_nil_r in C.
    destruct (exec_scrolls root sc i _ [] 0 (mkD 1 (vscroll v0) None None false []) r s W C ltac:(intros []) eq_refl ltac:(lia) ltac:(cbn; lia) ltac:(cbn; lia) ltac:(cbn; lia) D FO) as (a & c & t & E & CI & NI & SC).
    assert (H := page_prog (vcoll v0) (Some i) RS). rewrite E, map_app in H. cbn [map] in H. destruct (map_split holder _ _ _ _ H) as (a' & s' & t' & G1 & G2 & G3 & _).
    exists a', s', t'. split; [exact G1|]. split; [congruence|]. split; [rewrite G2; exact NI|].
    assert (LE : length a' = length a) by (rewrite <- (map_length holder a'), G2; apply map_length). rewrite LE.
    destruct (match ddown s with Some d => _ | None => _ end) as [down|]; [|discriminate RD]. cbn [obind] in RD. injection RD as <-. cbn [vscroll]. exact SC.
  Qed.

  (** When the row below is known, it is on screen. *)
  Lemma redraw_next v0 v pre i d post : redraw root sc v0 = Some (true, v) -> vsel v0 = Some i -> rows (vcoll v0) root = pre ++ i :: d :: post -> 0 <= vscroll v0 ->
    vlast v = false -> exists line q, In (d, line, q) (vlines v).
  Proof.
    intros RD SE RW T LA. assert (VI : In i (rows (vcoll v0) root)) by (rewrite RW; apply in_elt). 
    assert (RS := visible_row_sel root M _ _ VI). assert (W := root_wf root M sc (vcoll v0) (Some i) RS).
    assert (NR := rows_NoDup root M (vcoll v0)). rewrite RW in NR.
    assert (NP : ~ In i pre) by (intros J; apply NoDup_remove_2 in NR; apply NR, in_or_app; auto).
    destruct (redraw_rows root M sc v0 v i pre (d :: post) RD SE RW) as (_ & DN & _). specialize (DN LA). cbn in DN.
    unfold redraw in RD. rewrite (draw_exec (mem_of root) sc (vcoll v0) root) in RD. change (mem_of root) with h in RD. fold (drawing root sc v0) in RD.
    destruct (drawing root sc v0) as [[r s]|] eqn:D; [|discriminate]. cbn [obind] in RD. unfold drawing in D. rewrite SE in D.
    destruct (negb r && negb (dfound s)) eqn:B; [discriminate RD|].
    assert (X : ddown s = Some d /\ vlines v = dlines s).
    { destruct (match ddown s with Some d => _ | None => _ end) as [down|] eqn:DW; [|discriminate RD]. cbn [obind] in RD. injection RD as <-. cbn [vlast vlines vdown] in *. split; [|reflexivity].
      destruct (ddown s) as [d'|] eqn:DD; [congruence|]. destruct r; [|discriminate LA]. 
      destruct (exec_prefix root sc (Some i) _ (mkD 1 (vscroll v0) None None false []) _ _ W D) as (done & rest & EP & OB & TR & _).
      rewrite (TR eq_refl), app_nil_r in EP. rewrite <- EP, (root_prog_rows root M), RW in OB.
      change (ob (mkD 1 (vscroll v0) None None false [])) with (None : option Z, None : option Z, false) in OB.
      rewrite (scan_at i pre (d :: post) NP) in OB. unfold ob in OB. cbn in OB. congruence. }
    destruct X as (DD & ->).
    exact (exec_after root sc i _ (mkD 1 (vscroll v0) None None false []) r s d W eq_refl eq_refl ltac:(cbn; lia) ltac:(cbn; lia) D DD).
  Qed.
End Redraw.

Section Reach.
  Variable (rx : bytes -> bool -> bytes -> bool) (root : node) (sc : screen).
  Hypothesis M : in_memory root.
  Hypothesis RO : roomy root sc.
  Hypothesis HS : 2 <= sh sc < 2 ^ 32.
  Notation h := (elems root).
  Notation w := (sw sc).

  Lemma page_lines coll n : forall r x, 0 <= x -> Forall (fun s => 0 <= lines_of w s) (page (slen sc) coll r x n).
  Proof.
    destruct RO as (RW & RL & _).
    assert (One : forall s, 0 <= column s -> 0 <= extent s -> 0 <= margin s <= 2 -> 0 <= lines_of w s) by (intros s C X G; unfold lines_of; apply Z.div_pos; lia).
    induction n as [n IH] using node_kids_ind. intros r x X. rewrite page_children.
    assert (K : Forall (fun s => 0 <= lines_of w s) (flat_map (page_elem sc coll (x + 4)) (children n))).
    { apply Forall_flat_map. apply Forall_forall. intros e J. specialize (IH e J). assert (L := RL e). destruct e as [v|m k v]; cbn [page_elem value_of] in *; [apply IH; lia|].
      assert (L' := RL (ENode v)). assert (B := IH (mid m) (x + 4 + 2) ltac:(lia)).
      destruct v as [m' p|m' l'|m' l']; cbn [is_container andb children]; repeat match goal with |- context [if ?b then _ else _] => destruct b end; try (repeat constructor; apply One; cbn [column extent margin]; lia).
      all: constructor; [apply One; cbn [column extent margin]; lia|exact B]. }
    assert (L := RL (ENode n)). destruct n as [m p|m l|m l]; [repeat constructor; apply One; cbn [column extent margin]; lia| |];
      (destruct (hidden coll _); [repeat constructor; apply One; cbn [column extent margin]; lia|]; constructor; [apply One; cbn [column extent margin]; lia|]; apply Forall_app; split; [exact K|repeat constructor; apply One; cbn [column extent margin]; lia]).
  Qed.
  Lemma total_nonneg coll a b t : pg root sc coll = a ++ b ++ t -> 0 <= total_lines w b.
  Proof.
    intros E. assert (Q := page_lines coll root (nid root) 0 ltac:(lia)). change (page _ _ _ _ _) with (pg root sc coll) in Q. rewrite E in Q.
    apply Forall_app in Q. destruct Q as [_ Q]. apply Forall_app in Q. destruct Q as [Q _]. clear E. induction Q as [|s l P Q IH]; unfold total_lines in *; cbn [fold_right]; lia.
  Qed.

  Lemma total_cat a b : total_lines w (a ++ b) = total_lines w a + total_lines w b.
  Proof. unfold total_lines. induction a as [|x a IH]; cbn [app fold_right]; [lia|]. rewrite IH. lia. Qed.

  (** At rest, the selection is not above the window. *)
  Lemma rest_scroll v i a s t : at_rest root sc v -> vsel v = Some i -> pg root sc (vcoll v) = a ++ s :: t -> holder s = i -> ~ In i (map holder a) ->
    vscroll v <= Z.of_nat (length a).
  Proof.
    intros (v0 & RD & (j & SE & VI) & T & _) SV E HO N. destruct (redraw_same root _ _ _ _ RD) as (E1 & E2 & _).
    assert (j = i) by congruence. subst j. rewrite E2 in E.
    destruct (redraw_scroll root M sc RO v0 v i RD SE VI T) as (a' & s' & t' & Q1 & Q2 & Q3 & Q4).
    rewrite E in Q1. destruct (first_split holder i _ _ _ _ _ _ Q1 HO Q2 N Q3) as (-> & _). lia.
  Qed.

  (** The loop of redraws never lowers scrollTop but to the selection. *)
  Lemma loop_scroll f : forall v v' i a s t, redraw_loop root f sc v = Some v' -> vsel v = Some i -> In i (rows (vcoll v) root) -> 0 <= vscroll v ->
    pg root sc (vcoll v) = a ++ s :: t -> holder s = i -> ~ In i (map holder a) ->
    Z.min (vscroll v) (Z.of_nat (length a)) <= vscroll v' <= Z.of_nat (length a).
  Proof.
    induction f as [|f IH]; intros v v' i a s t E SE VI T P HO N; [discriminate|]. cbn [redraw_loop] in E. destruct (redraw root sc v) as [[b v1]|] eqn:RD; [|discriminate]. cbn [obind] in E.
    destruct (redraw_same root _ _ _ _ RD) as (E1 & E2 & _). destruct b.
    - injection E as <-. destruct (redraw_scroll root M sc RO v v1 i RD SE VI T) as (a' & s' & t' & Q1 & Q2 & Q3 & Q4).
      rewrite P in Q1. destruct (first_split holder i _ _ _ _ _ _ Q1 HO Q2 N Q3) as (-> & _). lia.
    - destruct (redraw_false root sc v v1 RD) as (SC & _). rewrite <- E1 in SE. rewrite <- E2 in VI, P.
      assert (Q := IH v1 v' i a s t E SE VI ltac:(lia) P HO N). lia.
  Qed.

  (** What is on screen at rest. *)
  Lemma rest_page v : at_rest root sc v ->
    exists above shown below, pg root sc (vcoll v) = above ++ shown ++ below /\ Z.of_nat (length above) = vscroll v /\
      (forall x line q, In (x, line, q) (vlines v) <-> exists s, In (line, s) (stacked w 1 shown) /\ x = holder s /\ q = is_selected (vsel v) s) /\
      Forall (fun p => 1 <= fst p <= sh sc - 1) (stacked w 1 shown) /\
      (below = [] \/ sh sc - 1 <= total_lines w shown).
  Proof.
    intros (v0 & RD & ON & T & _). destruct (screen_page root sc true v0 v M RO HS ON T RD) as (above & shown & below & Q1 & Q2 & _ & Q3 & Q4 & Q5).
    exists above, shown, below. split; [exact Q1|]. split; [exact Q2|]. split; [|auto]. intros x line q. rewrite Q3, <- in_rev, in_map_iff. split.
    - intros ([l s] & E & I). unfold listed_as in E. cbn [fst snd] in E. injection E as <- <- <-. eauto.
    - intros (s & I & -> & ->). exists (line, s). auto.
  Qed.

  Lemma stacked_in l : forall y p, In p (stacked w y l) -> In (snd p) l.
  Proof. induction l as [|s l IH]; intros y p I; [exact I|]. destruct I as [<-|I]; [left; reflexivity|right; exact (IH _ _ I)]. Qed.
  Lemma stacked_at l1 s l2 : forall y, In (y + total_lines w l1, s) (stacked w y (l1 ++ s :: l2)).
  Proof.
    induction l1 as [|x l1 IH]; intros y; cbn [app stacked].
    - left. f_equal. cbn. lia.
    - right. specialize (IH (y + lines_of w x)). replace (y + total_lines w (x :: l1)) with (y + lines_of w x + total_lines w l1) by (unfold total_lines; cbn [fold_right]; lia). exact IH.
  Qed.
  Lemma stacked_split l : forall y p, In p (stacked w y l) -> exists l1 l2, l = l1 ++ snd p :: l2 /\ fst p = y + total_lines w l1.
  Proof.
    induction l as [|s l IH]; intros y p I; [destruct I|]. destruct I as [<-|I].
    - exists [], l. split; [reflexivity|cbn; lia].
    - destruct (IH _ _ I) as (l1 & l2 & -> & E). exists (s :: l1), l2. split; [reflexivity|]. unfold total_lines in *. cbn [fold_right]. lia.
  Qed.

  (** The row below on screen, or not. *)
  Lemma rest_last v pre i d post n : at_rest root sc v -> stands root v pre i (d :: post) -> apart sc (vcoll v) root i d n ->
    (vlast v = false -> n <= sh sc - 2) /\
    (vlast v = true -> forall a s t, pg root sc (vcoll v) = a ++ s :: t -> holder s = i -> ~ In i (map holder a) -> vscroll v = Z.of_nat (length a) -> sh sc - 2 < n).
  Proof.
    intros A (SE & RW) (a & s & b & s' & c & P & H1 & N1 & H2 & N2 & ->).
    destruct (rest_page v A) as (above & shown & below & Q1 & Q2 & Q3 & Q4 & Q5).
    assert (LE := rest_scroll v i a s _ A SE P H1 N1).
    assert (A' := A). destruct A as (v0 & RD & ON & T & _). destruct (redraw_same root _ _ _ _ RD) as (E1 & E2 & _).
    rewrite E1 in SE. rewrite E2 in RW.
    assert (PP : exists u, a = above ++ u /\ shown ++ below = u ++ s :: b ++ s' :: c).
    { change (page (slen sc) (vcoll v) (nid root) 0 root) with (pg root sc (vcoll v)) in P. rewrite Q1 in P. exists (skipn (length above) a).
      assert (E : firstn (length above) a = above).
      { assert (X : firstn (length above) (above ++ shown ++ below) = firstn (length above) (a ++ s :: b ++ s' :: c)) by congruence.
        rewrite !firstn_app in X. rewrite firstn_all, PeanoNat.Nat.sub_diag in X. cbn [firstn] in X. rewrite app_nil_r in X.
        replace (length above - length a)%nat with 0%nat in X by lia. cbn [firstn] in X. rewrite app_nil_r in X. auto. }
      rewrite <- E at 1. rewrite firstn_skipn. split; [reflexivity|].
      rewrite <- (firstn_skipn (length above) a), E, <- app_assoc in P. apply app_inv_head in P. exact P. }
    destruct PP as (u & -> & PP). split.
    - intros LA. destruct (redraw_next root M sc v0 v pre i d post RD SE RW T LA) as (line & q & X). apply Q3 in X. destruct X as (sd & X & Y & _).
      assert (LI := proj1 (Forall_forall _ _) Q4 _ X). cbn [fst] in LI. destruct (stacked_split _ _ _ X) as (l1 & l2 & -> & Y2). cbn [fst snd] in *.
      assert (Z1 : exists e, l1 = (u ++ s :: b) ++ e).
      { rewrite <- app_assoc in PP. cbn [app] in PP. assert (PP' : l1 ++ sd :: (l2 ++ below) = (u ++ s :: b) ++ s' :: c) by (rewrite <- app_assoc; exact PP).
        assert (N3 : ~ In d (map holder (u ++ s :: b))) by (intros J; apply N2; rewrite !map_app in *; rewrite <- app_assoc; apply in_or_app; right; exact J).
        clear - PP' N3 Y. symmetry in Y. revert PP' N3. generalize (u ++ s :: b). intros l. revert l1. induction l as [|x l IH]; intros l1 E N; [exists l1; reflexivity|].
        destruct l1 as [|y l1]; cbn [app] in E; injection E as -> E; [exfalso; apply N; left; exact Y|].
        destruct (IH l1 E) as (e & ->); [intros J; apply N; right; exact J|]. exists e. reflexivity. }
      destruct Z1 as (e & ->).
      assert (N3 := total_nonneg (vcoll v) above u (s :: b ++ s' :: c) ltac:(rewrite Q1, PP; reflexivity)).
      assert (N4 := total_nonneg (vcoll v) (above ++ u ++ s :: b) e (sd :: l2 ++ below) ltac:(rewrite Q1; rewrite <- !app_assoc; reflexivity)).
      rewrite !total_cat in Y2. lia.
    - intros LA a0 s0 t0 P0 H0 N0 SC. change (page (slen sc) (vcoll v) (nid root) 0 root) with (pg root sc (vcoll v)) in P. rewrite P in P0.
      destruct (first_split holder i _ _ _ _ _ _ P0 H1 H0 N1 N0) as (<- & _ & _). rewrite app_length in SC. destruct u; [|cbn [length] in SC; lia]. cbn [app] in PP.
      destruct (redraw_rows root M sc v0 v i pre (d :: post) RD SE RW) as (_ & _ & D2). destruct (D2 LA) as (_ & D3).
      assert (SH : exists e, s :: b = shown ++ e /\ below = e ++ s' :: c).
      { destruct (PeanoNat.Nat.le_gt_cases (length shown) (length (s :: b))) as [LN|LN].
        - exists (skipn (length shown) (s :: b)).
          assert (E : firstn (length shown) (s :: b) = shown).
          { assert (X : firstn (length shown) (shown ++ below) = firstn (length shown) ((s :: b) ++ s' :: c)) by (f_equal; exact PP).
            rewrite !firstn_app in X. rewrite firstn_all, PeanoNat.Nat.sub_diag in X. cbn [firstn] in X. rewrite app_nil_r in X.
            replace (length shown - length (s :: b))%nat with 0%nat in X by lia. cbn [firstn] in X. rewrite app_nil_r in X. auto. }
          rewrite <- E at 1. rewrite firstn_skipn. split; [reflexivity|].
          assert (PP' : shown ++ below = (s :: b) ++ s' :: c) by exact PP.
          rewrite <- (firstn_skipn (length shown) (s :: b)), E, <- app_assoc in PP'. apply app_inv_head in PP'. exact PP'.
        - exfalso. assert (IS : In s' shown).
          { assert (X : nth_error (shown ++ below) (length (s :: b)) = Some s').
            { rewrite PP. change (s :: b ++ s' :: c) with ((s :: b) ++ s' :: c). rewrite nth_error_app2 by lia. rewrite PeanoNat.Nat.sub_diag. reflexivity. }
            rewrite nth_error_app1 in X by exact LN. eapply nth_error_In, X. }
          apply in_split in IS. destruct IS as (l1 & l2 & ->). apply (D3 d (1 + total_lines w l1) (is_selected (vsel v) s')); [|left; reflexivity].
          apply Q3. exists s'. split; [apply stacked_at|]. split; [symmetry; exact H2|reflexivity]. }
      destruct SH as (e & SH & BE). destruct Q5 as [Q5|Q5]; [rewrite Q5 in BE; destruct e; discriminate BE|].
      rewrite SH, total_cat.
      assert (N4 := total_nonneg (vcoll v) (above ++ shown) e (s' :: c) ltac:(rewrite Q1, BE, <- app_assoc; reflexivity)). lia.
  Qed.

  (** Keys in a row. *)
  Lemma wait_more evs : forall v v' t, wait rx root sc v false evs = Waiting sc v' false -> (forall e, In e evs -> exists k p, e = EvKey k p) ->
    wait rx root sc v false (evs ++ t) = wait rx root sc v' false t.
  Proof.
    induction evs as [|e evs IH]; intros v v' t E K; cbn [app wait] in *; [injection E as <-; reflexivity|].
    destruct (K e (or_introl eq_refl)) as (k & p & ->). cbn [wait] in *. destruct (evalKey root rx sc k p v) as [[[] v1]|]; try discriminate E;
      try (destruct (redraw_loop root (fuel_of root) sc v1) as [v2|]; [|discriminate E]); apply IH; auto; intros e J; apply K; right; exact J.
  Qed.
  Lemma downs_keys k e : In e (downs k) -> exists k p, e = EvKey k p.
  Proof. intros I. apply repeat_spec in I. subst e. eauto. Qed.
  Lemma ups_keys k e : In e (ups k) -> exists k p, e = EvKey k p.
  Proof. intros I. apply repeat_spec in I. subst e. eauto. Qed.

  Lemma down_evals p v : evalKey root rx sc (str "KEY_DOWN") p v = selectDown v.
  Proof. reflexivity. Qed.

  (** Down with the row below not on screen. *)
  Lemma press_scroll v i a s t : at_rest root sc v -> vsel v = Some i -> vlast v = true -> pg root sc (vcoll v) = a ++ s :: t -> holder s = i -> ~ In i (map holder a) ->
    exists v', pressing rx root sc "KEY_DOWN" v v' /\ vsel v' = Some i /\ vcoll v' = vcoll v /\ Z.min (vscroll v + 2) (Z.of_nat (length a)) <= vscroll v' <= Z.of_nat (length a).
  Proof.
    intros A SE LA P HO N. destruct (rest_ready root sc M v i A SE) as ((_ & VI & F & T) & _).
    destruct (settles root sc M RO (set_scroll v (vscroll v + 2)) i) as (v' & L & AR & S & C & W).
    { unfold InvProofs.ready. split; [exact SE|]. split; [exact VI|]. split; [exact F|]. cbn [set_scroll vscroll]. lia. }
    exists v'. split; [|split; [exact S|split; [exact C|]]].
    - split; [|split; [exact AR|rewrite W; reflexivity]]. intros p. cbn [wait]. rewrite down_evals. unfold selectDown. rewrite LA, L. reflexivity.
    - apply (loop_scroll _ _ _ i a s t L); cbn [set_scroll vsel vcoll vscroll]; auto. lia.
  Qed.
  Lemma press_next v pre i d post : at_rest root sc v -> stands root v pre i (d :: post) -> vlast v = false ->
    exists v', pressing rx root sc "KEY_DOWN" v v' /\ vsel v' = Some d /\ vcoll v' = vcoll v.
  Proof.
    intros A (SE & RW) LA. assert (A' := A). destruct (press_down rx root sc M RO "KEY_DOWN" v pre i (d :: post) A (conj SE RW) (or_intror eq_refl)) as (v' & P & C & [Q|(Q & D)]); [eauto|].
    exfalso. destruct A as (v0 & RD & ON & T & _). destruct (redraw_same root _ _ _ _ RD) as (E1 & E2 & _).
    destruct (redraw_next root M sc v0 v pre i d post RD ltac:(congruence) ltac:(congruence) T LA) as (line & q & X). apply (D _ _ _ X). left. reflexivity.
  Qed.

  (** Down leads to the row below if that is near enough. *)
  Lemma downs_next v pre i d post n : at_rest root sc v -> stands root v pre i (d :: post) -> apart sc (vcoll v) root i d n -> n <= sh sc - 2 ->
    exists k v', wait rx root sc v false (downs k) = Waiting sc v' false /\ at_rest root sc v' /\ vcoll v' = vcoll v /\ vsel v' = Some d.
  Proof.
    intros A SN AP LN. assert (AP' := AP). destruct AP as (a & s & b & s' & c & P & H1 & N1 & _).
    remember (Z.to_nat (Z.of_nat (length a) - vscroll v)) as m eqn:Hm. revert v A SN AP' P Hm. induction m as [m IH] using (well_founded_induction PeanoNat.Nat.lt_wf_0). intros v A SN AP P Hm.
    assert (SE := proj1 SN). destruct (vlast v) eqn:LA.
    - assert (LE := rest_scroll v i a s _ A SE P H1 N1). destruct (rest_last v pre i d post n A SN AP) as (_ & L2).
      assert (NE : vscroll v <> Z.of_nat (length a)) by (intros Q; specialize (L2 LA a s _ P H1 N1 Q); lia).
      destruct (press_scroll v i a s _ A SE LA P H1 N1) as (v1 & (W & A1 & _) & S1 & C1 & G).
      destruct (IH (Z.to_nat (Z.of_nat (length a) - vscroll v1)) ltac:(lia) v1 A1) as (k & v' & W' & A2 & C2 & S2); auto.
      + destruct SN as [_ RW]. split; [exact S1|]. rewrite C1. exact RW.
      + rewrite C1. exact AP.
      + rewrite C1. exact P.
      + exists (S k), v'. split; [|split; [exact A2|split; [congruence|exact S2]]]. change (downs (S k)) with ([EvKey (str "KEY_DOWN") None] ++ downs k).
        rewrite (wait_more _ _ _ _ (W None)); [exact W'|]. intros e [<-|[]]. eauto.
    - destruct (press_next v pre i d post A SN LA) as (v' & (W & A1 & _) & S1 & C1). exists 1%nat, v'. split; [exact (W None)|auto].
  Qed.

  (** It does not otherwise. *)
  Lemma downs_stuck k : forall v pre i d post n, at_rest root sc v -> stands root v pre i (d :: post) -> apart sc (vcoll v) root i d n -> sh sc - 2 < n ->
    exists v', wait rx root sc v false (downs k) = Waiting sc v' false /\ at_rest root sc v' /\ vcoll v' = vcoll v /\ vsel v' = Some i.
  Proof.
    induction k as [|k IH]; intros v pre i d post n A SN AP LN.
    - exists v. split; [reflexivity|]. split; [exact A|]. split; [reflexivity|exact (proj1 SN)].
    - destruct (rest_last v pre i d post n A SN AP) as (L1 & _). assert (LA : vlast v = true) by (destruct (vlast v); [reflexivity|specialize (L1 eq_refl); lia]).
      assert (AP' := AP). destruct AP as (a & s & b & s' & c & P & H1 & N1 & _).
      destruct (press_scroll v i a s _ A (proj1 SN) LA P H1 N1) as (v1 & (W & A1 & _) & S1 & C1 & _).
      destruct (IH v1 pre i d post n A1) as (v' & W' & A2 & C2 & S2); auto.
      + destruct SN as [_ RW]. split; [exact S1|]. rewrite C1. exact RW.
      + rewrite C1. exact AP'.
      + exists v'. split; [|split; [exact A2|split; [congruence|exact S2]]]. change (downs (S k)) with ([EvKey (str "KEY_DOWN") None] ++ downs k).
        rewrite (wait_more _ _ _ _ (W None)); [exact W'|]. intros e [<-|[]]. eauto.
  Qed.

  (** Rows further down, and up. *)
  Lemma downs_reach l : forall v pre i post r, at_rest root sc v -> stands root v pre i (l ++ r :: post) -> near sc (vcoll v) root ->
    exists k v', wait rx root sc v false (downs k) = Waiting sc v' false /\ at_rest root sc v' /\ vcoll v' = vcoll v /\ vsel v' = Some r.
  Proof.
    assert (One : forall v pre i d post, at_rest root sc v -> stands root v pre i (d :: post) -> near sc (vcoll v) root ->
      exists k v', wait rx root sc v false (downs k) = Waiting sc v' false /\ at_rest root sc v' /\ vcoll v' = vcoll v /\ vsel v' = Some d).
    { intros v pre i d post A SN NE. destruct (rows_apart root M sc RO (vcoll v) pre i d post (proj2 SN)) as (n & AP). apply (downs_next v pre i d post n); auto.
      exact (NE pre i d post n (proj2 SN) AP). }
    induction l as [|d l IH]; intros v pre i post r A SN NE; cbn [app] in SN; [exact (One v pre i r post A SN NE)|].
    destruct (One v pre i d _ A SN NE) as (k1 & v1 & W1 & A1 & C1 & S1).
    destruct (IH v1 (pre ++ [i]) d post r A1) as (k2 & v2 & W2 & A2 & C2 & S2).
    - destruct SN as [_ RW]. split; [exact S1|]. rewrite C1, <- app_assoc. exact RW.
    - rewrite C1. exact NE.
    - exists (k1 + k2)%nat, v2. split; [|split; [exact A2|split; [congruence|exact S2]]]. unfold downs. rewrite repeat_app.
      rewrite (wait_more _ _ _ _ W1 (downs_keys k1)). exact W2.
  Qed.

  Lemma ups_reach l : forall v pre i post r, at_rest root sc v -> stands root v (pre ++ r :: l) i post ->
    exists v', wait rx root sc v false (ups (S (length l))) = Waiting sc v' false /\ at_rest root sc v' /\ vcoll v' = vcoll v /\ vsel v' = Some r.
  Proof.
    induction l as [|x l IH] using rev_ind; intros v pre i post r A SN.
    - destruct (press_up rx root sc M RO "KEY_UP" v _ i post A SN (or_intror eq_refl)) as (v' & (W & A1 & _) & C & S). rewrite rev_app_distr in S. exists v'. split; [exact (W None)|auto].
    - destruct (press_up rx root sc M RO "KEY_UP" v _ i post A SN (or_intror eq_refl)) as (v1 & (W1 & A1 & _) & C1 & S1).
      replace (pre ++ r :: l ++ [x]) with ((pre ++ r :: l) ++ [x]) in S1, SN by (rewrite <- app_assoc; reflexivity). rewrite rev_app_distr in S1. cbn [rev app] in S1.
      destruct (IH v1 pre x (i :: post) r A1) as (v2 & W2 & A2 & C2 & S2).
      { destruct SN as [_ RW]. split; [exact S1|]. rewrite C1, RW, <- app_assoc. reflexivity. }
      exists v2. split; [|split; [exact A2|split; [congruence|exact S2]]]. rewrite app_length, PeanoNat.Nat.add_comm. cbn [length plus].
      change (ups (S (S (length l)))) with ([EvKey (str "KEY_UP") None] ++ ups (S (length l))).
      rewrite (wait_more _ _ _ _ (W1 None)); [exact W2|]. intros e [<-|[]]. eauto.
  Qed.

  Lemma ups_before k : forall v pre i post, at_rest root sc v -> stands root v pre i post ->
    exists v' j, wait rx root sc v false (ups k) = Waiting sc v' false /\ vsel v' = Some j /\ In j (pre ++ [i]).
  Proof.
    induction k as [|k IH]; intros v pre i post A SN.
    - exists v, i. split; [reflexivity|]. split; [exact (proj1 SN)|apply in_elt].
    - destruct (press_up rx root sc M RO "KEY_UP" v _ i post A SN (or_intror eq_refl)) as (v1 & (W1 & A1 & _) & C1 & S1).
      assert (X : exists pre' post', stands root v1 pre' (match rev pre with u :: _ => u | [] => i end) post' /\ incl (pre' ++ [match rev pre with u :: _ => u | [] => i end]) (pre ++ [i])).
      { destruct SN as [_ RW]. destruct pre as [|x pre _] using rev_ind.
        - exists [], post. split; [split; [exact S1|]; rewrite C1; exact RW|]. intros y J. exact J.
        - rewrite rev_app_distr in *. cbn [rev app] in *. exists pre, (i :: post). split; [split; [exact S1|]; rewrite C1, RW, <- app_assoc; reflexivity|].
          intros y J. apply in_or_app. left. exact J. }
      destruct X as (pre' & post' & SN' & IN). destruct (IH v1 _ _ _ A1 SN') as (v' & j & W' & S' & J). exists v', j. split; [|auto].
      change (ups (S k)) with ([EvKey (str "KEY_UP") None] ++ ups k). rewrite (wait_more _ _ _ _ (W1 None)); [exact W'|]. intros e [<-|[]]. eauto.
  Qed.

  Lemma reach v r : at_rest root sc v -> near sc (vcoll v) root -> In r (rows (vcoll v) root) ->
    exists keys k v', (keys = ups k \/ keys = downs k) /\ wait rx root sc v false keys = Waiting sc v' false /\ vcoll v' = vcoll v /\ vsel v' = Some r.
  Proof.
    intros A NE VR. assert (A' := A). destruct A' as (v0 & RD & (i & SE & VI) & _). destruct (redraw_same root _ _ _ _ RD) as (E1 & E2 & _).
    rewrite <- E2 in VI. rewrite <- E1 in SE. apply in_split in VI. destruct VI as (pre & post & RW).
    assert (Q := VR). rewrite RW in Q. apply in_app_or in Q. destruct Q as [Q|[Q|Q]].
    - apply in_split in Q. destruct Q as (p1 & p2 & ->). destruct (ups_reach p2 v p1 i post r A (conj SE RW)) as (v' & W & _ & C & S). eauto 10.
    - subst r. exists (downs 0), 0%nat, v. split; [auto|]. split; [reflexivity|auto].
    - apply in_split in Q. destruct Q as (p1 & p2 & ->). destruct (downs_reach p1 v pre i p2 r A (conj SE RW) NE) as (k & v' & W & _ & C & S). eauto 10.
  Qed.
End Reach.

Lemma apart_unique sc coll root i d n n' : apart sc coll root i d n -> apart sc coll root i d n' -> n = n'.
Proof.
  intros (a & s & b & s' & c & P & H1 & N1 & H2 & N2 & ->) (a' & t & b' & t' & c' & P' & H1' & N1' & H2' & N2' & ->).
  rewrite P in P'. destruct (first_split holder i _ _ _ _ _ _ P' H1 H1' N1 N1') as (<- & <- & E).
  assert (E' : (a ++ s :: b) ++ s' :: c = (a ++ s :: b') ++ t' :: c') by (rewrite <- !app_assoc; cbn [app]; congruence).
  destruct (first_split holder d _ _ _ _ _ _ E' H2 H2' N2 N2') as (Q & _). apply app_inv_head in Q. congruence.
Qed.

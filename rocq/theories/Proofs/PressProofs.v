(** What each key does in the view of one document. *)
From Verif Require Import Model.SimpleView Spec.ViewSpec Spec.ViewerSpec.
From Verif Require Import Proofs.RowProofs Proofs.DrawProofs Proofs.ViewProofs Proofs.KeyProofs Proofs.InvProofs Proofs.LoopProofs Proofs.WaitProofs Proofs.ShownProofs Proofs.DocumentProofs.
From Coq Require Import Lia.
Open Scope Z_scope.

Section Press.
  Variable (rx : bytes -> bool -> bytes -> bool) (root : node) (sc : screen).
  Hypothesis M : in_memory root.
  Hypothesis RO : roomy root sc.
  Notation h := (elems root).

  Lemma rest_ready v i : at_rest root sc v -> vsel v = Some i -> ready root v i /\ aims root v /\ vdown v <> None.
  Proof.
    intros (v0 & RD & (j & S & I) & T & F) E. destruct (redraw_true_aims root M sc v0 v j ltac:(unfold ready; auto) RD) as (R & A & N & _).
    destruct R as (S' & R). assert (i = j) by congruence. subst j. unfold ready. auto.
  Qed.

  (** After a key that asks for a redraw. *)
  Lemma settles v i : ready root v i ->
    exists v', redraw_loop root (fuel_of root) sc v = Some v' /\ at_rest root sc v' /\ vsel v' = Some i /\ vcoll v' = vcoll v /\ vres v' = vres v.
  Proof.
    intros R. assert (R' := R). destruct R as (S & I & F & T). destruct (redraw_ends root sc v i M RO S (rows_ids root _ _ I) T) as (v' & L). exists v'. split; [exact L|].
    destruct (loop_aims root M _ sc v v' i R' L) as ((S' & _) & _ & _ & C & E).
    split; [|auto]. destruct (loop_result root _ sc v v' L T) as (v0 & RD & E1 & E2 & E3 & T0). exists v0. split; [exact RD|]. split; [exists i; rewrite E1, E2; auto|]. split; [exact T0|]. rewrite E3. exact F.
  Qed.

  Lemma moves k v v1 i : ready root v1 i -> vres v1 = vres v ->
    (forall p, evalKey root rx sc (str k) p v = Some (Redraw, v1)) ->
    exists v', pressing rx root sc k v v' /\ vsel v' = Some i /\ vcoll v' = vcoll v1.
  Proof.
    intros R V E. destruct (settles v1 i R) as (v' & L & AR & S & C & W). exists v'. split; [|auto]. split; [|split; [exact AR|congruence]].
    intros p. cbn [wait]. rewrite E, L. reflexivity.
  Qed.

  Lemma stays k v : at_rest root sc v -> (forall p, evalKey root rx sc (str k) p v = Some (NextInput, v)) -> pressing rx root sc k v v.
  Proof. intros A E. split; [|auto]. intros p. cbn [wait]. rewrite E. reflexivity. Qed.

  Lemma press_up k v pre i post : at_rest root sc v -> stands root v pre i post -> k = "K"%string \/ k = "KEY_UP"%string ->
    exists v', pressing rx root sc k v v' /\ vcoll v' = vcoll v /\ vsel v' = Some (match rev pre with u :: _ => u | [] => i end).
  Proof.
    intros A (S & E) K. destruct (rest_ready v i A S) as (R & AI & N). destruct A as (v0 & RD & _). destruct (redraw_same root _ _ _ _ RD) as (E1 & E2 & _).
    rewrite E2 in E. destruct (redraw_rows root M sc v0 v i pre post RD ltac:(congruence) E) as (U & _).
    destruct (moves k v (set_sel v (vup v)) (match rev pre with u :: _ => u | [] => i end)) as (v' & P & Q1 & Q2).
    - rewrite U. destruct R as (_ & I & F & T). apply ready_sel; auto. rewrite E2, E. assert (Q := hd_rev_in pre i). apply in_app_or in Q. apply in_or_app. destruct Q as [Q|[Q|[]]]; [auto|right; left; exact Q].
    - reflexivity.
    - intros p. destruct K as [-> | ->]; reflexivity.
    - eauto.
  Qed.

  Lemma press_down k v pre i post : at_rest root sc v -> stands root v pre i post -> k = "J"%string \/ k = "KEY_DOWN"%string ->
    exists v', pressing rx root sc k v v' /\ vcoll v' = vcoll v /\
      (vsel v' = Some (match post with d :: _ => d | [] => i end) \/
       vsel v' = Some i /\ forall r line b, In (r, line, b) (vlines v) -> ~ In r post).
  Proof.
    intros A (S & E) K. destruct (rest_ready v i A S) as (R & AI & N). assert (A' := A). destruct A as (v0 & RD & _). destruct (redraw_same root _ _ _ _ RD) as (E1 & E2 & _).
    assert (E' := E). rewrite E2 in E'. destruct (redraw_rows root M sc v0 v i pre post RD ltac:(congruence) E') as (_ & D1 & D2).
    assert (EV : forall p, evalKey root rx sc (str k) p v = selectDown v) by (intros p; destruct K as [-> | ->]; reflexivity). unfold selectDown in EV.
    destruct R as (_ & I & F & T). destruct (vlast v).
    - destruct (moves k v (set_scroll v (vscroll v + 2)) i) as (v' & P & Q1 & Q2); [|reflexivity|exact EV|].
      + unfold ready, set_scroll. cbn. repeat split; auto. lia.
      + exists v'. split; [exact P|]. split; [exact Q2|]. right. split; [exact Q1|]. apply D2. reflexivity.
    - specialize (D1 eq_refl). rewrite S, D1 in EV. cbn [opt_eqb] in EV. destruct (negb _) eqn:Q.
      + destruct (moves k v (set_sel v (vdown v)) (match post with d :: _ => d | [] => i end)) as (v' & P & Q1 & Q2); [|reflexivity|rewrite D1; exact EV|].
        * rewrite D1. apply ready_sel; auto. rewrite E. apply in_or_app. right. destruct post; [left; reflexivity|right; left; reflexivity].
        * exists v'. auto.
      + exists v. split; [apply (stays k v A' EV)|]. split; [reflexivity|]. left. apply negb_false_iff, Z.eqb_eq in Q. congruence.
  Qed.

  Lemma members_eid n : members n = map eid (children n).
  Proof. destruct n; cbn [members children]; [reflexivity|rewrite map_map; reflexivity|rewrite map_map; reflexivity]. Qed.

  (** The container around a row on display. *)
  Lemma held_place coll r before i : held_by root r before i -> In i (rows coll root) ->
    exists k pre p post l1 e l2, place root coll k pre p post /\ mem (nid (value_of p)) coll = false /\ children (value_of p) = l1 ++ e :: l2 /\
      eid p = r /\ eid e = i /\ map eid l1 = before.
  Proof.
    intros (c & aft & SH & ME) V. rewrite members_eid in ME.
    assert (X : exists l1 e l2, children c = l1 ++ e :: l2 /\ map eid l1 = before /\ eid e = i).
    { revert before ME. induction (children c) as [|x l IH]; intros [|b before] ME; cbn [map app] in ME; try discriminate ME.
      - injection ME as ME _. exists [], x, l. auto.
      - injection ME as <- ME. destruct (IH before ME) as (l1 & e & l2 & -> & <- & Q). exists (x :: l1), e, l2. auto. }
    destruct X as (l1 & e & l2 & C & EB & EI).
    destruct (shown_place root r c SH) as (k0 & pre0 & p0 & post0 & P0 & R0 & V0).
    assert (IC : In (ENode c) h) by (rewrite <- V0; apply value_in; eapply place_in, P0).
    assert (IE : In e h) by (eapply kid_in; [exact IC|rewrite C; apply in_elt]).
    destruct (place_of root coll i V) as (k & pre & e' & post & P & E'). assert (e' = e) by (apply (eid_inj root M); [eapply place_in, P|exact IE|congruence]). subst e'.
    assert (PE := child_parent root M c e IC ltac:(rewrite C; apply in_elt)).
    inversion P as [|k' pre' p post' l1' e' l2' Q CC K]; subst.
    - rewrite (root_parent root M) in PE. discriminate PE.
    - assert (IV := value_in root _ (place_in root _ _ _ _ _ Q)). assert (PE' := child_parent root M _ e IV ltac:(rewrite K; apply in_elt)).
      assert (EQ : ENode (value_of p) = ENode (value_of p0)) by (apply (eid_inj root M); [exact IV|exact IC|cbn [eid]; congruence]). injection EQ as EQ.
      assert (p = p0).
      { apply (eid_inj root M); [eapply place_in, Q|eapply place_in, P0|].
        assert (W := row_of_place root M _ _ _ _ _ Q). assert (W0 := row_of_place root M _ _ _ _ _ P0). rewrite EQ in W. congruence. }
      subst p0. exists k', pre', p, post', l1', e, l2'. rewrite C in K.
      assert (L : l1' = l1 /\ l2' = l2).
      { assert (ND : NoDup (map eid (children (value_of p)))) by (apply (kids_NoDup root M), IV). rewrite C, map_app in ND. cbn [map] in ND.
        clear - K ND. revert l1' K ND. induction l1 as [|x l1 IH]; intros [|y l1'] K ND; cbn [app map] in *.
        - injection K as ->. auto.
        - exfalso. injection K as -> K. inversion_clear ND as [|? ? N1 N2]. apply N1. rewrite K, map_app. apply in_or_app. right. left. reflexivity.
        - exfalso. injection K as -> K. inversion_clear ND as [|? ? N1 N2]. apply N1. apply in_or_app. right. left. reflexivity.
        - injection K as -> K. inversion_clear ND as [|? ? N1 N2]. destruct (IH l1' K N2) as [-> ->]. auto. }
      destruct L as [-> ->]. rewrite C. repeat split; auto.
  Qed.
  Lemma rest_visible v i : at_rest root sc v -> vsel v = Some i -> In i (rows (vcoll v) root).
  Proof. intros A S. destruct (rest_ready v i A S) as ((_ & I & _) & _). exact I. Qed.

  Lemma press_page_up v r before i : at_rest root sc v -> vsel v = Some i -> held_by root r before i ->
    exists v', pressing rx root sc "KEY_PPAGE" v v' /\ vcoll v' = vcoll v /\ vsel v' = Some (match rev before with s :: _ => s | [] => r end).
  Proof.
    intros A S H. assert (V := rest_visible v i A S). destruct (rest_ready v i A S) as (R & _).
    destruct (held_place _ r before i H V) as (k & pre & p & post & l1 & e & l2 & P & C & K & <- & <- & <-).
    assert (P' := PL_child root _ _ _ _ _ _ _ _ P C K).
    assert (IV := value_in root _ (place_in root _ _ _ _ _ P)). assert (J : In e (children (value_of p))) by (rewrite K; apply in_elt).
    assert (EV : selectPUp root v = Some (Redraw, set_sel v (Some (match rev (map eid l1) with s :: _ => s | [] => eid p end)))).
    { unfold selectPUp. rewrite S. cbn [obind]. change (mem_of root) with h. rewrite (findPrev_child root M _ _ _ _ IV K). cbn [obind].
      destruct (rev (map eid l1)) as [|b l]; cbn [hd_error]; [|reflexivity].
      rewrite (lookup_in root M _ (kid_in root _ _ IV J)). cbn [obind]. rewrite (child_parent root M _ _ IV J). unfold container_at. change (mem_of root) with h.
      rewrite (lookup_in root M _ IV : lookup h (nid (value_of p)) = _). cbn [obind]. rewrite (container_child _ _ J).
      rewrite (row_of_place root M _ _ _ _ _ P). reflexivity. }
    destruct (selectPUp_led root M v _ R) as (o & v1 & E1 & W & R1). rewrite EV in E1. injection E1 as <- <-. destruct R1 as (j & R1).
    assert (j = match rev (map eid l1) with s :: _ => s | [] => eid p end) by (destruct R1 as (R1 & _); cbn in R1; congruence). subst j.
    destruct (moves "KEY_PPAGE" v _ _ R1 W (fun _ => EV)) as (v' & Q1 & Q2 & Q3). eauto.
  Qed.

  Lemma press_page_up_root v : at_rest root sc v -> vsel v = Some (nid root) -> pressing rx root sc "KEY_PPAGE" v v.
  Proof.
    intros A S. apply stays; [exact A|]. intros p. change (selectPUp root v = Some (NextInput, v)). unfold selectPUp. rewrite S. cbn [obind]. change (mem_of root) with h.
    rewrite (findPrev_root root M). cbn [obind]. rewrite (lookup_in root M _ (root_in root) : lookup h (nid root) = _). cbn [obind]. rewrite (root_parent root M). reflexivity.
  Qed.

  Lemma page_down_next v i next : at_rest root sc v -> vsel v = Some i -> findNext (deep root) h i = Some next ->
    exists v', pressing rx root sc "KEY_NPAGE" v v' /\ vcoll v' = vcoll v /\ (next = None -> v' = v) /\ vsel v' = Some (match next with Some r => r | None => i end).
  Proof.
    intros A S FN. destruct (rest_ready v i A S) as (R & _). destruct (selectPDown_led root M v i R) as (o & v1 & E1 & W & R1).
    unfold selectPDown in E1. rewrite S in E1. cbn [obind] in E1. change (mem_of root) with h in E1. rewrite FN in E1. cbn [obind] in E1.
    assert (EV : forall p, evalKey root rx sc (str "KEY_NPAGE") p v = Some (o, v1)).
    { intros p. change (selectPDown root v = Some (o, v1)). unfold selectPDown. rewrite S. cbn [obind]. change (mem_of root) with h. rewrite FN. exact E1. }
    destruct next as [r|]; injection E1 as <- <-.
    - destruct R1 as (j & R1). assert (j = r) by (destruct R1 as (R1 & _); cbn in R1; congruence). subst j.
      destruct (moves "KEY_NPAGE" v _ r R1 W EV) as (v' & Q1 & Q2 & Q3). exists v'. split; [exact Q1|]. split; [exact Q3|]. split; [discriminate|exact Q2].
    - exists v. split; [apply stays; [exact A|exact EV]|auto].
  Qed.

  Lemma press_page_down v t i n : at_rest root sc v -> vsel v = Some i -> In t (root :: entry_values root) -> In (i, n) (level t) ->
    exists pre post v', inside [] t = pre ++ i :: inside [] n ++ post /\ pressing rx root sc "KEY_NPAGE" v v' /\ vcoll v' = vcoll v /\
      match post with s :: _ => vsel v' = Some s | [] => v' = v end.
  Proof.
    intros A S T I. destruct (findNext_level root M t i n T I) as (pre & post & E & FN). destruct (page_down_next v i _ A S FN) as (v' & P & Q1 & Q2 & Q3).
    exists pre, post, v'. split; [exact E|]. split; [exact P|]. split; [exact Q1|]. destruct post; [apply Q2; reflexivity|exact Q3].
  Qed.
  Lemma press_page_down_root v : at_rest root sc v -> vsel v = Some (nid root) -> pressing rx root sc "KEY_NPAGE" v v.
  Proof.
    intros A S. destruct (page_down_next v _ _ A S (findNext_root root M (length (mem_of root)))) as (v' & P & _ & Q & _). rewrite (Q eq_refl) in P. exact P.
  Qed.

  (** Right and Left. *)
  Lemma press_fold k v i n : at_rest root sc v -> vsel v = Some i -> In (i, n) (shown (nid root) root) -> inside (vcoll v) n <> [] -> k = "H"%string \/ k = "KEY_LEFT"%string ->
    exists v' pre post, pressing rx root sc k v v' /\ vsel v' = Some i /\ (forall j, In j (vcoll v') <-> j = nid n \/ In j (vcoll v)) /\
      rows (vcoll v) root = pre ++ i :: inside (vcoll v) n ++ post /\ rows (vcoll v') root = pre ++ i :: post.
  Proof.
    intros A S SH NE K. assert (V := rest_visible v i A S). destruct (rest_ready v i A S) as (R & _).
    destruct (fold_row root M v i n S V SH NE) as (v1 & EV & S1 & C1 & (pre & post & E1 & E2) & _).
    destruct (collapse_led root M v i R) as (o & v2 & E & W & R1). rewrite EV in E. injection E as <- <-. destruct R1 as (j & R1).
    assert (j = i) by (destruct R1 as (R1 & _); congruence). subst j.
    destruct (moves k v v1 i R1 W ltac:(intros p; destruct K as [-> | ->]; exact EV)) as (v' & Q1 & Q2 & Q3).
    exists v', pre, post. rewrite Q3, <- E1, <- E2. split; [exact Q1|]. split; [exact Q2|]. split; [|auto]. intros j. rewrite C1. cbn [In]. split; intros [Q|Q]; auto.
  Qed.

  Lemma press_leave k v r before i n : at_rest root sc v -> vsel v = Some i -> held_by root r before i -> In (i, n) (shown (nid root) root) -> inside (vcoll v) n = [] ->
    k = "H"%string \/ k = "KEY_LEFT"%string ->
    exists v', pressing rx root sc k v v' /\ vcoll v' = vcoll v /\ vsel v' = Some r.
  Proof.
    intros A S HB SH IE KK. assert (V := rest_visible v i A S). destruct (rest_ready v i A S) as (R & _).
    destruct (held_place _ r before i HB V) as (k0 & pre & p & post & l1 & e & l2 & P & C & K & <- & <- & _).
    destruct (shown_visible root M _ _ _ SH V) as (k1 & pre1 & e1 & post1 & P1 & EE & EV1).
    assert (IV := value_in root _ (place_in root _ _ _ _ _ P)). assert (J : In e (children (value_of p))) by (rewrite K; apply in_elt).
    assert (e1 = e) by (apply (eid_inj root M); [eapply place_in, P1|exact (kid_in root _ _ IV J)|exact EE]). subst e1.
    assert (EV : collapseSelection root v = Some (Redraw, set_sel v (Some (eid p)))).
    { unfold collapseSelection. rewrite S. cbn [obind]. change (mem_of root) with h. rewrite (lookup_in root M _ (kid_in root _ _ IV J)). cbn [obind]. cbn zeta.
      assert (B : match mpar (node_meta (value_of e)) with Some _ => true | None => false end = true).
      { assert (CP := child_parent root M _ _ IV J). destruct e as [m|m kk w]; cbn [value_of epar] in *; [rewrite CP; reflexivity|].
        assert (VP := value_parent root M m kk w (kid_in root _ _ IV J)). cbn [epar] in VP. rewrite VP. reflexivity. }
      rewrite B. rewrite inside_children in IE. rewrite EV1.
      assert (ST : negb (is_container n) || mem (nid n) (vcoll v) || match children n with [] => true | _ :: _ => false end = true).
      { destruct (mem (nid n) (vcoll v)); [rewrite orb_true_r; reflexivity|]. destruct (children n); [rewrite orb_true_r; reflexivity|discriminate IE]. }
      rewrite ST. cbn [andb]. rewrite (child_parent root M _ _ IV J). cbn [obind]. rewrite (row_of_place root M _ _ _ _ _ P). reflexivity. }
    destruct (collapse_led root M v _ R) as (o & v2 & E & W & R1). rewrite EV in E. injection E as <- <-. destruct R1 as (j & R1).
    assert (j = eid p) by (destruct R1 as (R1 & _); cbn in R1; congruence). subst j.
    destruct (moves k v _ _ R1 W ltac:(intros q; destruct KK as [-> | ->]; exact EV)) as (v' & Q1 & Q2 & Q3). eauto.
  Qed.

  Lemma press_leave_root k v : at_rest root sc v -> vsel v = Some (nid root) -> inside (vcoll v) root = [] -> k = "H"%string \/ k = "KEY_LEFT"%string ->
    exists v', pressing rx root sc k v v' /\ vsel v' = Some (nid root) /\ rows (vcoll v') root = [nid root].
  Proof.
    intros A S IE KK. destruct (rest_ready v _ A S) as (R & _).
    assert (EV : collapseSelection root v = Some (Redraw, set_coll v (insert (nid root) (vcoll v)))).
    { unfold collapseSelection. rewrite S. cbn [obind]. change (mem_of root) with h. rewrite (lookup_in root M _ (root_in root) : lookup h (nid root) = _). cbn [obind value_of].
      assert (RP := root_parent root M). cbn [epar] in RP. rewrite RP. reflexivity. }
    destruct (collapse_led root M v _ R) as (o & v2 & E & W & R1). rewrite EV in E. injection E as <- <-. destruct R1 as (j & R1).
    assert (j = nid root) by (destruct R1 as (R1 & _); cbn in R1; congruence). subst j.
    destruct (moves k v _ _ R1 W ltac:(intros q; destruct KK as [-> | ->]; exact EV)) as (v' & Q1 & Q2 & Q3).
    exists v'. split; [exact Q1|]. split; [exact Q2|]. rewrite Q3. unfold rows. rewrite inside_children.
    assert (Q : mem (nid root) (vcoll (set_coll v (insert (nid root) (vcoll v)))) = true) by (apply mem_In, insert_In; auto). rewrite Q. reflexivity.
  Qed.

  Lemma press_left_root k v i : at_rest root sc v -> vsel v = Some i -> In (i, root) (shown (nid root) root) -> inside (vcoll v) root = [] -> k = "H"%string \/ k = "KEY_LEFT"%string ->
    exists v', pressing rx root sc k v v' /\ vsel v' = Some i /\ rows (vcoll v') root = [i].
  Proof.
    intros A S SH IE KK. destruct (shown_place root _ _ SH) as (k1 & pre & e & post & P & EI & EV).
    assert (i = nid root).
    { destruct e as [m|m kk w]; cbn [value_of eid] in *; [congruence|]. subst w. assert (VP := value_parent root M m kk root (place_in root _ _ _ _ _ P)). rewrite (root_parent root M) in VP. discriminate VP. }
    subst i. rewrite H in *. exact (press_leave_root k v A S IE KK).
  Qed.

  Lemma press_unfold k v i n : at_rest root sc v -> vsel v = Some i -> In (i, n) (shown (nid root) root) -> is_container n = true -> In (nid n) (vcoll v) ->
    k = "L"%string \/ k = "KEY_RIGHT"%string ->
    exists v' pre post, pressing rx root sc k v v' /\ vsel v' = Some i /\ (forall j, In j (vcoll v') <-> j <> nid n /\ In j (vcoll v)) /\
      rows (vcoll v) root = pre ++ i :: post /\ rows (vcoll v') root = pre ++ i :: inside (vcoll v') n ++ post.
  Proof.
    intros A S SH IC IN KK. assert (V := rest_visible v i A S). destruct (rest_ready v i A S) as (R & AI & N).
    destruct (shown_visible root M _ _ _ SH V) as (k1 & pre & e & post & P & <- & <-). apply mem_In in IN.
    assert (EV : expandSelection root v = Some (Redraw, set_coll v (Navigation.remove (nid (value_of e)) (vcoll v)))).
    { unfold expandSelection. rewrite S. change (mem_of root) with h. rewrite (lookup_in root M _ (place_in root _ _ _ _ _ P)). cbn [obind]. cbn zeta. rewrite IC, IN. reflexivity. }
    destruct (expand_led root M v _ R AI N) as (o & v2 & E & W & R1). rewrite EV in E. injection E as <- <-. destruct R1 as (j & R1).
    assert (j = eid e) by (destruct R1 as (R1 & _); cbn in R1; congruence). subst j.
    destruct (moves k v _ _ R1 W ltac:(intros q; destruct KK as [-> | ->]; exact EV)) as (v' & Q1 & Q2 & Q3).
    exists v', pre, post. split; [exact Q1|]. split; [exact Q2|]. rewrite Q3. unfold set_coll. cbn [vcoll]. split; [intros j; rewrite remove_In; tauto|]. split.
    - rewrite (place_rows root _ _ _ _ _ P). unfold rows_elem. rewrite inside_children, IN. reflexivity.
    - rewrite (place_rows root (Navigation.remove (nid (value_of e)) (vcoll v)) k1 pre e post); [reflexivity|].
      apply (place_agree root M (nid (value_of e)) (vcoll v)); [intros j; apply mem_remove|exact P|apply own_id].
  Qed.

  Lemma press_right_scalar k v i n : at_rest root sc v -> vsel v = Some i -> In (i, n) (shown (nid root) root) -> members n = [] -> ~ In (nid n) (vcoll v) ->
    k = "L"%string \/ k = "KEY_RIGHT"%string -> pressing rx root sc k v v.
  Proof.
    intros A S SH ME NC KK. assert (V := rest_visible v i A S). destruct (shown_visible root M _ _ _ SH V) as (k1 & pre & e & post & P & <- & <-). apply mem_not in NC.
    assert (EV : expandSelection root v = Some (NextInput, v)).
    { unfold expandSelection. rewrite S. change (mem_of root) with h. rewrite (lookup_in root M _ (place_in root _ _ _ _ _ P)). cbn [obind]. cbn zeta. rewrite NC.
      rewrite members_eid in ME. apply map_eq_nil in ME. rewrite ME. destruct (negb _); reflexivity. }
    apply stays; [exact A|]. intros q. destruct KK as [-> | ->]; exact EV.
  Qed.

  Lemma redraw_first v v' n c : redraw root sc v = Some (true, v') -> vsel v = Some (nid n) -> In (ENode n) h -> mem (nid n) (vcoll v) = false -> hd_error (children n) = Some c ->
    vlast v' = true -> vdown v' = Some (eid c).
  Proof.
    intros RD S I ME CH. unfold redraw in RD. destruct (draw _ _ _ _ _ _ _) as [[r s]|]; [|discriminate RD]. cbn [obind] in RD.
    destruct (negb r && negb (dfound s)); [discriminate RD|]. destruct (ddown s) as [d|].
    - cbn [obind] in RD. injection RD as <-. cbn [vlast]. rewrite andb_false_r. discriminate.
    - rewrite S in RD. change (mem_of root) with h in RD. rewrite (lookup_in root M _ I : lookup h (nid n) = _) in RD. cbn [obind] in RD. rewrite ME in RD.
      destruct (children n) as [|c' l]; [discriminate CH|]. injection CH as ->. cbn [obind] in RD. injection RD as <-. reflexivity.
  Qed.

  Lemma press_right k v i n c l : at_rest root sc v -> vsel v = Some i -> In (i, n) (shown (nid root) root) -> members n = c :: l -> ~ In (nid n) (vcoll v) ->
    k = "L"%string \/ k = "KEY_RIGHT"%string ->
    exists v', pressing rx root sc k v v' /\ vcoll v' = vcoll v /\
      (vsel v' = Some c \/ i <> nid n /\ forall r line b, In (r, line, b) (vlines v) -> ~ In r (rows_after i (rows (vcoll v) root))).
  Proof.
    intros A S SH ME NC KK. assert (V := rest_visible v i A S). destruct (rest_ready v i A S) as (R & AI & N).
    destruct (shown_visible root M _ _ _ SH V) as (k1 & pre & e & post & P & EI & <-). apply mem_not in NC. rewrite members_eid in ME.
    assert (IN := place_in root _ _ _ _ _ P).
    destruct (children (value_of e)) as [|ce cl] eqn:CH; [discriminate ME|]. cbn [map] in ME. injection ME as ME _.
    assert (IC : is_container (value_of e) = true) by (apply (container_child _ ce); rewrite CH; left; reflexivity).
    assert (EV : expandSelection root v = Some (Redraw, set_sel v (vdown v))).
    { unfold expandSelection. rewrite S. change (mem_of root) with h. rewrite <- EI, (lookup_in root M _ IN). cbn [obind]. cbn zeta. rewrite NC, IC, CH. reflexivity. }
    destruct (expand_led root M v _ R AI N) as (o & v2 & E & W & R1). rewrite EV in E. injection E as <- <-. destruct R1 as (j & R1).
    assert (DJ : vdown v = Some j) by (destruct R1 as (R1 & _); exact R1).
    destruct (moves k v _ _ R1 W ltac:(intros q; destruct KK as [-> | ->]; exact EV)) as (v' & Q1 & Q2 & Q3).
    exists v'. split; [exact Q1|]. split; [exact Q3|].
    destruct A as (v0 & RD & _). destruct (redraw_same root _ _ _ _ RD) as (E1 & E2 & _).
    assert (ER := place_rows root _ _ _ _ _ P). unfold rows_elem in ER. cbn [app] in ER. rewrite EI, E2 in ER.
    destruct (redraw_rows root M sc v0 v i pre _ RD ltac:(congruence) ER) as (_ & D1 & D2). rewrite inside_children, <- E2, NC, CH, rowsL_cons in D1. unfold rows_elem in D1. cbn [app] in D1.
    destruct (vlast v) eqn:VL; [|left; rewrite (D1 eq_refl) in DJ; congruence].
    destruct (Z.eq_dec i (nid (value_of e))) as [EQ|NE].
    - left. assert (CE : hd_error (children (value_of e)) = Some ce) by (rewrite CH; reflexivity).
      rewrite (redraw_first v0 v (value_of e) ce RD ltac:(congruence) (value_in root _ IN) ltac:(congruence) CE VL) in DJ. congruence.
    - right. split; [exact NE|]. intros r line b L. rewrite E2, ER, rows_after_split; [apply (proj2 (D2 eq_refl) r line b L)|].
      assert (ND := rows_NoDup root M (vcoll v0)). rewrite ER in ND. apply NoDup_remove_2 in ND. intros Q. apply ND, in_or_app. auto.
  Qed.

  (** Other keys. *)
  Lemma press_quit v p t : wait rx root sc v false (EvKey (str "Q") p :: t) = Ended sc v t.
  Proof. reflexivity. Qed.

  Lemma press_other k v p : ~ In k (map str ["Q"; "K"; "KEY_UP"; "J"; "KEY_DOWN"; "KEY_PPAGE"; "KEY_NPAGE"; "L"; "KEY_RIGHT"; "H"; "KEY_LEFT"; "/"; "N"]%string) ->
    wait rx root sc v false [EvKey k p] = Waiting sc v false.
  Proof.
    intros N. cbn [wait]. unfold evalKey. cbn [map In] in N.
    assert (B : forall s, (str s = k -> False) -> beqb k (str s) = false) by (intros s Q; destruct (beqb k (str s)) eqn:E; [apply beqb_eq in E; exfalso; apply Q; congruence|reflexivity]).
    rewrite !B by tauto. reflexivity.
  Qed.

  Lemma press_clear v i p : at_rest root sc v -> vsel v = Some i -> isEmpty p = true ->
    exists v', wait rx root sc v false [EvKey (str "/") (Some p)] = Waiting sc v' false /\ at_rest root sc v' /\ vsel v' = Some i /\ vcoll v' = vcoll v /\ vres v' = [].
  Proof.
    intros A S E. destruct (rest_ready v i A S) as ((_ & I & F & T) & _).
    assert (R1 : ready root (set_res v []) i) by (unfold ready, set_res; cbn; repeat split; auto; intros ? []).
    destruct (settles _ i R1) as (v' & L & A' & S' & C' & V'). exists v'. split; [|auto]. cbn [wait].
    change (evalKey root rx sc (str "/") (Some p) v) with (initSearch root rx (Some p) sc v). unfold initSearch. rewrite E, L. reflexivity.
  Qed.
  Lemma press_cancel v i : at_rest root sc v -> vsel v = Some i ->
    exists v', wait rx root sc v false [EvKey (str "/") None] = Waiting sc v' false /\ at_rest root sc v' /\ vsel v' = Some i /\ vcoll v' = vcoll v /\ vres v' = vres v.
  Proof.
    intros A S. destruct (rest_ready v i A S) as (R & _). destruct (settles _ i R) as (v' & L & A' & S' & C' & V'). exists v'. split; [|auto]. cbn [wait].
    change (evalKey root rx sc (str "/") None v) with (Some (Redraw, v)). cbv beta iota. rewrite L. reflexivity.
  Qed.

  Lemma rest_shown v i : at_rest root sc v -> vsel v = Some i -> 2 <= sh sc < 2 ^ 32 -> exists line, In (i, line, true) (vlines v) /\ 1 <= line <= sh sc - 1.
  Proof.
    intros (v0 & RD & (j & S & I) & T & _) E HS. destruct (redraw_same root _ _ _ _ RD) as (E1 & _). assert (i = j) by congruence. subst j.
    exact (redraw_shown root M sc v0 v i HS T RD S I).
  Qed.
End Press.

Section Runs.
  Variable (rx : bytes -> bool -> bytes -> bool) (root : node).
  Hypothesis M : in_memory root.

  Lemma press_size sc v i w hh : roomy root sc -> 3 <= w < 2 ^ 32 -> at_rest root sc v -> vsel v = Some i ->
    exists v', wait rx root sc v false [EvSize w hh] = Waiting (mkScreen w hh (slen sc)) v' false /\ at_rest root (mkScreen w hh (slen sc)) v' /\
      vsel v' = Some i /\ vcoll v' = vcoll v /\ vres v' = vres v.
  Proof.
    intros (_ & R2 & R3) W A S. destruct (rest_ready root sc M v i A S) as (R & _).
    destruct (settles root (mkScreen w hh (slen sc)) M ltac:(split; [exact W|auto]) v i R) as (v' & L & Q). exists v'. split; [|exact Q]. cbn [wait]. cbv zeta. rewrite L. reflexivity.
  Qed.

  Lemma wait_rest evs : forall sc v stop, roomy root sc -> wide evs -> unsearched evs -> at_rest root sc v ->
    match wait rx root sc v stop evs with Waiting sc' v' _ => roomy root sc' /\ at_rest root sc' v' | Ended _ _ _ => True | Undefined => False end.
  Proof.
    induction evs as [|ev t IH]; intros sc v stop RO W U A; [cbn [wait]; auto|].
    assert (Wt : wide t) by (intros w hh I; apply (W w hh); right; exact I). assert (Ut : unsearched t) by (intros k p I; apply (U k p); right; exact I).
    assert (SV : exists i, vsel v = Some i) by (destruct A as (v0 & RD & (j & S & _) & _); destruct (redraw_same root _ _ _ _ RD) as (E1 & _); exists j; congruence).
    destruct SV as (i & S). destruct (rest_ready root sc M v i A S) as (R & AI & N).
    destruct ev as [k p|w hh|].
    - cbn [wait]. destruct (U k p (or_introl eq_refl)) as (U1 & U2).
      assert (B : forall s, k <> s -> beqb k s = false) by (intros s Q; destruct (beqb k s) eqn:E; [apply beqb_eq in E; contradiction|reflexivity]).
      destruct (evalKey_plain root M rx sc k p v i R AI N (B _ U1) (B _ U2)) as (o & v1 & EV & _ & Q). rewrite EV. destruct o; [|destruct Q|exact Logic.I|].
      + destruct Q as (j & R1). destruct (settles root sc M RO v1 j R1) as (v' & L & A' & _). rewrite L. destruct stop; [exact Logic.I|apply IH; auto].
      + subst v1. destruct stop; [exact Logic.I|apply IH; auto].
    - cbn [wait]. cbv zeta. assert (RO' : roomy root (mkScreen w hh (slen sc))) by (destruct RO as (_ & R2 & R3); split; [exact (W w hh (or_introl eq_refl))|auto]).
      destruct (settles root (mkScreen w hh (slen sc)) M RO' v i R) as (v' & L & A' & _). rewrite L. apply IH; auto.
    - cbn [wait]. apply IH; auto.
  Qed.

  Lemma run_rest evs sc : roomy root sc -> wide evs -> unsearched evs ->
    match run rx root sc view0 evs with Waiting sc' v' _ => roomy root sc' /\ at_rest root sc' v' | Ended _ _ _ => True | Undefined => False end.
  Proof.
    intros RO W U. unfold run. cbv zeta.
    match goal with |- context [redraw_loop _ _ _ ?w] => assert (R : ready root w (nid root)) by (unfold ready; cbn; repeat split; [left; reflexivity|intros ? []|lia]) end.
    destruct (settles root sc M RO _ _ R) as (v' & L & A' & _). rewrite L. apply wait_rest; auto.
  Qed.
End Runs.

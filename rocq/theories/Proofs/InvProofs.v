(** What keys do to the selection. *)
From Verif Require Export Proofs.KeyProofs.
From Coq Require Import Lia ZifyBool.
Open Scope Z_scope.

Lemma sublist_after {A} (i : A) q b : forall a p, sublist (p ++ i :: q) (a ++ i :: b) -> NoDup (a ++ i :: b) -> sublist q b.
Proof.
  assert (S : forall (l l' : list A) x, sublist l l' -> In x l -> In x l').
  { induction 1; intros I; [exact I|right; auto|]. destruct I as [<-|I]; [left; reflexivity|right; auto]. }
  induction a as [|x a IH]; intros p H N; cbn [app] in *; inversion_clear N as [|? ? N1 N2].
  - inversion H as [|x' l l' H1|x' l l' H1 E]; subst.
    + exfalso. apply N1. apply (S _ _ i H1), in_elt.
    + destruct p as [|y p]; cbn [app] in *; [injection E as E; rewrite E in H1; exact H1|]. injection E as _ E. rewrite E in H1. exfalso. apply N1. apply (S _ _ i H1), in_elt.
  - inversion H as [|x' l l' H1|x' l l' H1 E]; subst; [eauto|].
    destruct p as [|y p]; cbn [app] in *; [injection E as E _; rewrite E in N1; exfalso; apply N1, in_elt|]. injection E as _ E. rewrite E in H1. eauto.
Qed.

Lemma sublist_find {A} (f : A -> bool) l l' : sublist l l' -> NoDup l' -> (forall x, In x l' -> f x = true -> In x l) -> find f l' = find f l.
Proof.
  assert (S : forall (l l' : list A) x, sublist l l' -> In x l -> In x l').
  { induction 1; intros I; [exact I|right; auto|]. destruct I as [<-|I]; [left; reflexivity|right; auto]. }
  induction 1 as [|x l l' H IH|x l l' H IH]; intros N F; [reflexivity| |]; inversion_clear N as [|? ? N1 N2]; cbn [find].
  - destruct (f x) eqn:E; [exfalso; apply N1, (S _ _ x H), F; [left; reflexivity|exact E]|]. apply IH; [exact N2|]. intros y I. apply F. right. exact I.
  - destruct (f x); [reflexivity|]. apply IH; [exact N2|]. intros y I E. destruct (F y (or_intror I) E) as [<-|J]; [contradiction|exact J].
Qed.

Lemma rows_after_split i pre post : ~ In i pre -> rows_after i (pre ++ i :: post) = post.
Proof.
  induction pre as [|x pre IH]; intros N; cbn [app rows_after]; [rewrite Z.eqb_refl; reflexivity|].
  destruct (x =? i) eqn:E; [apply Z.eqb_eq in E; exfalso; apply N; left; exact E|]. apply IH. intros I. apply N. right. exact I.
Qed.

Section Inv.
  Variable root : node.
  Hypothesis M : in_memory root.
  Notation h := (elems root).
  Notation found := (map fst (items (nid root) root)).

  (** * The next result *)
  Lemma hop_before res i l : (forall x, In x l -> fst x <> i) -> hop res (Some i) l false = (false, None).
  Proof.
    induction l as [|[x t] l IH]; intros N; [reflexivity|]. cbn [hop sel_is].
    assert (E : (i =? x) = false) by (apply Z.eqb_neq; intros Q; apply (N (x, t) (or_introl eq_refl)); symmetry; exact Q).
    rewrite E. cbn [orb negb]. rewrite andb_false_r. apply IH. intros y J. apply N. right. exact J.
  Qed.
  Lemma hop_after res i l : (forall x, In x l -> fst x <> i) -> snd (hop res (Some i) l true) = option_map fst (find (fun x => snd x && mem (fst x) res) l).
  Proof.
    induction l as [|[x t] l IH]; intros N; [reflexivity|]. cbn [hop sel_is find fst snd].
    assert (E : (i =? x) = false) by (apply Z.eqb_neq; intros Q; apply (N (x, t) (or_introl eq_refl)); symmetry; exact Q).
    rewrite E. cbn [orb negb]. rewrite !andb_true_r. destruct (t && mem x res); [reflexivity|]. apply IH. intros y J. apply N. right. exact J.
  Qed.

  Lemma found_row i : In i found -> In i (rows [] root).
  Proof. apply items_rows. Qed.

  Lemma jump_next res i : incl res found -> In i (rows [] root) ->
    snd (jump res (Some i) root false) = find (fun x => existsb (Z.eqb x) res) (rows_after i (rows [] root)).
  Proof.
    intros RI VI. rewrite jump_hop. assert (ND := proj2 M). rewrite <- visits_ids in ND.
    assert (TE : forall x t, In (x, t) (visits root) -> In x res -> t = true).
    { intros x t I J. assert (K : In (x, true) (visits root)).
      { apply RI in J. destruct (items_tested root (nid root) x J) as [[E1 ->]|T]; [|exact T]. destruct root; [left; reflexivity|discriminate|discriminate]. }
      clear - ND I K. induction (visits root) as [|[y s] l IH]; [destruct I|]. cbn [map fst] in ND. inversion_clear ND as [|? ? N1 N2].
      destruct I as [I|I], K as [K|K]; [congruence| | |auto]; exfalso; apply N1.
      - injection I as -> _. exact (in_map fst _ _ K).
      - injection K as -> _. exact (in_map fst _ _ I). }
    assert (II : In i (map fst (visits root))) by (rewrite visits_ids; apply (rows_ids root [] i VI)).
    apply in_map_iff in II. destruct II as ([i' t] & E & II). cbn [fst] in E. subst i'. apply in_split in II. destruct II as (va & vb & EV).
    rewrite EV in *. rewrite map_app in ND. cbn [map fst] in ND.
    assert (NA : forall x, In x va -> fst x <> i). { intros x J <-. apply NoDup_remove_2 in ND. apply ND, in_or_app. left. apply in_map, J. }
    assert (NB : forall x, In x vb -> fst x <> i). { intros x J <-. apply NoDup_remove_2 in ND. apply ND, in_or_app. right. apply in_map, J. }
    rewrite hop_app, (hop_before _ _ _ NA). cbn [hop sel_is]. rewrite Z.eqb_refl. cbn [orb negb]. rewrite andb_false_r. cbn [andb]. rewrite (hop_after _ _ _ NB).
    assert (VI' := VI). apply in_split in VI'. destruct VI' as (pre & post & ER).
    assert (NR := rows_NoDup root M []). rewrite ER in NR. rewrite ER, rows_after_split by (intros J; apply NoDup_remove_2 in NR; apply NR, in_or_app; auto).
    assert (SU := rows_sub root []). rewrite <- visits_ids, EV, map_app, ER in SU. cbn [map fst] in SU. apply sublist_after in SU; [|exact ND].
    transitivity (find (fun x => mem x res) (map fst vb)).
    - assert (TB : forall x, In x vb -> In (fst x) res -> snd x = true).
      { intros [x u] J K. apply (TE x u); [apply in_or_app; right; right; exact J|exact K]. }
      clear - TB. induction vb as [|[x u] vb IH]; [reflexivity|]. cbn [find map fst snd]. destruct (mem x res) eqn:E.
      + assert (u = true) by (apply (TB (x, u)); [left; reflexivity|apply mem_In, E]). subst u. reflexivity.
      + rewrite andb_false_r. apply IH. intros y J. apply TB. right. exact J.
    - apply sublist_find; [exact SU| |].
      { clear - ND. apply NoDup_remove_1 in ND. induction (map fst va) as [|y l IH]; [exact ND|]. inversion_clear ND. auto. }
      intros x J K. apply mem_In in K. apply RI, found_row in K. rewrite ER in K. apply in_app_or in K. destruct K as [K|[K|K]]; [exfalso|exfalso|exact K].
      + (* before i in the rows, after i among all addresses *)
        assert (SU2 := rows_sub root []). rewrite <- visits_ids, EV, map_app, ER in SU2. cbn [map fst] in SU2.
        clear - SU2 ND K J.
        assert (S : forall (l l' : list Z) x, sublist l l' -> In x l -> In x l').
        { induction 1; intros I; [exact I|right; auto|]. destruct I as [<-|I]; [left; reflexivity|right; auto]. }
        revert pre SU2 K. induction (map fst va) as [|y vs IH]; intros pre SU2 K; cbn [app] in *; inversion_clear ND as [|? ? N1 N2].
        * inversion SU2 as [|x' l l' H1|x' l l' H1 E]; subst; [apply N1, (S _ _ i H1), in_elt|]. destruct pre as [|z pre]; [destruct K|]. cbn [app] in E. injection E as _ E. rewrite E in H1. apply N1, (S _ _ i H1), in_elt.
        * inversion SU2 as [|x' l l' H1|x' l l' H1 E]; subst; [apply (IH N2 _ H1 K)|]. destruct pre as [|z pre]; [destruct K|]. cbn [app] in E. injection E as E0 E. rewrite E in H1. destruct K as [K|K]; [|apply (IH N2 _ H1 K)].
          apply N1. apply in_or_app. right. right. rewrite E0, K. exact J.
      + subst x. apply NoDup_remove_2 in ND. apply ND, in_or_app. right. exact J.
  Qed.

  (** * Invariants *)
  Definition ready (v : view) (i : Z) : Prop :=
    vsel v = Some i /\ In i (rows (vcoll v) root) /\ incl (vres v) found /\ 0 <= vscroll v.
  Definition aims (v : view) : Prop :=
    (exists u, vup v = Some u /\ In u (rows (vcoll v) root)) /\ (forall d, vdown v = Some d -> In d (rows (vcoll v) root)).

  Lemma ready_ids v i : ready v i -> In i (ids root).
  Proof. intros (_ & I & _). apply (rows_ids root _ _ I). Qed.

  Lemma hd_rev_in (pre : list Z) i : In (match rev pre with u :: _ => u | [] => i end) (pre ++ [i]).
  Proof. destruct (rev pre) as [|u l] eqn:E; [apply in_elt|]. apply in_or_app. left. apply in_rev. rewrite E. left. reflexivity. Qed.

  Lemma redraw_true_aims sc v v' i : ready v i -> redraw root sc v = Some (true, v') -> ready v' i /\ aims v' /\ vdown v' <> None /\ vcoll v' = vcoll v /\ vres v' = vres v.
  Proof.
    intros (S & I & F & T) RD. destruct (redraw_same root _ _ _ _ RD) as (E1 & E2 & E3). assert (I' := I). apply in_split in I'. destruct I' as (pre & post & ER).
    destruct (redraw_rows root M sc v v' i pre post RD S ER) as (U & D1 & D2).
    assert (R' : ready v' i). { unfold ready. rewrite E1, E2, E3. repeat split; auto. apply (redraw_pos root _ _ _ _ RD T). }
    split; [exact R'|]. unfold aims. rewrite E2, ER.
    assert (X : exists d, vdown v' = Some d /\ In d (pre ++ i :: post)).
    { destruct (vlast v').
      - destruct (D2 eq_refl) as ((d & Q1 & Q2) & _). exists d. split; [exact Q1|]. apply in_or_app. right. exact Q2.
      - rewrite (D1 eq_refl). eexists. split; [reflexivity|]. apply in_or_app. right. destruct post; [left; reflexivity|right; left; reflexivity]. }
    destruct X as (d & X1 & X2). split; [split|].
    - rewrite U. eexists. split; [reflexivity|]. assert (Q := hd_rev_in pre i). apply in_app_or in Q. apply in_or_app. destruct Q as [Q|[Q|[]]]; [auto|right; left; exact Q].
    - intros d' Q. rewrite X1 in Q. injection Q as <-. exact X2.
    - split; [rewrite X1; discriminate|auto].
  Qed.

  Lemma redraw_any_aims sc v v' b i : ready v i -> redraw root sc v = Some (b, v') -> ready v' i /\ aims v' /\ vcoll v' = vcoll v /\ vres v' = vres v.
  Proof.
    intros R RD. destruct b; [destruct (redraw_true_aims sc v v' i R RD) as (A & B & _ & C & D); auto|].
    destruct R as (S & I & F & T). destruct (redraw_same root _ _ _ _ RD) as (E1 & E2 & E3). destruct (redraw_false root _ _ _ RD) as (_ & _ & DN).
    assert (P := redraw_pos root _ _ _ _ RD T). split; [unfold ready; rewrite E1, E2, E3; auto|]. split; [|auto].
    split; [|intros d Q; congruence]. rewrite E2.
    assert (RS := visible_row_sel root M _ _ I). assert (W := root_wf root M sc (vcoll v) (Some i) RS).
    unfold redraw in RD. rewrite (draw_exec (mem_of root) sc (vcoll v) root) in RD. change (mem_of root) with h in RD. fold (drawing root sc v) in RD.
    destruct (drawing root sc v) as [[r s]|] eqn:D; [|discriminate]. cbn [obind] in RD. unfold drawing in D. rewrite S in D.
    destruct (negb r && negb (dfound s)) eqn:B; [|destruct (match ddown s with Some d => _ | None => _ end); [|discriminate RD]; cbn [obind] in RD; discriminate RD].
    injection RD as <-. cbn [vup]. apply andb_true_iff in B. destruct B as [_ B]. apply negb_true_iff in B.
    destruct (exec_prefix root sc (Some i) _ (mkD 1 (vscroll v) None None false []) _ _ W D) as (done & rest & EP & OB & _ & _ & NE).
    change (ob (mkD 1 (vscroll v) None None false [])) with (None : option Z, None : option Z, false) in OB.
    assert (ND : ~ In i (prows root done)).
    { intros J. apply in_split in J. destruct J as (x & y & J).
      assert (NR := rows_NoDup root M (vcoll v)). rewrite <- (root_prog_rows root M sc (vcoll v) (Some i)), EP, prows_app, J, <- app_assoc in NR. cbn [app] in NR.
      rewrite J, (scan_at i x y) in OB; [unfold ob in OB; congruence|]. intros K. apply NoDup_remove_2 in NR. apply NR, in_or_app. auto. }
    rewrite (scan_before (Some i) (prows root done) None None) in OB by (intros x J; cbn [sel_is]; apply Z.eqb_neq; intros ->; contradiction).
    assert (PN : prows root done <> []).
    { destruct NE as [NE|NE].
      - rewrite NE in EP. symmetry in EP. assert (Q := root_prog_rows root M sc (vcoll v) (Some i)). rewrite NE in Q. discriminate Q.
      - destruct done as [|c done]; [contradiction|]. assert (HD : exists l, prog sc (vcoll v) 0 (Some i) root = c :: l) by (rewrite EP; cbn [app]; eauto).
        destruct HD as (l & HD). rewrite prog_children in HD. assert (CE : celem c = Some (ENode root)).
        { clear - HD. unfold box in HD. destruct root; [injection HD as <- _; reflexivity| |]; destruct (mem _ _) in HD; injection HD as <- _; reflexivity. }
        unfold prows. cbn [flat_map]. unfold crow. rewrite CE, (root_row root M). discriminate. }
    unfold ob in OB. injection OB as OU _ _. rewrite OU. destruct (rev (prows root done)) as [|u l] eqn:RV.
    - exfalso. apply PN. rewrite <- (rev_involutive (prows root done)), RV. reflexivity.
    - cbn [hd_error]. exists u. split; [reflexivity|]. rewrite <- (root_prog_rows root M sc (vcoll v) (Some i)), EP. apply prows_prefix. apply in_rev. rewrite RV. left. reflexivity.
  Qed.

  Lemma loop_aims f sc v v' i : ready v i -> redraw_loop root f sc v = Some v' -> ready v' i /\ aims v' /\ vdown v' <> None /\ vcoll v' = vcoll v /\ vres v' = vres v.
  Proof.
    intros (S & I & F & T) E. destruct (loop_result root f sc v v' E T) as (v0 & RD & E1 & E2 & E3 & T0).
    assert (R0 : ready v0 i) by (unfold ready; rewrite E1, E2, E3; auto).
    destruct (redraw_true_aims sc v0 v' i R0 RD) as (A & B & C & D & G). rewrite <- E2, <- E3. auto.
  Qed.

  (** * Keys *)
  Lemma row_of_place coll k pre p post : place root coll k pre p post -> row_of root (nid (value_of p)) = Some (eid p).
  Proof.
    intros P. assert (IP := place_in root _ _ _ _ _ P). assert (IV := value_in root _ IP). unfold row_of. change (mem_of root) with h.
    rewrite (lookup_in root M _ IV : lookup h (nid (value_of p)) = _). cbn [obind]. destruct p as [n|m kk v]; cbn [value_of] in *.
    - assert (R := place_row root M _ _ _ _ _ P). unfold parent_is_entry in R. destruct (epar (ENode n)) as [q|]; [rewrite R|]; reflexivity.
    - rewrite (value_parent root M m kk v IP), (is_entry_entry root M m kk v IP). reflexivity.
  Qed.

  Lemma place_visible coll k pre p post : place root coll k pre p post -> In (eid p) (rows coll root).
  Proof. intros P. rewrite (place_rows root _ _ _ _ _ P). apply in_or_app. right. left. reflexivity. Qed.

  Lemma ready_sel v i : 0 <= vscroll v -> incl (vres v) found -> In i (rows (vcoll v) root) -> ready (set_sel v (Some i)) i.
  Proof. intros T F I. unfold ready, set_sel. cbn. auto. Qed.

  (** A key leads to a row, or leaves things as they are. *)
  Definition led (r : option (inputResult * view)) (v : view) : Prop :=
    exists o v', r = Some (o, v') /\ vres v' = vres v /\
      match o with Redraw => exists i, ready v' i | RedrawAll => False | Quit => v' = v | NextInput => v' = v end.

  Lemma selectPUp_led v i : ready v i -> led (selectPUp root v) v.
  Proof.
    intros (S & I & F & T). unfold selectPUp. rewrite S. cbn [obind]. destruct (place_of root _ _ I) as (k & pre & e & post & P & <-).
    change (mem_of root) with h. inversion P as [|k' pre' p post' l1 e' l2 Q C K]; subst.
    - rewrite (findPrev_root root M : findPrev h (eid (ENode root)) = _). cbn [obind]. rewrite (lookup_in root M _ (root_in root)). cbn [obind]. rewrite (root_parent root M).
      eexists _, _. split; [reflexivity|]. auto.
    - assert (IV := value_in root _ (place_in root _ _ _ _ _ Q)). assert (J : In e (children (value_of p))) by (rewrite K; apply in_elt).
      rewrite (findPrev_child root M _ _ _ _ IV K). cbn [obind]. destruct (rev (map eid l1)) as [|b l] eqn:RV; cbn [hd_error].
      + rewrite (lookup_in root M _ (kid_in root _ _ IV J)). cbn [obind]. rewrite (child_parent root M _ _ IV J). unfold container_at. change (mem_of root) with h.
        rewrite (lookup_in root M _ IV : lookup h (nid (value_of p)) = _). cbn [obind]. rewrite (container_child _ _ J).
        rewrite (row_of_place _ _ _ _ _ Q). cbn [obind]. eexists _, _. split; [reflexivity|]. split; [reflexivity|]. exists (eid p). apply ready_sel; auto. apply (place_visible _ _ _ _ _ Q).
      + eexists _, _. split; [reflexivity|]. split; [reflexivity|]. exists b. apply ready_sel; auto. rewrite (place_rows root _ _ _ _ _ P). apply in_or_app. left. apply in_or_app. right.
        assert (B : In b (map eid l1)) by (apply in_rev; rewrite RV; left; reflexivity). apply in_map_iff in B. destruct B as (x & <- & B).
        right. unfold rowsL. apply in_flat_map. exists x. split; [exact B|left; reflexivity].
  Qed.

  Lemma selectPDown_led v i : ready v i -> led (selectPDown root v) v.
  Proof.
    intros (S & I & F & T). unfold selectPDown. rewrite S. cbn [obind]. destruct (place_of root _ _ I) as (k & pre & e & post & P & <-).
    destruct (findNext_place root M _ _ _ _ _ P _ (place_deep root _ _ _ _ _ P)) as (o & FN & OO). change (mem_of root) with h. rewrite FN. cbn [obind].
    destruct OO as [->|(r & post' & -> & ->)]; (eexists _, _; split; [reflexivity|]; split; [reflexivity|]); [auto|].
    exists r. apply ready_sel; auto. rewrite (place_rows root _ _ _ _ _ P). apply in_or_app. right. apply in_or_app. right. left. reflexivity.
  Qed.

  Lemma expand_led v i : ready v i -> aims v -> vdown v <> None -> led (expandSelection root v) v.
  Proof.
    intros (S & I & F & T) (_ & A) N. unfold expandSelection. rewrite S. destruct (place_of root _ _ I) as (k & pre & e & post & P & <-).
    change (mem_of root) with h. rewrite (lookup_in root M _ (place_in root _ _ _ _ _ P)). cbn [obind]. cbn zeta.
    destruct (negb (is_container (value_of e))); [eexists _, _; split; [reflexivity|]; auto|]. destruct (mem (nid (value_of e)) (vcoll v)).
    - eexists _, _. split; [reflexivity|]. split; [reflexivity|]. exists (eid e). unfold ready, set_coll. cbn. split; [exact S|]. split; [|auto].
      apply (place_visible _ k pre e post). apply (place_agree root M (nid (value_of e)) (vcoll v)); [intros j; apply mem_remove|exact P|apply own_id].
    - destruct (children (value_of e)); [eexists _, _; split; [reflexivity|]; auto|]. destruct (vdown v) as [d|]; [|contradiction].
      eexists _, _. split; [reflexivity|]. split; [reflexivity|]. exists d. apply ready_sel; auto.
  Qed.

  Lemma collapse_led v i : ready v i -> led (collapseSelection root v) v.
  Proof.
    intros (S & I & F & T). unfold collapseSelection. rewrite S. cbn [obind]. destruct (place_of root _ _ I) as (k & pre & e & post & P & <-).
    change (mem_of root) with h. rewrite (lookup_in root M _ (place_in root _ _ _ _ _ P)). cbn [obind]. cbn zeta.
    match goal with |- context [if ?b && ?c then _ else _] => destruct b eqn:B; [destruct c|]; cbn [andb] end.
    2, 3: eexists _, _; split; [reflexivity|]; split; [reflexivity|]; exists (eid e); unfold ready, set_coll; cbn; (split; [exact S|]); (split; [|auto]);
      apply (place_visible _ k pre e post); apply (place_agree root M (nid (value_of e)) (vcoll v)); [intros j; apply mem_insert|exact P|apply own_id].
    inversion P as [|k' pre' p post' l1 e' l2 Q C K]; subst.
    - assert (R := root_parent root M). cbn [epar value_of] in *. rewrite R in B. discriminate B.
    - assert (IV := value_in root _ (place_in root _ _ _ _ _ Q)). assert (J : In e (children (value_of p))) by (rewrite K; apply in_elt).
      rewrite (child_parent root M _ _ IV J). cbn [obind]. rewrite (row_of_place _ _ _ _ _ Q). cbn [obind].
      eexists _, _. split; [reflexivity|]. split; [reflexivity|]. exists (eid p). apply ready_sel; auto. apply (place_visible _ _ _ _ _ Q).
  Qed.

  Lemma up_led v i : ready v i -> aims v -> led (selectUp v) v.
  Proof.
    intros (S & I & F & T) ((u & U & UV) & _). unfold selectUp. rewrite U. eexists _, _. split; [reflexivity|]. split; [reflexivity|]. exists u. apply ready_sel; auto.
  Qed.
  Lemma down_led v i : ready v i -> aims v -> vdown v <> None -> led (selectDown v) v.
  Proof.
    intros (S & I & F & T) (_ & A) N. unfold selectDown. destruct (vlast v).
    - eexists _, _. split; [reflexivity|]. split; [reflexivity|]. exists i. unfold ready, set_scroll. cbn. repeat split; auto. lia.
    - destruct (negb _); [|eexists _, _; split; [reflexivity|]; auto]. destruct (vdown v) as [d|]; [|contradiction].
      eexists _, _. split; [reflexivity|]. split; [reflexivity|]. exists d. apply ready_sel; auto.
  Qed.

  (** The next result is selected. *)
  Lemma next_led sc v i : roomy root sc -> ready v i -> vres v <> [] ->
    exists o v' r, nextResult root sc v = Some (o, v') /\ vres v' = vres v /\ ready v' r /\ next_result (rows [] root) (vres v) i = Some r /\
      (o = Redraw \/ o = NextInput /\ aims v').
  Proof.
    intros RO (S & I & F & T) N. unfold nextResult. destruct (vres v) as [|first rest] eqn:E; [contradiction|]. rewrite <- E in *.
    assert (I0 : In i (rows [] root)) by (apply (rows_incl root (vcoll v)), I).
    rewrite S, (jump_next _ _ F I0). unfold next_result. destruct (find _ (rows_after i (rows [] root))) as [r|] eqn:FI.
    - assert (IR : In r (vres v)). { apply find_some in FI. destruct FI as [_ FI]. apply mem_In. exact FI. }
      destruct (unfold_visible root M (vcoll v) r (found_row _ (F _ IR))) as (c' & U & _ & V). change (mem_of root) with h. rewrite U. cbn [obind].
      eexists _, _, r. split; [reflexivity|]. split; [reflexivity|]. split; [unfold ready, set_sel, set_coll; cbn; auto|]. auto.
    - assert (IR : In first (vres v)) by (rewrite E; left; reflexivity).
      destruct (unfold_visible root M (vcoll v) first (found_row _ (F _ IR))) as (c' & U & _ & V). change (mem_of root) with h. rewrite U. cbn [obind].
      assert (R1 : ready (set_sel (set_coll v c') (Some first)) first) by (unfold ready, set_sel, set_coll; cbn; auto).
      destruct (redraw_total root M sc _ first RO (proj1 R1) (ready_ids _ _ R1)) as (b & v' & RD). rewrite RD. cbn [obind].
      destruct (redraw_any_aims sc _ v' b first R1 RD) as (R2 & A2 & _ & VR). cbn in VR.
      eexists _, _, first. split; [reflexivity|]. split; [exact VR|]. split; [exact R2|]. split; [rewrite E; reflexivity|auto].
  Qed.

  Lemma search_found rx p : incl (search h (fun e => match_ rx p (etext e) (Navigation.ekind e)) root) found.
  Proof.
    rewrite (search_items root M _ (fun x => match x with Scalar q => match_ rx p (tree_string (TPrim q)) (EPrim q) | Key k => match_ rx p k SearchPattern.EEntry end)); [|reflexivity|reflexivity].
    intros x I. apply in_map_iff in I. destruct I as (y & <- & I). apply filter_In in I. apply in_map. tauto.
  Qed.

  Lemma evalKey_plain rx sc k p v i : ready v i -> aims v -> vdown v <> None -> beqb k (str "/") = false -> beqb k (str "N") = false ->
    led (evalKey root rx sc k p v) v.
  Proof.
    intros R A N K1 K2. unfold evalKey. destruct (beqb k (str "Q")); [eexists _, _; split; [reflexivity|]; auto|].
    destruct (_ || _); [apply (up_led v i R A)|]. destruct (_ || _); [apply (down_led v i R A N)|].
    destruct (beqb k (str "KEY_PPAGE")); [apply (selectPUp_led v i R)|]. destruct (beqb k (str "KEY_NPAGE")); [apply (selectPDown_led v i R)|].
    destruct (_ || _); [apply (expand_led v i R A N)|]. destruct (_ || _); [apply (collapse_led v i R)|]. rewrite K1, K2.
    eexists _, _; split; [reflexivity|]; auto.
  Qed.

  Lemma next_calm sc v i : roomy root sc -> ready v i -> exists o v', nextResult root sc v = Some (o, v') /\ vres v' = vres v /\
      match o with Redraw => exists i, ready v' i | NextInput => exists i, ready v' i /\ aims v' | _ => False end.
  Proof.
    intros RO R. destruct (vres v) as [|r0 rs] eqn:E.
    - unfold nextResult. rewrite E. destruct (redraw_total root M sc v i RO (proj1 R) (ready_ids _ _ R)) as (b & v' & RD). rewrite RD. cbn [obind].
      destruct (redraw_any_aims sc _ v' b i R RD) as (R2 & A2 & _ & VR). eexists _, _. split; [reflexivity|]. split; [congruence|]. exists i. auto.
    - destruct (next_led sc v i RO R ltac:(rewrite E; discriminate)) as (o & v' & r & EQ & VR & Rv & _ & O). exists o, v'. split; [exact EQ|]. split; [congruence|].
      destruct O as [->|[-> AV]]; eauto.
  Qed.

  Lemma search_ready rx p v i : ready v i -> ready (set_res v (search (mem_of root) (fun e => match_ rx p (etext e) (Navigation.ekind e)) root)) i.
  Proof. intros (S & I & F & T). unfold ready, set_res. cbn. split; [exact S|]. split; [exact I|]. split; [apply search_found|exact T]. Qed.

  Lemma evalKey_led rx sc k p v i : roomy root sc -> ready v i -> aims v -> vdown v <> None ->
    exists o v', evalKey root rx sc k p v = Some (o, v') /\
      match o with Redraw => exists i, ready v' i | RedrawAll => False | Quit => v' = v | NextInput => v' = v \/ exists i, ready v' i /\ aims v' end.
  Proof.
    intros RO R A N.
    destruct (beqb k (str "/")) eqn:K1.
    - apply beqb_eq in K1. subst k. change (evalKey root rx sc (str "/") p v) with (initSearch root rx p sc v).
      unfold initSearch. destruct p as [p|]; [|eexists _, _; split; [reflexivity|]; exists i; exact R].
      destruct (isEmpty p).
      + eexists _, _. split; [reflexivity|]. exists i. destruct R as (S & I & F & T). unfold ready, set_res. cbn. repeat split; auto. intros x [].
      + destruct (next_calm sc _ i RO (search_ready rx p v i R)) as (o & v' & E & _ & Q). exists o, v'. split; [exact E|]. destruct o; auto; contradiction.
    - destruct (beqb k (str "N")) eqn:K2.
      + apply beqb_eq in K2. subst k. change (evalKey root rx sc (str "N") p v) with (nextResult root sc v).
        destruct (next_calm sc v i RO R) as (o & v' & E & _ & Q). exists o, v'. split; [exact E|]. destruct o; auto; contradiction.
      + destruct (evalKey_plain rx sc k p v i R A N K1 K2) as (o & v' & E & _ & Q). exists o, v'. split; [exact E|]. destruct o; auto.
  Qed.
End Inv.

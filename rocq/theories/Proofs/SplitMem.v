(** Two documents in one memory; counterparts of rows on display. *)
From Verif Require Export Proofs.DiffRows.
From Verif Require Import Proofs.RowProofs Proofs.ViewProofs.
From Verif Require Export Proofs.SplitKeep.
From Coq Require Import Lia.
Open Scope Z_scope.

(** * A document in a larger memory *)
Section Larger.
  Variable (root : node) (h : list elem).
  Hypothesis M : in_memory root.
  Hypothesis LK : forall i, In i (ids root) -> lookup h i = lookup (elems root) i.

  Lemma elem_id e : In e (elems root) -> In (eid e) (ids root).
  Proof. intros I. rewrite <- elems_eid. apply in_map, I. Qed.
  Lemma parent_id e p : In e (elems root) -> epar e = Some p -> In p (ids root).
  Proof.
    intros I E. destruct (elem_origin root e I) as [->|[(c & J & K)|(m & k & v & J & ->)]].
    - rewrite (root_parent root M) in E. discriminate.
    - rewrite (child_parent root M c e J K) in E. injection E as <-. exact (elem_id _ J).
    - rewrite (value_parent root M m k v J) in E. injection E as <-. exact (elem_id _ J).
  Qed.
  Lemma lookup_h e : In e (elems root) -> lookup h (eid e) = Some e.
  Proof. intros I. rewrite LK by (apply elem_id, I). apply lookup_in; assumption. Qed.
  Lemma is_entry_h i : In i (ids root) -> is_entry h i = is_entry (elems root) i.
  Proof. intros I. unfold is_entry. rewrite LK by exact I. reflexivity. Qed.
  Lemma parent_h e : In e (elems root) -> parent_is_entry h e = parent_is_entry (elems root) e.
  Proof. intros I. unfold parent_is_entry. destruct (epar e) eqn:E; [|reflexivity]. apply is_entry_h. eapply parent_id; eauto. Qed.
  Lemma findNext_h f : forall i, In i (ids root) -> findNext f h i = findNext f (elems root) i.
  Proof.
    induction f as [|f IH]; intros i I; [reflexivity|]. cbn [findNext]. rewrite LK by exact I. destruct (lookup (elems root) i) as [e|] eqn:E; [|reflexivity].
    cbn [obind]. apply lookup_some in E. destruct E as [E _]. destruct (epar e) as [p|] eqn:P; [|reflexivity].
    assert (IP := parent_id e p E P). rewrite LK by exact IP. destruct (lookup (elems root) p) as [[c|]|]; cbn [obind]; [|reflexivity..].
    destruct (is_container c); [|reflexivity]. destruct (after _ _); [reflexivity|]. apply IH, IP.
  Qed.
  Lemma findPrev_h i : In i (ids root) -> findPrev h i = findPrev (elems root) i.
  Proof.
    intros I. unfold findPrev. rewrite LK by exact I. destruct (lookup (elems root) i) as [e|] eqn:E; [|reflexivity].
    cbn [obind]. apply lookup_some in E. destruct E as [E _]. destruct (epar e) as [p|] eqn:P; [|reflexivity].
    rewrite LK by (eapply parent_id; eauto). reflexivity.
  Qed.
End Larger.

Lemma lookup_app l l' i : lookup (l ++ l') i = match lookup l i with Some e => Some e | None => lookup l' i end.
Proof. unfold lookup. induction l as [|e l IH]; [reflexivity|]. cbn [app find]. destruct (_ =? _); [reflexivity|exact IH]. Qed.
Lemma lookup_out n i : ~ In i (ids n) -> lookup (elems n) i = None.
Proof.
  intros N. destruct (lookup (elems n) i) as [e|] eqn:E; [|reflexivity]. apply lookup_some in E. destruct E as [I <-].
  exfalso. apply N. rewrite <- elems_eid. apply in_map, I.
Qed.

Section Two.
  Variable (a b : node).
  Hypothesis MA : in_memory a.
  Hypothesis MB : in_memory b.
  Hypothesis D : NoDup (ids a ++ ids b).
  Let h := elems a ++ elems b.

  Lemma lookup_a i : In i (ids a) -> lookup h i = lookup (elems a) i.
  Proof. intros I. unfold h. rewrite lookup_app. destruct (lookup_ids a MA i I) as (e & ->). reflexivity. Qed.
  Lemma lookup_b i : In i (ids b) -> lookup h i = lookup (elems b) i.
  Proof. intros I. unfold h. rewrite lookup_app, lookup_out; [reflexivity|]. intros J. exact (NoDup_app_not _ _ i D J I). Qed.
End Two.

(** * Outlines and parents *)
Lemma outline_linked n : forall d par i r, linked par n -> In (i, r) (outline d par n) -> exists e, In e (elems n) /\ eid e = i /\ epar e = snd r.
Proof.
  induction n as [n IH] using node_kids_ind. intros d par i r L I. rewrite outline_children in I. destruct I as [[= <- <-]|I].
  - exists (ENode n). split; [rewrite elems_children; left; reflexivity|]. split; [reflexivity|]. cbn [snd epar]. destruct L; assumption.
  - apply in_flat_map in I. destruct I as (x & J & I). rewrite elems_children.
    assert (LX : match x with ENode c => linked (Some (nid n)) c | EEntry m k v => mpar m = Some (nid n) /\ linked (Some (mid m)) v end).
    { destruct n as [m0 p|m0 l|m0 l]; cbn [children] in J; [destruct J| |]; apply in_map_iff in J; destruct J as (y & <- & J);
        inversion L as [|? ? ? P F|? ? ? P F]; subst; rewrite Forall_forall in F; specialize (F y J).
      - exact F.
      - exact F. }
    specialize (IH x J). destruct x as [c|m k v]; cbn [eoutline value_of] in *.
    + destruct (IH _ _ i r LX I) as (e & A & B & C). exists e. split; [|auto]. right. apply in_flat_map. exists (ENode c). auto.
    + destruct LX as [LM LV]. destruct I as [[= <- <-]|I].
      * exists (EEntry m k v). split; [|split; [reflexivity|exact LM]]. right. apply in_flat_map. exists (EEntry m k v). split; [exact J|]. left. reflexivity.
      * destruct (IH _ _ i r LV I) as (e & A & B & C). exists e. split; [|auto]. right. apply in_flat_map. exists (EEntry m k v). split; [exact J|]. right. exact A.
Qed.

Lemma vids_entry n m k v : In (EEntry m k v) (elems n) -> In (nid v) (vids n).
Proof.
  induction n as [n IH] using node_kids_ind. rewrite elems_children. intros [E|I]; [discriminate|]. apply in_flat_map in I. destruct I as (x & J & I).
  rewrite vids_children. apply in_flat_map. exists x. split; [exact J|]. specialize (IH x J). destruct x as [c|m' k' v']; cbn [eelems evids value_of] in *; [auto|].
  destruct I as [[= -> -> ->]|I]; [left; reflexivity|right; auto].
Qed.
Lemma entry_vids n i : In i (vids n) -> exists m k v, In (EEntry m k v) (elems n) /\ nid v = i.
Proof.
  induction n as [n IH] using node_kids_ind. rewrite vids_children. intros I. apply in_flat_map in I. destruct I as (x & J & I). rewrite elems_children.
  assert (Q : (exists m k v, In (EEntry m k v) (eelems x) /\ nid v = i)).
  { specialize (IH x J). destruct x as [c|m' k' v']; cbn [eelems evids value_of] in *; [exact (IH I)|].
    destruct I as [<-|I]; [exists m', k', v'; split; [left; reflexivity|reflexivity]|]. destruct (IH I) as (m & k & v & A & B). exists m, k, v. split; [right; exact A|exact B]. }
  destruct Q as (m & k & v & A & B). exists m, k, v. split; [|exact B]. right. apply in_flat_map. eauto.
Qed.

(** * Counterparts of rows on display are on display *)
Section Partner.
  Variable (a b : node) (R : Z -> Z -> Prop) (coll : list Z).
  Hypothesis MA : in_memory a.
  Hypothesis MB : in_memory b.
  Hypothesis HP : forall x y, R x y -> exists ea eb, In ea (elems a) /\ eid ea = x /\ In eb (elems b) /\ eid eb = y /\
    match epar ea, epar eb with None, None => True | Some pu, Some pv => R pu pv | _, _ => False end.
  Hypothesis HV : forall x y, R x y -> (In x (vids a) <-> In y (vids b)).
  Hypothesis HC : forall x y, R x y -> mem x coll = mem y coll.

  Lemma kid_place c e : In (ENode c) (elems b) -> In e (children c) -> mem (nid c) coll = false ->
    (exists k pre q post, place b coll k pre q post /\ value_of q = c) -> exists k pre post, place b coll k pre e post.
  Proof.
    intros I J C (k & pre & q & post & P & V). rewrite <- V in *. apply in_split in J. destruct J as (l1 & l2 & K).
    eexists _, _, _. apply (PL_child b coll k pre q post l1 e l2 P C K).
  Qed.

  Lemma partner_place k pre e post : place a coll k pre e post -> forall y, R (eid e) y ->
    exists k' pre' e' post', place b coll k' pre' e' post' /\ eid e' = y.
  Proof.
    induction 1 as [|k pre p post l1 e l2 P IH C K]; intros y RY.
    - destruct (HP _ _ RY) as (ea & eb & I1 & E1 & I2 & E2 & H).
      assert (ea = ENode a) by (apply (eid_inj a MA); [exact I1|apply root_in|exact E1]). subst ea.
      rewrite (root_parent a MA) in H. destruct (epar eb) as [pv|] eqn:EP; [destruct H|].
      destruct (elem_origin b eb I2) as [->|[(c & J & Q)|(m & kk & v & J & ->)]].
      + exists O, [], (ENode b), []. split; [apply PL_root|exact E2].
      + rewrite (child_parent b MB c eb J Q) in EP. discriminate.
      + rewrite (value_parent b MB m kk v J) in EP. discriminate.
    - assert (Ip := place_in a _ _ _ _ _ P). assert (Iv := value_in a p Ip).
      assert (J : In e (children (value_of p))) by (rewrite K; apply in_elt).
      assert (Ie := kid_in a _ e Iv J).
      destruct (HP _ _ RY) as (ea & eb & I1 & E1 & I2 & E2 & H).
      assert (ea = e) by (apply (eid_inj a MA); assumption). subst ea.
      rewrite (child_parent a MA _ e Iv J) in H. destruct (epar eb) as [pv|] eqn:EP; [|destruct H].
      (* eb is a child, not the value of an entry *)
      assert (NV : ~ In y (vids b)).
      { intros Q. apply HV with (x := eid e) in Q; [|exact RY]. apply entry_vids in Q. destruct Q as (m & kk & v & Q & E).
        assert (EV : ENode v = e) by (apply (eid_inj a MA); [apply (value_in a _ Q)|exact Ie|exact E]). subst e.
        rewrite <- (kid_row a MA _ _ Iv J), (value_not_row a MA _ _ _ Q) in *. 
        assert (Q' := value_not_row a MA _ _ _ Q). assert (Q'' := kid_row a MA _ _ Iv J). congruence. }
      destruct (elem_origin b eb I2) as [->|[(c & Jc & Q)|(m & kk & v & Jc & ->)]].
      + rewrite (root_parent b MB) in EP. discriminate.
      + rewrite (child_parent b MB c eb Jc Q) in EP. injection EP as <-.
        assert (CC : mem (nid c) coll = false) by (rewrite <- (HC _ _ H); exact C).
        assert (PC : exists k' pre' q post', place b coll k' pre' q post' /\ value_of q = c).
        { destruct p as [n|m kk n]; cbn [value_of eid] in *.
          - destruct (IH (nid c) H) as (k' & pre' & q & post' & PQ & EQ). exists k', pre', q, post'. split; [exact PQ|].
            assert (q = ENode c) by (apply (eid_inj b MB); [apply (place_in b _ _ _ _ _ PQ)|exact Jc|exact EQ]). subst q. reflexivity.
          - (* the parents are values of entries *)
            assert (VC : In (nid c) (vids b)) by (apply (HV _ _ H), (vids_entry a m kk n), Ip).
            apply entry_vids in VC. destruct VC as (m' & kk' & v' & Q' & EV).
            assert (EC : ENode v' = ENode c) by (apply (eid_inj b MB); [apply (value_in b _ Q')|exact Jc|exact EV]). injection EC as ->.
            destruct (HP _ _ H) as (fa & fb & F1 & G1 & F2 & G2 & HH).
            assert (fa = ENode n) by (apply (eid_inj a MA); assumption). assert (fb = ENode c) by (apply (eid_inj b MB); assumption). subst fa fb.
            rewrite (value_parent a MA m kk n Ip), (value_parent b MB m' kk' c Q') in HH.
            destruct (IH (mid m') HH) as (k' & pre' & q & post' & PQ & EQ). exists k', pre', q, post'. split; [exact PQ|].
            assert (q = EEntry m' kk' c) by (apply (eid_inj b MB); [apply (place_in b _ _ _ _ _ PQ)|exact Q'|exact EQ]). subst q. reflexivity. }
        destruct (kid_place c eb Jc Q CC PC) as (k' & pre' & post' & PE). exists k', pre', eb, post'. auto.
      + exfalso. apply NV. rewrite <- E2. cbn [eid]. eapply vids_entry, Jc.
  Qed.
  Lemma partner_row x y : In x (rows coll a) -> R x y -> In y (rows coll b).
  Proof.
    intros I RY. destruct (place_of a coll x I) as (k & pre & e & post & P & <-).
    destruct (partner_place _ _ _ _ P y RY) as (k' & pre' & e' & post' & P' & <-). rewrite (place_rows b coll _ _ _ _ P'). apply in_or_app. right. left. reflexivity.
  Qed.
End Partner.

(** * The pairing of a comparison *)
Section Compared.
  Variable (a b : node) (m : mat).
  Hypothesis MA : in_memory a.
  Hypothesis MB : in_memory b.
  Hypothesis FA : fits_memory a.
  Hypothesis FB : fits_memory b.
  Hypothesis D : NoDup (ids a ++ ids b).
  Hypothesis B : build a b = inl m.

  Lemma eqv_sym x y : getEquivalence m x = Some y -> getEquivalence m y = Some x.
  Proof. destruct (pairing_spec a b m FA FB D B) as (P & _ & _ & C & _). rewrite !C. tauto. Qed.

  Lemma eqv_sides x y : getEquivalence m x = Some y -> (In x (ids a) /\ In y (ids b)) \/ (In x (ids b) /\ In y (ids a)).
  Proof. intros E. destruct (pairs_rows a b m x y FA FB D B E) as [(P & Q & _)|(P & Q & _)]; auto. Qed.

  Lemma eqv_parents x y : getEquivalence m x = Some y -> In x (ids a) ->
    exists ea eb, In ea (elems a) /\ eid ea = x /\ In eb (elems b) /\ eid eb = y /\
    match epar ea, epar eb with None, None => True | Some pu, Some pv => getEquivalence m pu = Some pv | _, _ => False end.
  Proof.
    intros E I. destruct (pairing_spec a b m FA FB D B) as (P & S1 & S2 & C & F).
    apply C in E.
    assert (IN : forall u v, In (u, v) (idp P) -> In u (ids a) /\ In v (ids b)).
    { intros u v J. split.
      - rewrite <- (outline_ids a 1 None). eapply sublist_In; [apply sublist_map, S1|exact (idp_fst _ _ _ J)].
      - rewrite <- (outline_ids b 1 None). eapply sublist_In; [apply sublist_map, S2|exact (idp_snd _ _ _ J)]. }
    destruct E as [E|E]; [|exfalso; apply IN in E; apply (NoDup_app_not _ _ x D); tauto].
    unfold idp in E. apply in_map_iff in E. destruct E as ([ra rb] & [= <- <-] & J). rewrite Forall_forall in F. specialize (F _ J). cbn [fst snd] in *.
    assert (JA : In ra (outline 1 None a)) by (eapply sublist_In; [exact S1|apply (in_map fst _ _ J)]).
    assert (JB : In rb (outline 1 None b)) by (eapply sublist_In; [exact S2|apply (in_map snd _ _ J)]).
    destruct ra as [x ra], rb as [y rb]. destruct (outline_linked a _ _ _ _ (proj1 MA) JA) as (ea & A1 & A2 & A3).
    destruct (outline_linked b _ _ _ _ (proj1 MB) JB) as (eb & B1 & B2 & B3). exists ea, eb. rewrite A3, B3. cbn [fst snd] in *. repeat (split; [assumption|]).
    destruct F as [_ F]. destruct (snd ra), (snd rb); auto. apply C. left. exact F.
  Qed.
  Lemma eqv_values x y : getEquivalence m x = Some y -> In x (ids a) -> (In x (vids a) <-> In y (vids b)).
  Proof.
    intros E I. destruct (pairs_rows a b m x y FA FB D B E) as [(_ & _ & _ & C)|(P & Q & _)]; [exact C|].
    exfalso. exact (NoDup_app_not _ _ x D I Q).
  Qed.

  Variable coll : list Z.
  Hypothesis HC : forall x y, getEquivalence m x = Some y -> mem x coll = mem y coll.

  Lemma eqv_row x y : getEquivalence m x = Some y -> In x (rows coll a) -> In y (rows coll b).
  Proof.
    intros E I. apply (partner_row a b (fun x y => getEquivalence m x = Some y /\ In x (ids a)) coll MA MB) with (x := x); [| | |exact I|split; [exact E|apply (rows_ids a coll), I]].
    - intros u v [Q J]. destruct (eqv_parents u v Q J) as (ea & eb & A1 & A2 & A3 & A4 & A5). exists ea, eb. repeat (split; [assumption|]).
      destruct (epar ea) eqn:PA, (epar eb) eqn:PB; auto. split; [exact A5|]. eapply parent_id; eauto.
    - intros u v [Q J]. apply eqv_values; assumption.
    - intros u v [Q _]. apply HC, Q.
  Qed.
  Lemma eqv_row' x y : getEquivalence m x = Some y -> In x (rows coll b) -> In y (rows coll a).
  Proof.
    intros E I. apply (partner_row b a (fun x y => getEquivalence m x = Some y /\ In x (ids b)) coll MB MA) with (x := x); [| | |exact I|split; [exact E|apply (rows_ids b coll), I]].
    - intros u v [Q J]. apply eqv_sym in Q. destruct (eqv_sides v u Q) as [[V _]|[V U]]; [|exfalso; exact (NoDup_app_not _ _ u D U J)].
      destruct (eqv_parents v u Q V) as (ea & eb & A1 & A2 & A3 & A4 & A5). exists eb, ea. repeat (split; [assumption|]).
      destruct (epar ea) eqn:PA, (epar eb) eqn:PB; auto. split; [apply eqv_sym, A5|]. eapply parent_id; eauto.
    - intros u v [Q J]. apply eqv_sym in Q. destruct (eqv_sides v u Q) as [[V _]|[V U]]; [|exfalso; exact (NoDup_app_not _ _ u D U J)].
      symmetry. apply eqv_values; assumption.
    - intros u v [Q _]. apply HC, Q.
  Qed.
End Compared.
Lemma always_mirrored rx f len w hh a b m evs e : fits_memory a -> fits_memory b -> NoDup (ids a ++ ids b) -> build a b = inl m ->
  split_run rx f len w hh a b evs = Done e -> mirrored m (end_split e).
Proof.
  intros FA FB D B R. assert (M := run_mirrored rx f len w hh a b m evs (eqv_sym a b m FA FB D B) B). rewrite R in M. exact M.
Qed.

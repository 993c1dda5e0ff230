(** The comparison view without searches: every key leads from rows to rows. *)
From Verif Require Export Proofs.SplitTerm.
From Verif Require Import Proofs.RowProofs Proofs.ViewProofs Proofs.KeyProofs.
From Coq Require Import Lia ZifyBool.
Open Scope Z_scope.

(** * Rows when containers are collapsed or unfolded *)
Lemma inside_grow coll coll' : (forall j, mem j coll' = true -> mem j coll = true) -> forall n, incl (inside coll n) (inside coll' n).
Proof.
  intros A. induction n as [n IH] using node_kids_ind. intros i I. rewrite inside_children in *.
  destruct (mem (nid n) coll) eqn:C; [destruct I|]. destruct (mem (nid n) coll') eqn:C'; [apply A in C'; congruence|].
  unfold rowsL in *. apply in_flat_map in I. destruct I as (x & J & I). apply in_flat_map. exists x. split; [exact J|].
  unfold rows_elem in *. destruct I as [<-|I]; [left; reflexivity|right]. exact (IH x J i I).
Qed.
Lemma rows_grow root coll coll' : (forall j, mem j coll' = true -> mem j coll = true) -> incl (rows coll root) (rows coll' root).
Proof. intros A i [<-|I]; [left; reflexivity|right; apply (inside_grow coll coll' A root), I]. Qed.
Lemma rows_elsewhere root i coll coll' : (forall j, j <> i -> mem j coll' = mem j coll) -> ~ In i (ids root) -> rows coll' root = rows coll root.
Proof. intros A N. unfold rows. rewrite (inside_agree i coll coll' A root N). reflexivity. Qed.
Lemma row_stays root i coll coll' e : in_memory root -> (forall j, j <> i -> mem j coll' = mem j coll) -> In e (elems root) -> In i (eids e) ->
  In (eid e) (rows coll root) -> In (eid e) (rows coll' root).
Proof.
  intros M A I J R. destruct (place_of root coll _ R) as (k & pre & e' & post & P & E).
  assert (e' = e) by (apply (eid_inj root M); [apply (place_in root _ _ _ _ _ P)|exact I|exact E]). subst e'.
  rewrite (place_rows root _ _ _ _ _ (place_agree root M i coll coll' _ _ _ _ A P J)). apply in_or_app. right. left. reflexivity.
Qed.

(** * One step, seen from the active window's document [r] *)
Definition closed (m : mat) (coll : list Z) : Prop := forall x y, getEquivalence m x = Some y -> mem x coll = mem y coll.
Definition held (w : win) : Prop := forall x, wsel w = Some x -> wlast w = Some x.
Definition base (r r' : node) (m : mat) (coll : list Z) (w v : win) : Prop :=
  placed r coll w /\ placed r' coll v /\ 0 <= wscroll w /\ 0 <= wscroll v /\ held w /\ held v /\ closed m coll.
Definition led (r r' : node) (m : mat) (coll : list Z) (w v : win) : Prop :=
  base r r' m coll w v /\ (exists s, wsel w = Some s) /\ wsel v = equivalent m (wsel w).

Definition sel_own (w : win) (s : Z) : win := set_wsel w (Some s) (Some s).
Definition sel_other (m : mat) (v : win) (s : Z) : win :=
  set_wsel v (getEquivalence m s) (match getEquivalence m s with Some x => Some x | None => wlast v end).

Section Side.
  Variable (r r' : node) (h : list elem) (m : mat).
  Hypothesis M : in_memory r.
  Hypothesis M' : in_memory r'.
  Hypothesis LK : forall i, In i (ids r) -> lookup h i = lookup (elems r) i.
  Hypothesis LEN : (length (elems r) <= length h)%nat.
  Hypothesis DIS : forall i, In i (ids r) -> ~ In i (ids r').
  Hypothesis SYM : forall x y, getEquivalence m x = Some y -> getEquivalence m y = Some x.
  Hypothesis SIDE : forall x y, getEquivalence m x = Some y -> In x (ids r) -> In y (ids r').
  Hypothesis ROW : forall coll, closed m coll -> forall x y, getEquivalence m x = Some y -> In x (rows coll r) -> In y (rows coll r').
  Hypothesis VAL : forall e y, In e (elems r) -> getEquivalence m (nid (value_of e)) = Some y ->
    exists e', In e' (elems r') /\ getEquivalence m (eid e) = Some (eid e') /\ In y (eids e').

  Lemma placed_sel root coll w s : placed root coll w -> In s (rows coll root) -> placed root coll (sel_own w s).
  Proof.
    intros (E & _ & _) I. split; [exact E|]. split; [exists s; split; [reflexivity|exact I]|]. intros i Q. cbn in Q. congruence.
  Qed.

  Lemma led_sel coll w v s : base r r' m coll w v -> In s (rows coll r) -> led r r' m coll (sel_own w s) (sel_other m v s).
  Proof.
    intros (P & P' & S & S' & H & H' & C) I. split; [|split; [exists s; reflexivity|reflexivity]].
    split; [apply placed_sel; assumption|]. split.
    { unfold sel_other. destruct P' as (E & (l & L & IL) & Q). split; [exact E|]. cbn [set_wsel wlast wsel]. destruct (getEquivalence m s) as [y|] eqn:G.
      - assert (IY := ROW coll C s y G I). split; [exists y; split; [reflexivity|exact IY]|]. intros i K. cbn in K. congruence.
      - split; [exists l; split; [exact L|exact IL]|]. intros i K. discriminate K. }
    split; [exact S|]. split; [exact S'|]. split; [intros x Q; exact Q|]. split; [|exact C].
    intros x Q. unfold sel_other in *. cbn in *. rewrite Q. reflexivity.
  Qed.

  Lemma sel_elem coll w v : led r r' m coll w v -> exists e, In e (elems r) /\ wsel w = Some (eid e) /\ wlast w = Some (eid e) /\ In (eid e) (rows coll r) /\
    exists k pre post, place r coll k pre e post.
  Proof.
    intros ((P & _ & _ & _ & H & _) & (s & S) & _). destruct P as (_ & _ & Q). specialize (Q s S). destruct (place_of r coll s Q) as (k & pre & e & post & PL & <-).
    exists e. split; [apply (place_in r _ _ _ _ _ PL)|]. split; [exact S|]. split; [apply H, S|]. split; [exact Q|eauto].
  Qed.

  (** Pages. *)
  Lemma row_at_place coll k pre p post : place r coll k pre p post -> row_at h (nid (value_of p)) = Done (eid p).
  Proof.
    intros P. assert (IP := place_in r _ _ _ _ _ P). assert (IV := value_in r _ IP). unfold row_at.
    rewrite (lookup_h r h M LK _ IV : lookup h (nid (value_of p)) = _). cbn [lift SplitView.bind]. destruct p as [n|mm kk v]; cbn [value_of] in *.
    - assert (R := place_row r M _ _ _ _ _ P). rewrite <- (parent_h r h M LK _ IP) in R. unfold parent_is_entry in R. destruct (epar (ENode n)) as [q|]; [rewrite R|]; reflexivity.
    - rewrite (value_parent r M mm kk v IP). rewrite (is_entry_h r h LK (mid mm) (elem_id r _ IP)), (is_entry_entry r M mm kk v IP). reflexivity.
  Qed.
  Lemma place_row' coll k pre p post : place r coll k pre p post -> In (eid p) (rows coll r).
  Proof. intros P. rewrite (place_rows r _ _ _ _ _ P). apply in_or_app. right. left. reflexivity. Qed.

  (** What a key does: nothing, select a row, or change what is collapsed. *)
  Definition leads (coll : list Z) (w v : win) (p : SplitView.split) (x : inputResult * SplitView.split) : Prop :=
    (x = (NextInput, p)) \/ (exists s, In s (rows coll r) /\ x = (Redraw, setSelection m p (Some s))) \/
    (exists c, led r r' m c w v /\ x = (Redraw, mkSplit (pwins p) (pact p) c)).

  Section Step.
    Variable (w v : win) (p : SplitView.split).
    Let coll : list Z := pcoll p.
    Hypothesis L : led r r' m coll w v.
    Hypothesis AT : at_ p (pact p) = Done w.

    Lemma up_leads : ready_rows r coll w -> ok never (leads coll w v p) (split_up m p).
    Proof. intros (u & d & U & _ & IU & _). unfold split_up. rewrite AT. cbn [SplitView.bind ok]. rewrite U. right. left. exists u. auto. Qed.
    Lemma down_leads : ready_rows r coll w -> ok never (leads coll w v p) (split_down m p).
    Proof. intros (u & d & _ & U & _ & IU). unfold split_down. rewrite AT. cbn [SplitView.bind ok]. rewrite U. right. left. exists d. auto. Qed.

    Lemma pup_leads : ok never (leads coll w v p) (split_pup h m p).
    Proof.
      destruct (sel_elem coll w v L) as (e & I & S & _ & R & k & pre & post & P). unfold split_pup. rewrite AT. cbn [SplitView.bind]. rewrite S. cbn [lift SplitView.bind].
      rewrite (findPrev_h r h M LK _ (elem_id r _ I)). inversion P as [|k' pre' q post' l1 e' l2 Q C K]; subst.
      - rewrite (findPrev_root r M : findPrev (elems r) (eid (ENode r)) = _). cbn [lift SplitView.bind]. rewrite (lookup_h r h M LK _ I). cbn [lift SplitView.bind].
        rewrite (root_parent r M). left. reflexivity.
      - assert (IQ := place_in r _ _ _ _ _ Q). assert (IV := value_in r _ IQ). assert (J : In e (children (value_of q))) by (rewrite K; apply in_elt).
        rewrite (findPrev_child r M _ _ _ _ IV K). cbn [lift SplitView.bind]. destruct (rev (map eid l1)) as [|b l] eqn:RV; cbn [hd_error].
        + rewrite (lookup_h r h M LK _ I). cbn [lift SplitView.bind]. rewrite (child_parent r M _ _ IV J). unfold is_cont_at.
          rewrite (lookup_h r h M LK _ IV : lookup h (nid (value_of q)) = _). cbn [lift SplitView.bind]. rewrite (container_child _ _ J).
          rewrite (row_at_place _ _ _ _ _ Q). cbn [SplitView.bind ok]. right. left. exists (eid q). split; [apply (place_row' _ _ _ _ _ Q)|reflexivity].
        + right. left. exists b. split; [|reflexivity]. rewrite (place_rows r _ _ _ _ _ P). apply in_or_app. left. apply in_or_app. right.
          assert (B : In b (map eid l1)) by (apply in_rev; rewrite RV; left; reflexivity). apply in_map_iff in B. destruct B as (x & <- & B).
          right. unfold rowsL. apply in_flat_map. exists x. split; [exact B|left; reflexivity].
    Qed.
    Lemma pdown_leads : ok never (leads coll w v p) (split_pdown h m p).
    Proof.
      destruct (sel_elem coll w v L) as (e & I & S & _ & R & k & pre & post & P). unfold split_pdown. rewrite AT. cbn [SplitView.bind]. rewrite S. cbn [lift SplitView.bind].
      rewrite (findNext_h r h M LK _ _ (elem_id r _ I)).
      assert (DP : (k < far h)%nat). { assert (X := place_deep r _ _ _ _ _ P). unfold deep, mem_of in X. unfold far. lia. }
      destruct (findNext_place r M _ _ _ _ _ P _ DP) as (o & -> & OO). cbn [lift SplitView.bind].
      destruct OO as [->|(x & post' & -> & ->)]; [left; reflexivity|]. right. left. exists x. split; [|reflexivity].
      rewrite (place_rows r _ _ _ _ _ P). apply in_or_app. right. apply in_or_app. right. left. reflexivity.
    Qed.

    (** Unfolding. *)
    Lemma placed_grow root c c' z : (forall j, mem j c' = true -> mem j c = true) -> placed root c z -> placed root c' z.
    Proof.
      intros A (E & (l & Q & I) & S). split; [exact E|]. split; [exists l; split; [exact Q|apply (rows_grow root c c' A), I]|].
      intros i J. apply (rows_grow root c c' A), S, J.
    Qed.
    Lemma expand_leads : ready_rows r coll w -> ok never (leads coll w v p) (split_expand h m p).
    Proof.
      intros RR. destruct (sel_elem coll w v L) as (e & I & S & _ & R & _). unfold split_expand. rewrite AT. cbn [SplitView.bind]. rewrite S.
      rewrite (lookup_h r h M LK _ I). cbn [lift SplitView.bind]. cbv zeta. destruct (negb (is_container (value_of e))); [left; reflexivity|].
      destruct (mem (nid (value_of e)) (pcoll p)) eqn:C; [|destruct (children (value_of e)); [left; reflexivity|apply down_leads, RR]].
      right. right. eexists. split; [|reflexivity]. set (x := nid (value_of e)) in *. fold coll.
      assert (IN : forall j, mem j (erase_opt (equivalent m (Some x)) (Navigation.remove x coll)) = true <-> mem j coll = true /\ j <> x /\ getEquivalence m x <> Some j).
      { intros j. cbn [equivalent]. destruct (getEquivalence m x) as [y|]; cbn [erase_opt]; rewrite !mem_In, ?remove_In.
        - split; [intros [[A B] Q]|intros (A & B & Q)]; repeat split; try assumption; congruence.
        - split; [intros [A B]|intros (A & B & Q)]; repeat split; try assumption; congruence. }
      destruct L as ((P & P' & S0 & S0' & H & H' & CL) & SS & MI). split; [|split; assumption].
      split; [eapply placed_grow; [|exact P]; intros j J; apply IN in J; tauto|]. split; [eapply placed_grow; [|exact P']; intros j J; apply IN in J; tauto|].
      repeat (split; [assumption|]). intros u z G. assert (G' := SYM _ _ G). assert (E := CL _ _ G).
      apply Bool.eq_iff_eq_true. rewrite !IN, E. split; intros (A & B & Q); (split; [exact A|]); split; first [congruence|intros X; apply SYM in X; congruence].
    Qed.

    (** Collapsing. *)
    Lemma fold_led e : In e (elems r) -> wsel w = Some (eid e) -> wlast w = Some (eid e) -> In (eid e) (rows coll r) ->
      led r r' m (insert_opt (equivalent m (Some (nid (value_of e)))) (insert (nid (value_of e)) coll)) w v.
    Proof.
      intros I S SL R. set (x := nid (value_of e)). set (c := insert_opt _ _).
      assert (IN : forall j, mem j c = true <-> mem j coll = true \/ j = x \/ getEquivalence m x = Some j).
      { intros j. unfold c. cbn [equivalent]. destruct (getEquivalence m x) as [y|]; cbn [insert_opt]; rewrite !mem_In, ?insert_In; intuition congruence. }
      assert (A1 : forall j, j <> x -> mem j (insert x coll) = mem j coll) by (intros; apply mem_insert; assumption).
      assert (IX : In x (ids r)) by (apply (elem_id r (ENode (value_of e))), value_in, I).
      assert (XE : In x (eids e)) by apply own_id.
      destruct L as ((P & P' & S0 & S0' & H & H' & CL) & SS & MI).
      assert (ROWS : In (eid e) (rows c r) /\ exists l, wlast v = Some l /\ In l (rows c r')).
      { destruct P' as (E' & (l & Q & IL) & SV).
        assert (R1 : In (eid e) (rows (insert x coll) r)) by (apply (row_stays r x coll _ e M A1 I XE R)).
        assert (R2 : rows (insert x coll) r' = rows coll r') by (apply (rows_elsewhere r' x _ _ A1), DIS, IX).
        unfold c. cbn [equivalent]. destruct (getEquivalence m x) as [y|] eqn:G; cbn [insert_opt].
        - assert (A2 : forall j, j <> y -> mem j (insert y (insert x coll)) = mem j (insert x coll)) by (intros; apply mem_insert; assumption).
          assert (IY : In y (ids r')) by (apply (SIDE x y G IX)).
          split. { rewrite (rows_elsewhere r y _ _ A2); [exact R1|]. intros J. exact (DIS y J IY). }
          destruct (VAL e y I G) as (e' & I' & GE & YE). rewrite S in MI. cbn [equivalent] in MI. rewrite GE in MI.
          exists (eid e'). split; [apply H', MI|]. apply (row_stays r' y _ _ e' M' A2 I' YE). rewrite R2. apply SV, MI.
        - split; [exact R1|]. exists l. split; [exact Q|]. rewrite R2. exact IL. }
      destruct ROWS as (R1 & l & Q & IL). split; [|split; assumption]. split.
      { destruct P as (E & _ & _). split; [exact E|]. split; [exists (eid e); auto|]. intros i J. congruence. }
      split. { destruct P' as (E & _ & _). split; [exact E|]. split; [exists l; auto|]. intros i J. apply H' in J. congruence. }
      repeat (split; [assumption|]). intros u z G. assert (G' := SYM _ _ G). assert (E := CL _ _ G).
      apply Bool.eq_iff_eq_true. rewrite !IN, E. split; (intros [A|[A|A]]; [left; exact A| |]); right; [right|left|right|left]; try (apply SYM in A); congruence.
    Qed.
    Lemma collapse_leads : ok never (leads coll w v p) (split_collapse h m p).
    Proof.
      destruct (sel_elem coll w v L) as (e & I & S & SL & R & k & pre & post & P). unfold split_collapse. rewrite AT. cbn [SplitView.bind]. rewrite S.
      cbn [lift SplitView.bind]. rewrite (lookup_h r h M LK _ I). cbn [lift SplitView.bind]. cbv zeta.
      match goal with |- context [if ?b && ?c then _ else _] => destruct b eqn:B; [destruct c|]; cbn [andb] end.
      - inversion P as [|k' pre' q post' l1 e' l2 Q C K]; subst.
        + assert (X := root_parent r M). cbn [epar value_of] in *. rewrite X in B. discriminate B.
        + assert (IV := value_in r _ (place_in r _ _ _ _ _ Q)). assert (J : In e (children (value_of q))) by (rewrite K; apply in_elt).
          rewrite (child_parent r M _ _ IV J). cbn [lift SplitView.bind]. rewrite (row_at_place _ _ _ _ _ Q). cbn [SplitView.bind ok].
          right. left. exists (eid q). split; [apply (place_row' _ _ _ _ _ Q)|reflexivity].
      - right. right. eexists. split; [apply (fold_led e); assumption|reflexivity].
      - right. right. eexists. split; [apply (fold_led e); assumption|reflexivity].
    Qed.
  End Step.
End Side.

Lemma self_eids e : In (eid e) (eids e).
Proof. destruct e as [n|m k v]; [rewrite eids_node, ids_children|rewrite eids_entry]; left; reflexivity. Qed.

(** * Sequences of events *)
Section Run.
  Variable (a b : node) (m : mat).
  Hypothesis MA : in_memory a.
  Hypothesis MB : in_memory b.
  Hypothesis FA : fits_memory a.
  Hypothesis FB : fits_memory b.
  Hypothesis D : NoDup (ids a ++ ids b).
  Hypothesis B : build a b = inl m.
  Let h := split_memory a b.
  Let SYM := eqv_sym a b m FA FB D B.

  Lemma not_b i : In i (ids a) -> ~ In i (ids b).
  Proof. intros I J. exact (NoDup_app_not _ _ i D I J). Qed.
  Lemma not_a i : In i (ids b) -> ~ In i (ids a).
  Proof. intros I J. exact (NoDup_app_not _ _ i D J I). Qed.
  Lemma side_a x y : getEquivalence m x = Some y -> In x (ids a) -> In y (ids b).
  Proof. intros G I. destruct (eqv_sides a b m FA FB D B x y G) as [[_ J]|[J _]]; [exact J|destruct (not_b x I J)]. Qed.
  Lemma side_b x y : getEquivalence m x = Some y -> In x (ids b) -> In y (ids a).
  Proof. intros G I. destruct (eqv_sides a b m FA FB D B x y G) as [[J _]|[_ J]]; [destruct (not_a x I J)|exact J]. Qed.

  Lemma elem_at n i : in_memory n -> In i (ids n) -> exists e, In e (elems n) /\ eid e = i.
  Proof. intros M I. destruct (lookup_ids n M i I) as (e & L). apply lookup_some in L. eauto. Qed.

  Lemma entries x y m1 k1 v1 m2 k2 v2 : getEquivalence m x = Some y -> In (EEntry m1 k1 v1) (elems a) -> nid v1 = x -> In (EEntry m2 k2 v2) (elems b) -> nid v2 = y ->
    getEquivalence m (mid m1) = Some (mid m2).
  Proof.
    intros G I1 E1 I2 E2. assert (IV1 := value_in a _ I1). assert (IV2 := value_in b _ I2). cbn [value_of] in *.
    assert (IX : In x (ids a)) by (rewrite <- E1; apply (elem_id a _ IV1)).
    destruct (eqv_parents a b m MA MB FA FB D B x y G IX) as (ea & eb & A1 & A2 & A3 & A4 & A5).
    assert (ea = ENode v1) by (apply (eid_inj a MA); [exact A1|exact IV1|cbn; congruence]). assert (eb = ENode v2) by (apply (eid_inj b MB); [exact A3|exact IV2|cbn; congruence]). subst ea eb.
    rewrite (value_parent a MA _ _ _ I1), (value_parent b MB _ _ _ I2) in A5. exact A5.
  Qed.
  Lemma val_a e y : In e (elems a) -> getEquivalence m (nid (value_of e)) = Some y ->
    exists e', In e' (elems b) /\ getEquivalence m (eid e) = Some (eid e') /\ In y (eids e').
  Proof.
    intros I G. assert (IV := value_in a _ I). assert (IX : In (nid (value_of e)) (ids a)) by apply (elem_id a _ IV). assert (IY := side_a _ _ G IX).
    destruct e as [n|m1 k1 v1]; cbn [value_of eid] in *.
    - destruct (elem_at b y MB IY) as (e' & I' & <-). exists e'. split; [exact I'|]. split; [exact G|apply self_eids].
    - assert (V := proj1 (eqv_values a b m FA FB D B _ _ G IX) (vids_entry a _ _ _ I)). destruct (entry_vids b _ V) as (m2 & k2 & v2 & I2 & E2).
      exists (EEntry m2 k2 v2). split; [exact I2|]. split; [apply (entries _ _ _ _ _ _ _ _ G I eq_refl I2 E2)|]. rewrite eids_entry. right. rewrite ids_children, <- E2. left. reflexivity.
  Qed.
  Lemma val_b e y : In e (elems b) -> getEquivalence m (nid (value_of e)) = Some y ->
    exists e', In e' (elems a) /\ getEquivalence m (eid e) = Some (eid e') /\ In y (eids e').
  Proof.
    intros I G. assert (IV := value_in b _ I). assert (IX : In (nid (value_of e)) (ids b)) by apply (elem_id b _ IV). assert (IY := side_b _ _ G IX).
    destruct e as [n|m1 k1 v1]; cbn [value_of eid] in *.
    - destruct (elem_at a y MA IY) as (e' & I' & <-). exists e'. split; [exact I'|]. split; [exact G|apply self_eids].
    - apply SYM in G. assert (V := proj2 (eqv_values a b m FA FB D B _ _ G IY) (vids_entry b _ _ _ I)). destruct (entry_vids a _ V) as (m2 & k2 & v2 & I2 & E2).
      exists (EEntry m2 k2 v2). split; [exact I2|]. split; [apply SYM, (entries _ _ _ _ _ _ _ _ G I2 E2 I eq_refl)|]. rewrite eids_entry. right. rewrite ids_children, <- E2. left. reflexivity.
  Qed.

  (** The invariant. *)
  Definition J (p : SplitView.split) : Prop :=
    exists w0 w1, pwins p = [w0; w1] /\
      ((pact p = 0 /\ led a b m (pcoll p) w0 w1) \/ (pact p = 1 /\ led b a m (pcoll p) w1 w0)).
  Definition aims2 (p : SplitView.split) : Prop :=
    exists w0 w1, pwins p = [w0; w1] /\ ready_rows a (pcoll p) w0 /\ ready_rows b (pcoll p) w1.

  Lemma base_sym r r' c w v : base r r' m c w v -> base r' r m c v w.
  Proof. unfold base. tauto. Qed.

  Lemma J_base p w0 w1 : J p -> pwins p = [w0; w1] -> base a b m (pcoll p) w0 w1.
  Proof. intros (v0 & v1 & E & H) E'. rewrite E in E'. injection E' as -> ->. destruct H as [[_ H]|[_ H]]; [exact (proj1 H)|apply base_sym, (proj1 H)]. Qed.

  Lemma select_J p w0 w1 s : pwins p = [w0; w1] -> base a b m (pcoll p) w0 w1 ->
    (pact p = 0 /\ In s (rows (pcoll p) a)) \/ (pact p = 1 /\ In s (rows (pcoll p) b)) -> J (setSelection m p (Some s)).
  Proof.
    intros E H I. destruct p as [ws act c]. cbn [pwins pact pcoll] in *. subst ws. destruct I as [[-> I]|[-> I]]; unfold setSelection; cbn [pwins pact pcoll]; cbn -[set_wsel getEquivalence].
    - eexists _, _. split; [reflexivity|]. left. split; [reflexivity|].
      exact (led_sel a b m (fun c HC => eqv_row a b m MA MB FA FB D B c HC) c w0 w1 s H I).
    - eexists _, _. split; [reflexivity|]. right. split; [reflexivity|].
      exact (led_sel b a m (fun c HC => eqv_row' a b m MA MB FA FB D B c HC) c w1 w0 s (base_sym _ _ _ _ _ H) I).
  Qed.

  Definition kept_or_led (p : SplitView.split) (x : inputResult * SplitView.split) : Prop :=
    match fst x with Redraw | RedrawAll => J (snd x) | NextInput | Quit => snd x = p end.

  Lemma leads_a p w0 w1 x : pwins p = [w0; w1] -> pact p = 0 -> led a b m (pcoll p) w0 w1 -> leads a b m (pcoll p) w0 w1 p x -> kept_or_led p x.
  Proof.
    intros E A L [->|[(s & I & ->)|(c & L' & ->)]]; unfold kept_or_led; cbn [fst snd]; [reflexivity| |].
    - apply (select_J p w0 w1 s E (proj1 L)). left. auto.
    - exists w0, w1. cbn [pwins pact pcoll]. auto.
  Qed.
  Lemma leads_b p w0 w1 x : pwins p = [w0; w1] -> pact p = 1 -> led b a m (pcoll p) w1 w0 -> leads b a m (pcoll p) w1 w0 p x -> kept_or_led p x.
  Proof.
    intros E A L [->|[(s & I & ->)|(c & L' & ->)]]; unfold kept_or_led; cbn [fst snd]; [reflexivity| |].
    - apply (select_J p w0 w1 s E (base_sym _ _ _ _ _ (proj1 L))). right. auto.
    - exists w0, w1. cbn [pwins pact pcoll]. auto.
  Qed.

  Lemma change_J d c p : J p -> d = 1 \/ d = -1 /\ c = false -> ok never (kept_or_led p) (changeWindow m d c p).
  Proof.
    intros JP DC. unfold changeWindow. destruct (_ && negb c) eqn:G; [reflexivity|].
    destruct JP as (w0 & w1 & E & H). assert (BS : base a b m (pcoll p) w0 w1) by (apply (J_base p); [exists w0, w1; auto|exact E]).
    rewrite E in *. cbn [length] in *. change (Z.of_nat 2) with 2 in *. cbn [Z.eqb]. cbv zeta.
    assert (A : exists act, Z.rem (pact p + d) 2 mod 2 ^ 16 = act /\ act = 1 - pact p /\ (act = 0 \/ act = 1)).
    { destruct H as [[P _]|[P _]]; rewrite P in *; destruct DC as [->|[-> ->]]; try discriminate G; eexists; (split; [reflexivity|]); split; try reflexivity; auto. }
    destruct A as (act & -> & AC & AB). unfold at_. cbn [pact pwins].
    assert (EQ : forall x y, x = equivalent m y -> x <> None -> y = equivalent m x).
    { intros x y -> N. destruct y as [y|]; [|destruct (N eq_refl)]. cbn in *. destruct (getEquivalence m y) eqn:F; [|destruct (N eq_refl)]. cbn. symmetry. apply SYM, F. }
    destruct AB as [-> | ->].
    - change (0 <? 0) with false. cbn [Z.to_nat nth_error SplitView.bind ok]. unfold kept_or_led. cbn [fst snd]. destruct (wsel w0) eqn:W.
      + exists w0, w1. split; [reflexivity|]. left. split; [reflexivity|]. cbn [pcoll]. split; [exact BS|]. split; [eauto|].
        destruct H as [[? _]|[_ H]]; [lia|]. apply EQ; [exact (proj2 (proj2 H))|congruence].
      + destruct BS as (P0 & P1 & BS). destruct P0 as (R0 & (l & LL & IL) & S0). rewrite LL. apply (select_J _ w0 w1 l); [reflexivity| |left; auto].
        cbn [pcoll]. split; [split; [exact R0|split; [eauto|exact S0]]|]. split; [exact P1|exact BS].
    - change (1 <? 0) with false. change (Z.to_nat 1) with 1%nat. cbn [nth_error SplitView.bind ok]. unfold kept_or_led. cbn [fst snd]. destruct (wsel w1) eqn:W.
      + exists w0, w1. split; [reflexivity|]. right. split; [reflexivity|]. cbn [pcoll]. split; [apply base_sym, BS|]. split; [eauto|].
        destruct H as [[_ H]|[? _]]; [|lia]. apply EQ; [exact (proj2 (proj2 H))|congruence].
      + destruct BS as (P0 & P1 & BS). destruct P1 as (R0 & (l & LL & IL) & S0). rewrite LL. apply (select_J _ w0 w1 l); [reflexivity| |right; auto].
        cbn [pcoll]. split; [exact P0|]. split; [split; [exact R0|split; [eauto|exact S0]]|exact BS].
  Qed.

  Lemma lk_a i : In i (ids a) -> lookup h i = lookup (elems a) i.
  Proof. apply lookup_a, MA. Qed.
  Lemma lk_b i : In i (ids b) -> lookup h i = lookup (elems b) i.
  Proof. apply lookup_b; assumption. Qed.
  Lemma len_a : (length (elems a) <= length h)%nat.
  Proof. unfold h, split_memory. rewrite app_length. lia. Qed.
  Lemma len_b : (length (elems b) <= length h)%nat.
  Proof. unfold h, split_memory. rewrite app_length. lia. Qed.

  Lemma key_J rx sc k q p : J p -> aims2 p -> k <> str "/" -> k <> str "N" -> ok never (kept_or_led p) (split_key h m rx sc k q p).
  Proof.
    intros JP (v0 & v1 & E & A0 & A1) K1 K2. assert (N1 : beqb k (str "/") = false). { destruct (beqb k (str "/")) eqn:Q; [|reflexivity]. apply beqb_eq in Q. contradiction. }
    assert (N2 : beqb k (str "N") = false). { destruct (beqb k (str "N")) eqn:Q; [|reflexivity]. apply beqb_eq in Q. contradiction. }
    assert (JP' := JP). destruct JP as (w0 & w1 & E' & H). rewrite E in E'. injection E' as <- <-. unfold split_key. rewrite N1, N2. clear N1 N2.
    destruct (beqb k (str "Q")); [reflexivity|].
    destruct H as [[P H]|[P H]].
    - assert (AT : at_ p (pact p) = Done v0) by (unfold at_; rewrite P, E; reflexivity).
      destruct (_ || _); [eapply ok_mono; [apply (up_leads a b m v0 v1 p AT A0)|intros x; apply (leads_a p v0 v1 x E P H)]|].
      destruct (_ || _); [eapply ok_mono; [apply (down_leads a b m v0 v1 p AT A0)|intros x; apply (leads_a p v0 v1 x E P H)]|].
      destruct (beqb k _); [eapply ok_mono; [apply (pup_leads a b h m MA lk_a v0 v1 p H AT)|intros x; apply (leads_a p v0 v1 x E P H)]|].
      destruct (beqb k _); [eapply ok_mono; [apply (pdown_leads a b h m MA lk_a len_a v0 v1 p H AT)|intros x; apply (leads_a p v0 v1 x E P H)]|].
      destruct (_ || _); [eapply ok_mono; [apply (expand_leads a b h m MA lk_a SYM v0 v1 p H AT A0)|intros x; apply (leads_a p v0 v1 x E P H)]|].
      destruct (_ || _); [eapply ok_mono; [apply (collapse_leads a b h m MA MB lk_a not_b SYM side_a val_a v0 v1 p H AT)|intros x; apply (leads_a p v0 v1 x E P H)]|].
      destruct (beqb k _); [apply change_J; auto|].
      destruct (_ || _); [apply change_J; auto|].
      destruct (_ || _); [apply change_J; auto|]. reflexivity.
    - assert (AT : at_ p (pact p) = Done v1) by (unfold at_; rewrite P, E; reflexivity).
      destruct (_ || _); [eapply ok_mono; [apply (up_leads b a m v1 v0 p AT A1)|intros x; apply (leads_b p v0 v1 x E P H)]|].
      destruct (_ || _); [eapply ok_mono; [apply (down_leads b a m v1 v0 p AT A1)|intros x; apply (leads_b p v0 v1 x E P H)]|].
      destruct (beqb k _); [eapply ok_mono; [apply (pup_leads b a h m MB lk_b v1 v0 p H AT)|intros x; apply (leads_b p v0 v1 x E P H)]|].
      destruct (beqb k _); [eapply ok_mono; [apply (pdown_leads b a h m MB lk_b len_b v1 v0 p H AT)|intros x; apply (leads_b p v0 v1 x E P H)]|].
      destruct (_ || _); [eapply ok_mono; [apply (expand_leads b a h m MB lk_b SYM v1 v0 p H AT A1)|intros x; apply (leads_b p v0 v1 x E P H)]|].
      destruct (_ || _); [eapply ok_mono; [apply (collapse_leads b a h m MB MA lk_b not_a SYM side_b val_b v1 v0 p H AT)|intros x; apply (leads_b p v0 v1 x E P H)]|].
      destruct (beqb k _); [apply change_J; auto|].
      destruct (_ || _); [apply change_J; auto|].
      destruct (_ || _); [apply change_J; auto|]. reflexivity.
  Qed.

  (** Redrawing. *)
  Variable (len : elem -> Z) (f : nat).
  Hypothesis SL : forall e, 0 <= len e.
  Hypothesis BK : most_lines len a b < 2 ^ 32.
  Hypothesis FU : 4 * (most_lines len a b + 2) < Z.of_nat f.
  Definition good_screen (sc : screen) : Prop := 5 <= sw sc < 2 ^ 32 /\ 2 <= sh sc < 2 ^ 32 /\ slen sc = len.

  Lemma redraws_J sc p : good_screen sc -> J p -> ok never (fun p' => J p' /\ aims2 p') (redraws h m f sc p).
  Proof.
    intros (SW & SH & EL) JP. assert (JP' := JP). destruct JP as (w0 & w1 & E & H).
    assert (BS := J_base p w0 w1 JP' E). destruct BS as (P0 & P1 & S0 & S1 & H0 & H1 & CL).
    assert (SL' : forall e, 0 <= slen sc e) by (rewrite EL; exact SL).
    assert (BK' : lines_of (slen sc) (4 * Z.of_nat (Nat.max (nesting a) (nesting b)) + 16) (elems a ++ elems b) < 2 ^ 32) by (rewrite EL; exact BK).
    assert (FU' : 4 * (lines_of (slen sc) (4 * Z.of_nat (Nat.max (nesting a) (nesting b)) + 16) (elems a ++ elems b) + 2) < Z.of_nat f) by (rewrite EL; exact FU).
    eapply ok_mono; [apply (redraws_ok a b h sc (pcoll p) m (Nat.max (nesting a) (nesting b)) eq_refl MA MB D (Nat.le_max_l _ _) (Nat.le_max_r _ _) SW SH SL' BK' f w0 w1 p E eq_refl (conj P0 P1) S0 S1 FU')|].
    intros p' (v0 & v1 & E' & C0 & C1 & R0 & R1 & T0 & T1 & EA & EC). assert (Q0 := placed_core a (pcoll p) v0 w0 C0 P0). assert (Q1 := placed_core b (pcoll p) v1 w1 C1 P1).
    split; [|exists v0, v1; rewrite EC; auto]. exists v0, v1. split; [exact E'|]. rewrite EA, EC.
    assert (X0 : wsel v0 = wsel w0 /\ wlast v0 = wlast w0) by (unfold core in C0; split; congruence).
    assert (X1 : wsel v1 = wsel w1 /\ wlast v1 = wlast w1) by (unfold core in C1; split; congruence).
    assert (B' : base a b m (pcoll p) v0 v1).
    { split; [exact Q0|]. split; [exact Q1|]. split; [auto|]. split; [auto|]. unfold held. destruct X0 as [-> ->], X1 as [-> ->]. auto. }
    destruct X0 as [X0 _], X1 as [X1 _]. destruct H as [[P (_ & S & MI)]|[P (_ & S & MI)]]; [left|right]; (split; [exact P|]); (split; [first [exact B'|apply base_sym, B']|]); rewrite X0, X1; auto.
  Qed.

  Definition proper (e : ending) : Prop := J (end_split e) /\ aims2 (end_split e).
  Lemma wait_J rx evs : forall sc p stop, good_screen sc -> unsearched evs -> rooms evs -> J p -> aims2 p -> ok never proper (split_wait h m rx f sc p stop evs).
  Proof.
    induction evs as [|[k q|w hh|] t IH]; intros sc p stop G U R JP A; [split; assumption| | |].
    - assert (U' : unsearched t) by (intros k' q' I; apply (U k' q'); right; exact I). assert (R' : rooms t) by (intros w' hh' I; apply R; right; exact I).
      cbn [split_wait]. destruct (U k q (or_introl eq_refl)) as [U1 U2]. eapply ok_bind; [apply key_J; assumption|]. intros [r p'] K. unfold kept_or_led in K. cbn [fst snd] in K.
      destruct r; try (subst p'; first [split; assumption|destruct stop; [split; assumption|apply IH; assumption]]);
        (eapply ok_bind; [apply redraws_J; eassumption|]; intros p2 [J2 A2]; destruct stop; [split; assumption|apply IH; assumption]).
    - assert (U' : unsearched t) by (intros k' q' I; apply (U k' q'); right; exact I). assert (R' : rooms t) by (intros w' hh' I; apply R; right; exact I).
      cbn [split_wait]. cbv zeta. destruct (R w hh (or_introl eq_refl)) as [RW RH].
      assert (G' : good_screen (split_screen w hh p sc)).
      { destruct JP as (w0 & w1 & E & _). destruct G as (_ & _ & G). unfold good_screen, split_screen. rewrite E. cbn [length sw sh slen]. change (Z.of_nat 2) with 2.
        unfold usub. replace ((hh - 2) mod _) with (hh - 2) by (symmetry; apply Z.mod_small; lia). split; [|split; [lia|exact G]].
        split; [apply Z.div_le_lower_bound; lia|]. apply Z.div_lt_upper_bound; lia. }
      eapply ok_bind; [apply redraws_J; eassumption|]. intros p2 [J2 A2]. apply IH; assumption.
    - cbn [split_wait]. apply IH; try assumption; [intros k' q' I; apply (U k' q'); right; exact I|intros w' hh' I; apply R; right; exact I].
  Qed.
  Lemma run_J rx w hh evs : room w hh -> unsearched evs -> rooms evs -> ok never proper (split_run rx f len w hh a b evs).
  Proof.
    intros [RW RH] U R. unfold split_run. rewrite B. cbv zeta. fold h.
    assert (G : good_screen (split_screen w hh (setSelection m (mkSplit [new_win a; new_win b] 0 []) (Some (nid a))) (mkScreen 0 0 len))).
    { unfold good_screen, split_screen, setSelection. cbn [pwins length sw sh slen]. change (Z.of_nat 2) with 2.
      unfold usub. replace ((hh - 2) mod _) with (hh - 2) by (symmetry; apply Z.mod_small; lia). split; [|split; [lia|reflexivity]].
      split; [apply Z.div_le_lower_bound; lia|]. apply Z.div_lt_upper_bound; lia. }
    assert (J0 : J (setSelection m (mkSplit [new_win a; new_win b] 0 []) (Some (nid a)))).
    { apply (select_J _ (new_win a) (new_win b)); [reflexivity| |left; split; [reflexivity|left; reflexivity]]. cbn [pcoll].
      assert (PL : forall r, placed r [] (new_win r)). { intros r. split; [reflexivity|]. split; [exists (nid r); split; [reflexivity|left; reflexivity]|]. intros i Q. discriminate Q. }
      split; [apply PL|]. split; [apply PL|]. cbn. split; [lia|]. split; [lia|]. split; [intros x Q; discriminate Q|]. split; [intros x Q; discriminate Q|]. intros x y _. reflexivity. }
    eapply ok_bind; [apply redraws_J; eassumption|]. intros p [JP A]. apply wait_J; assumption.
  Qed.
End Run.

Lemma J_row a b m p : J a b m p -> active_on_row p.
Proof.
  intros (w0 & w1 & E & H). unfold active_on_row, active. rewrite E. destruct H as [[-> H]|[-> H]]; destruct H as (((R & _ & S) & _) & (s & SS) & _).
  - exists w0, s. split; [reflexivity|]. split; [exact SS|]. rewrite R. apply S, SS.
  - exists w1, s. split; [reflexivity|]. split; [exact SS|]. rewrite R. apply S, SS.
Qed.
Lemma J_folds a b m p : J a b m p -> folds_agree m p.
Proof.
  intros (w0 & w1 & E & H) x y G. assert (C : closed m (pcoll p)) by (destruct H as [[_ H]|[_ H]]; destruct H as ((_ & _ & _ & _ & _ & _ & C) & _); exact C).
  rewrite <- !mem_In, (C x y G). reflexivity.
Qed.

Lemma run_ok rx f len w hh a b m evs :
  in_memory a -> in_memory b -> fits_memory a -> fits_memory b -> NoDup (ids a ++ ids b) -> build a b = inl m ->
  (forall e, 0 <= len e) -> most_lines len a b < 2 ^ 32 -> 4 * (most_lines len a b + 2) < Z.of_nat f ->
  room w hh -> rooms evs -> unsearched evs ->
  exists e, split_run rx f len w hh a b evs = Done e /\ active_on_row (end_split e) /\ folds_agree m (end_split e).
Proof.
  intros MA MB FA FB D B SL BK FU R RS U. assert (X := run_J a b m MA MB FA FB D B len f SL BK FU rx w hh evs R U RS).
  destruct (split_run rx f len w hh a b evs) as [e|]; [|destruct X]. exists e. split; [reflexivity|]. destruct X as [X _]. split; [apply (J_row a b m), X|apply (J_folds a b m), X].
Qed.
Lemma run_ends rx f len w hh a b m evs :
  in_memory a -> in_memory b -> fits_memory a -> fits_memory b -> NoDup (ids a ++ ids b) -> build a b = inl m ->
  (forall e, 0 <= len e) -> most_lines len a b < 2 ^ 32 -> 4 * (most_lines len a b + 2) < Z.of_nat f ->
  room w hh -> rooms evs -> unsearched evs ->
  exists e, split_run rx f len w hh a b evs = Done e /\ active_on_row (end_split e).
Proof. intros. destruct (run_ok rx f len w hh a b m evs) as (e & E & X & _); eauto. Qed.
Lemma run_folds rx f len w hh a b m evs :
  in_memory a -> in_memory b -> fits_memory a -> fits_memory b -> NoDup (ids a ++ ids b) -> build a b = inl m ->
  (forall e, 0 <= len e) -> most_lines len a b < 2 ^ 32 -> 4 * (most_lines len a b + 2) < Z.of_nat f ->
  room w hh -> rooms evs -> unsearched evs ->
  exists e, split_run rx f len w hh a b evs = Done e /\ folds_agree m (end_split e).
Proof. intros. destruct (run_ok rx f len w hh a b m evs) as (e & E & _ & X); eauto. Qed.

Lemma row_home a b m p : J a b m p -> forall w i, In w (pwins p) -> wsel w = Some i -> In i (ids (wroot w)).
Proof.
  intros (w0 & w1 & E & H) w i I S. rewrite E in I.
  assert (Q : exists r c, placed r c w). { destruct H as [[_ ((P & P' & _) & _)]|[_ ((P & P' & _) & _)]]; destruct I as [<-|[<-|[]]]; eauto. }
  destruct Q as (r & c & R & _ & Q). rewrite R. apply (rows_ids r c), Q, S.
Qed.
Lemma run_home rx f len w hh a b m evs :
  in_memory a -> in_memory b -> fits_memory a -> fits_memory b -> NoDup (ids a ++ ids b) -> build a b = inl m ->
  (forall e, 0 <= len e) -> most_lines len a b < 2 ^ 32 -> 4 * (most_lines len a b + 2) < Z.of_nat f ->
  room w hh -> rooms evs -> unsearched evs ->
  exists e, split_run rx f len w hh a b evs = Done e /\ map wroot (pwins (end_split e)) = [a; b] /\
    forall v i, In v (pwins (end_split e)) -> wsel v = Some i -> In i (ids (wroot v)).
Proof.
  intros MA MB FA FB D B SL BK FU R RS U. assert (X := run_J a b m MA MB FA FB D B len f SL BK FU rx w hh evs R U RS).
  destruct (split_run rx f len w hh a b evs) as [e|]; [|destruct X]. exists e. split; [reflexivity|]. destruct X as [X _]. split; [|apply (row_home a b m), X].
  destruct X as (w0 & w1 & -> & H). cbn [map]. destruct H as [[_ ((P & P' & _) & _)]|[_ ((P & P' & _) & _)]]; destruct P as [-> _], P' as [-> _]; reflexivity.
Qed.

Lemma redraw_ends a b dm sc f p w0 w1 :
  in_memory a -> in_memory b -> NoDup (ids a ++ ids b) ->
  5 <= sw sc < 2 ^ 32 -> 2 <= sh sc < 2 ^ 32 ->
  (forall e, 0 <= slen sc e) -> most_lines (slen sc) a b < 2 ^ 32 -> 4 * (most_lines (slen sc) a b + 2) < Z.of_nat f ->
  pwins p = [w0; w1] -> at_rows a (pcoll p) w0 -> at_rows b (pcoll p) w1 ->
  exists p' v0 v1, redraws (split_memory a b) dm f sc p = Done p' /\ pwins p' = [v0; v1] /\
    aimed a (pcoll p) v0 /\ aimed b (pcoll p) v1.
Proof.
  intros MA MB D SW SH SL BK FU E (R0 & L0 & S0 & T0) (R1 & L1 & S1 & T1).
  assert (X := redraws_ok a b (split_memory a b) sc (pcoll p) dm (Nat.max (nesting a) (nesting b)) eq_refl MA MB D (Nat.le_max_l _ _) (Nat.le_max_r _ _) SW SH SL BK f w0 w1 p E eq_refl
    (conj (conj R0 (conj L0 S0)) (conj R1 (conj L1 S1))) T0 T1 FU).
  destruct (redraws _ _ _ _ _) as [p'|]; [|destruct X]. destruct X as (v0 & v1 & E' & _ & _ & A0 & A1 & _). exists p', v0, v1. auto.
Qed.

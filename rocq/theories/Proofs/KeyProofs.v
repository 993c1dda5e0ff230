(** Collapsing, unfolding, searching. *)
From Verif Require Export Proofs.LoopProofs.
From Coq Require Import Lia ZifyBool.
Open Scope Z_scope.

Section Keys.
  Variable root : node.
  Hypothesis M : in_memory root.
  Notation h := (elems root).

  Lemma value_eids e i : In i (ids (value_of e)) -> In i (eids e).
  Proof. destruct e; [rewrite eids_node|rewrite eids_entry]; cbn [value_of]; [auto|right; assumption]. Qed.

  (** * Changing the fold of one container *)
  Lemma inside_agree i coll coll' : (forall j, j <> i -> mem j coll' = mem j coll) ->
    forall n, ~ In i (ids n) -> inside coll' n = inside coll n.
  Proof.
    intros A. induction n as [n IH] using node_kids_ind. intros N. rewrite ids_children in N. rewrite !inside_children.
    rewrite (A (nid n)) by (intros Q; apply N; left; congruence). destruct (mem (nid n) coll); [reflexivity|].
    unfold rowsL. assert (Q : forall l, (forall x, In x l -> In x (children n)) -> flat_map (rows_elem coll') l = flat_map (rows_elem coll) l).
    { induction l as [|x l IHl]; intros S; [reflexivity|]. cbn [flat_map]. rewrite IHl by (intros; apply S; right; assumption). f_equal.
      unfold rows_elem. f_equal. apply (IH _ (S x (or_introl eq_refl))). intros J. apply N. right. apply in_flat_map. exists x.
      split; [apply S; left; reflexivity|]. apply value_eids, J. }
    apply Q. auto.
  Qed.
  Lemma rowsL_agree i coll coll' l : (forall j, j <> i -> mem j coll' = mem j coll) -> ~ In i (flat_map eids l) -> rowsL coll' l = rowsL coll l.
  Proof.
    intros A. unfold rowsL. induction l as [|x l IHl]; intros N; [reflexivity|]. cbn [flat_map] in *. rewrite IHl by (intros J; apply N, in_or_app; auto). f_equal.
    unfold rows_elem. f_equal. apply (inside_agree i _ _ A). intros J. apply N, in_or_app. left. apply value_eids, J.
  Qed.

  Lemma place_agree i coll coll' k pre e post : (forall j, j <> i -> mem j coll' = mem j coll) ->
    place root coll k pre e post -> In i (eids e) -> place root coll' k pre e post.
  Proof.
    intros A. induction 1 as [|k pre p post l1 e l2 P IH C K]; intros I; [constructor|].
    assert (NI := NoDup_ids_sub root (value_of p) (proj2 M) (value_in root _ (place_in root _ _ _ _ _ P))).
    rewrite ids_children, K, flat_map_app in NI. cbn [flat_map] in NI. inversion_clear NI as [|? ? N1 N2].
    assert (IV : In i (ids (value_of p))). { rewrite ids_children, K. right. apply in_flat_map. exists e. split; [apply in_elt|exact I]. }
    specialize (IH (value_eids _ _ IV)).
    assert (X1 : ~ In i (flat_map eids l1)).
    { intros J. apply in_split in J. destruct J as (a & b & J). rewrite J, <- app_assoc in N2. cbn [app] in N2. apply NoDup_remove_2 in N2. apply N2.
      apply in_or_app. right. apply in_or_app. right. apply in_or_app. left. exact I. }
    assert (X2 : ~ In i (flat_map eids l2)).
    { intros J. apply in_split in I. destruct I as (a & b & I). rewrite I in N2. rewrite <- app_assoc, app_assoc in N2. cbn [app] in N2. apply NoDup_remove_2 in N2. apply N2.
      apply in_or_app. right. apply in_or_app. right. exact J. }
    assert (X3 : nid (value_of p) <> i).
    { intros <-. apply N1. apply in_or_app. right. apply in_or_app. left. exact I. }
    rewrite <- (rowsL_agree i coll coll' l1 A X1), <- (rowsL_agree i coll coll' l2 A X2). constructor; [exact IH|rewrite A by exact X3; exact C|exact K].
  Qed.

  Lemma mem_insert i j coll : j <> i -> mem j (insert i coll) = mem j coll.
  Proof.
    intros N. destruct (mem j coll) eqn:E; [apply mem_In in E; apply mem_In, insert_In; auto|]. apply mem_not in E. apply mem_not. rewrite insert_In. intros [Q|Q]; contradiction.
  Qed.
  Lemma mem_remove i j coll : j <> i -> mem j (Navigation.remove i coll) = mem j coll.
  Proof.
    intros N. destruct (mem j coll) eqn:E; [apply mem_In in E; apply mem_In, remove_In; auto|]. apply mem_not in E. apply mem_not. rewrite remove_In. intros [Q _]; contradiction.
  Qed.

  Lemma own_id e : In (nid (value_of e)) (eids e).
  Proof. apply value_eids. rewrite ids_children. left. reflexivity. Qed.

  (** * Unfolding *)
  Lemma eelems_child p e : In e (children (value_of p)) -> (length (eelems e) + (match p with ENode _ => 1 | EEntry _ _ _ => 2 end) <= length (eelems p))%nat.
  Proof.
    intros I. assert (Q : (length (eelems e) < length (elems (value_of p)))%nat).
    { rewrite elems_children. cbn [length]. apply in_split in I. destruct I as (a & b & ->). rewrite flat_map_app. cbn [flat_map]. rewrite !app_length. lia. }
    destruct p; cbn [eelems value_of length] in *; lia.
  Qed.

  Lemma unfold_place coll0 k pre e post : place root coll0 k pre e post -> forall f coll, (length h < f + length (eelems e))%nat ->
    exists c', unfold f h coll (eid e) = Some c' /\ incl c' coll /\
      forall c2, incl c2 c' -> exists pre' post', place root c2 k pre' e post'.
  Proof.
    induction 1 as [|k pre p post l1 e l2 P IH C K]; intros f coll F.
    - cbn [eelems] in F. destruct f as [|f]; [lia|]. cbn [unfold]. rewrite (lookup_in root M _ (root_in root)). cbn [obind]. rewrite (root_parent root M).
      exists coll. split; [reflexivity|]. split; [apply incl_refl|]. intros c2 _. exists [], []. constructor.
    - assert (J : In e (children (value_of p))) by (rewrite K; apply in_elt). assert (IP := place_in root _ _ _ _ _ P). assert (IV := value_in root _ IP).
      assert (SZ := eelems_child p e J). assert (SZ2 := place_size root _ _ _ _ _ P).
      destruct f as [|f]; [destruct p; lia|]. cbn [unfold]. rewrite (lookup_in root M _ (kid_in root _ _ IV J)). cbn [obind]. rewrite (child_parent root M _ _ IV J).
      assert (Q : exists c', unfold f h (Navigation.remove (nid (value_of p)) coll) (nid (value_of p)) = Some c' /\ incl c' (Navigation.remove (nid (value_of p)) coll) /\
        forall c2, incl c2 c' -> exists pre' post', place root c2 k pre' p post').
      { destruct p as [n|m kk v]; cbn [value_of] in *.
        - apply (IH f). lia.
        - destruct f as [|f]; [lia|]. cbn [unfold]. rewrite (lookup_in root M _ IV : lookup h (nid v) = _). cbn [obind]. rewrite (value_parent root M m kk v IP).
          destruct (IH f (Navigation.remove (mid m) (Navigation.remove (nid v) coll)) ltac:(lia)) as (c' & U & S & W). exists c'. split; [exact U|]. split; [|exact W].
          intros x Hx. apply S in Hx. apply remove_In in Hx. tauto. }
      destruct Q as (c' & U & S & W). exists c'. split; [exact U|]. split; [intros x Hx; apply S in Hx; apply remove_In in Hx; tauto|].
      intros c2 S2. destruct (W c2 S2) as (pre' & post' & P'). eexists _, _. econstructor; [exact P'| |exact K].
      apply mem_not. intros Hx. apply S2, S in Hx. apply remove_In in Hx. tauto.
  Qed.

  Lemma unfold_visible coll r : In r (rows [] root) -> exists c', unfold (deep root) h coll r = Some c' /\ incl c' coll /\ In r (rows c' root).
  Proof.
    intros I. destruct (place_of root [] r I) as (k & pre & e & post & P & <-).
    assert (IN := place_in root _ _ _ _ _ P).
    destruct (unfold_place _ _ _ _ _ P (deep root) coll) as (c' & U & S & W).
    - unfold deep, mem_of. assert (eelems e <> []) by (destruct e; cbn [eelems]; [rewrite elems_children|]; discriminate). destruct (eelems e); [contradiction|cbn [length]; lia].
    - exists c'. split; [exact U|]. split; [exact S|]. destruct (W c' (incl_refl _)) as (pre' & post' & P'). rewrite (place_rows root _ _ _ _ _ P').
      apply in_or_app. right. left. reflexivity.
  Qed.

  (** Whatever is folded, what is visible is a row of the unfolded document. *)
  Lemma inside_incl coll n : incl (inside coll n) (inside [] n).
  Proof.
    induction n as [n IH] using node_kids_ind. rewrite !inside_children. cbn [mem existsb]. destruct (mem (nid n) coll); [intros x []|].
    intros i I. unfold rowsL in *. apply in_flat_map in I. destruct I as (x & J & I). apply in_flat_map. exists x. split; [exact J|].
    unfold rows_elem in *. destruct I as [<-|I]; [left; reflexivity|right]. exact (IH x J i I).
  Qed.
  Lemma rows_incl coll : incl (rows coll root) (rows [] root).
  Proof. intros i [<-|I]; [left; reflexivity|right; apply (inside_incl coll _ _ I)]. Qed.

  (** * Searching *)
  Definition item_elem (x : Z * item) (e : elem) : Prop :=
    match snd x with Scalar p => e = ENode (NPrim (node_meta (value_of e)) p) | Key k => exists m v, e = EEntry m k v end.

  Lemma search_items (mt : elem -> bool) (mi : item -> bool) :
    (forall m p, mt (ENode (NPrim m p)) = mi (Scalar p)) -> (forall m k v, mt (EEntry m k v) = mi (Key k)) ->
    search h mt root = map fst (filter (fun x => mi (snd x)) (items (nid root) root)).
  Proof.
    intros A1 A2.
    assert (Q : forall n, forall k pre p post, place root [] k pre p post -> value_of p = n ->
      search h mt n = map fst (filter (fun x => mi (snd x)) (items (eid p) n))).
    { induction n as [n IH] using node_kids_ind. intros k pre p post P E.
      assert (IP := place_in root _ _ _ _ _ P).
      assert (CH : forall x, In x (children n) -> exists k pre post, place root [] k pre x post).
      { intros x J. apply in_split in J. destruct J as (l1 & l2 & C). eexists _, _, _. eapply (PL_child root [] k pre p post); [exact P|reflexivity|rewrite E; exact C]. }
      destruct n as [m q|m l|m l]; cbn [search items].
      - cbn [filter snd]. unfold hits. rewrite A1. destruct (mi (Scalar q)); [|reflexivity]. cbn [map fst].
        destruct p as [n|m' kk v]; cbn [value_of] in E; subst.
        + assert (R := place_row root M _ _ _ _ _ P). unfold parent_is_entry in R. destruct (epar (ENode (NPrim m q))) as [pp|]; [rewrite R|]; reflexivity.
        + rewrite (value_parent root M _ _ _ IP), (is_entry_entry root M _ _ _ IP). reflexivity.
      - assert (X : forall l', (forall x, In x l' -> In x l) -> flat_map (search h mt) l' = map fst (filter (fun x => mi (snd x)) (flat_map (fun x => items (nid x) x) l'))).
        { induction l' as [|x l' IHl]; intros S; [reflexivity|]. cbn [flat_map]. rewrite filter_app, map_app, IHl by (intros; apply S; right; assumption). f_equal.
          assert (J : In (ENode x) (children (NArr m l))) by (apply in_map, S; left; reflexivity).
          destruct (CH _ J) as (k' & pre' & post' & P'). exact (IH _ J _ _ _ _ P' eq_refl). }
        apply X. auto.
      - assert (X : forall l', (forall x, In x l' -> In x l) -> flat_map (fun x => hits h mt (EEntry (fst (fst x)) (snd (fst x)) (snd x)) ++ search h mt (snd x)) l' =
          map fst (filter (fun x => mi (snd x)) (flat_map (fun x => (mid (fst (fst x)), Key (snd (fst x))) :: items (mid (fst (fst x))) (snd x)) l'))).
        { induction l' as [|x l' IHl]; intros S; [reflexivity|]. cbn [flat_map]. rewrite filter_app, map_app, IHl by (intros; apply S; right; assumption). f_equal.
          assert (J : In (EEntry (fst (fst x)) (snd (fst x)) (snd x)) (children (NObj m l))).
          { cbn [children]. apply in_map_iff. exists x. split; [reflexivity|apply S; left; reflexivity]. }
          destruct (CH _ J) as (k' & pre' & post' & P'). assert (R0 := IH _ J _ _ _ _ P' eq_refl). cbn [value_of eid] in R0. rewrite R0.
          cbn [filter snd]. unfold hits. rewrite A2. assert (R := place_row root M _ _ _ _ _ P'). unfold parent_is_entry in R.
          destruct (mi (Key (snd (fst x)))); [|reflexivity]. cbn [map fst app].
          destruct (epar _) as [pp|]; [rewrite R|]; reflexivity. }
        apply X. auto. }
    exact (Q root _ _ _ _ (PL_root root []) eq_refl).
  Qed.

  (** Results are rows, in document order. *)
  Lemma items_rows n : forall r i, In i (map fst (items r n)) -> In i (r :: inside [] n).
  Proof.
    induction n as [n IH] using node_kids_ind. intros r i I.
    assert (X : forall e, In e (children n) -> In i (rows_elem [] e) -> In i (r :: inside [] n)).
    { intros e J K. right. rewrite inside_children. cbn [mem existsb]. unfold rowsL. apply in_flat_map. eauto. }
    apply in_map_iff in I. destruct I as (x & <- & I). destruct n as [m p|m l|m l]; cbn [items] in I.
    - destruct I as [<-|[]]. left. reflexivity.
    - apply in_flat_map in I. destruct I as (y & J & I). assert (J' : In (ENode y) (children (NArr m l))) by (apply in_map, J).
      apply (X _ J'). unfold rows_elem. cbn [eid value_of]. apply (IH _ J' (nid y)). apply in_map, I.
    - apply in_flat_map in I. destruct I as (y & J & I).
      assert (J' : In (EEntry (fst (fst y)) (snd (fst y)) (snd y)) (children (NObj m l))) by (cbn [children]; apply in_map_iff; exists y; auto).
      apply (X _ J'). unfold rows_elem. cbn [eid value_of]. destruct I as [<-|I]; [left; reflexivity|].
      apply (IH _ J' (mid (fst (fst y)))). apply in_map, I.
  Qed.

  (** * Jumping *)
  Fixpoint visits (n : node) : list (Z * bool) :=
    match n with
    | NPrim m _ => [(mid m, true)]
    | NArr m l => (mid m, false) :: flat_map visits l
    | NObj m l => (mid m, false) :: flat_map (fun x => (mid (fst (fst x)), true) :: visits (snd x)) l
    end.
  Fixpoint hop (res : list Z) (sel : option Z) (l : list (Z * bool)) (found : bool) : bool * option Z :=
    match l with
    | [] => (found, None)
    | (i, t) :: l => let f := sel_is sel i || found in if t && mem i res && negb (sel_is sel i) && f then (f, Some i) else hop res sel l f
    end.
  Lemma hop_app res sel a : forall b f, hop res sel (a ++ b) f = match hop res sel a f with (f, Some r) => (f, Some r) | (f, None) => hop res sel b f end.
  Proof. induction a as [|[i t] a IH]; intros b f; [reflexivity|]. cbn [app hop]. destruct (t && _ && _ && _); [reflexivity|apply IH]. Qed.
  Lemma jump_hop res sel n : forall f, jump res sel n f = hop res sel (visits n) f.
  Proof.
    induction n as [n IH] using node_kids_ind. intros f. destruct n as [m p|m l|m l]; cbn [jump visits hop andb].
    - unfold jump_here. cbn [andb]. destruct (mem (mid m) res && _ && _); reflexivity.
    - assert (X : forall l', (forall x, In x l' -> In x l) -> forall f,
        (fix go (l : list node) (found : bool) : bool * option Z :=
           match l with [] => (found, None) | x :: t => match jump res sel x found with (found, Some r) => (found, Some r) | (found, None) => go t found end end) l' f
        = hop res sel (flat_map visits l') f).
      { induction l' as [|x l' IHl]; intros S f0; [reflexivity|]. cbn [flat_map]. rewrite hop_app, <- (IH (ENode x) (in_map ENode _ _ (S x (or_introl eq_refl)))).
        cbn [value_of]. destruct (jump res sel x f0) as [f1 [r|]]; [reflexivity|]. apply IHl. intros; apply S; right; assumption. }
      apply X. auto.
    - assert (X : forall l', (forall x, In x l' -> In x l) -> forall f,
        (fix go (l : list (meta * bytes * node)) (found : bool) : bool * option Z :=
           match l with
           | [] => (found, None)
           | x :: t =>
               match jump_here res sel (mid (fst (fst x))) found with
               | (found, Some r) => (found, Some r)
               | (found, None) => match jump res sel (snd x) found with (found, Some r) => (found, Some r) | (found, None) => go t found end
               end
           end) l' f
        = hop res sel (flat_map (fun x => (mid (fst (fst x)), true) :: visits (snd x)) l') f).
      { induction l' as [|x l' IHl]; intros S f0; [reflexivity|]. cbn [flat_map app hop]. unfold jump_here. cbn [andb].
        destruct (mem _ res && _ && _); [reflexivity|]. rewrite hop_app.
        assert (J : In (EEntry (fst (fst x)) (snd (fst x)) (snd x)) (children (NObj m l))).
        { cbn [children]. apply in_map_iff. exists x. split; [reflexivity|apply S; left; reflexivity]. }
        assert (R0 := IH _ J). cbn [value_of] in R0. rewrite <- R0. destruct (jump res sel (snd x) _) as [f1 [r|]]; [reflexivity|]. apply IHl. intros; apply S; right; assumption. }
      apply X. auto.
  Qed.
  Lemma visits_ids n : map fst (visits n) = ids n.
  Proof.
    induction n as [n IH] using node_kids_ind. rewrite ids_children. destruct n as [m p|m l|m l]; cbn [visits map fst children flat_map nid node_meta]; [reflexivity| |]; f_equal.
    - assert (X : forall l', (forall x, In x l' -> In x l) -> map fst (flat_map visits l') = flat_map eids (map ENode l')).
      { induction l' as [|x l' IHl]; intros S; [reflexivity|]. cbn [flat_map map]. rewrite map_app, IHl by (intros; apply S; right; assumption). f_equal.
        rewrite eids_node. exact (IH (ENode x) (in_map ENode _ _ (S x (or_introl eq_refl)))). }
      apply X. auto.
    - match goal with |- _ = flat_map eids (map ?g l) => assert (X : forall l', (forall x, In x l' -> In x l) -> map fst (flat_map (fun x => (mid (fst (fst x)), true) :: visits (snd x)) l') = flat_map eids (map g l')) end.
      { induction l' as [|x l' IHl]; intros S; [reflexivity|]. cbn [flat_map map app fst]. rewrite map_app, IHl by (intros; apply S; right; assumption).
        assert (J : In (EEntry (fst (fst x)) (snd (fst x)) (snd x)) (children (NObj m l))).
        { cbn [children]. apply in_map_iff. exists x. split; [reflexivity|apply S; left; reflexivity]. }
        rewrite eids_entry. cbn [app]. f_equal. f_equal. exact (IH _ J). }
      apply X. auto.
  Qed.
  (** Rows that can be results are tested. *)
  Lemma items_tested n : forall r i, In i (map fst (items r n)) -> (is_container n = false /\ i = r) \/ In (i, true) (visits n).
  Proof.
    induction n as [n IH] using node_kids_ind. intros r i I. apply in_map_iff in I. destruct I as (x & <- & I). destruct n as [m p|m l|m l]; cbn [items visits] in *.
    - destruct I as [<-|[]]. left. split; reflexivity.
    - right. right. apply in_flat_map in I. destruct I as (y & J & I). apply in_flat_map. exists y. split; [exact J|].
      assert (J' : In (ENode y) (children (NArr m l))) by (apply in_map, J).
      destruct (IH _ J' (nid y) (fst x) (in_map fst _ _ I)) as [[E1 E]|T]; [|exact T]. cbn [value_of] in *.
      destruct y; [left; rewrite E; reflexivity|discriminate|discriminate].
    - right. right. apply in_flat_map in I. destruct I as (y & J & I). apply in_flat_map. exists y. split; [exact J|].
      assert (J' : In (EEntry (fst (fst y)) (snd (fst y)) (snd y)) (children (NObj m l))) by (cbn [children]; apply in_map_iff; exists y; auto).
      destruct I as [<-|I]; [left; reflexivity|].
      destruct (IH _ J' (mid (fst (fst y))) (fst x) (in_map fst _ _ I)) as [[E1 E]|T]; [left; rewrite E; reflexivity|right; exact T].
  Qed.
End Keys.

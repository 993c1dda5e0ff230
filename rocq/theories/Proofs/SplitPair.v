(** Counterparts of the same kind are drawn beside each other. *)
From Verif Require Import Proofs.DiffRows Proofs.DiffSelf.
From Verif Require Import Proofs.RowProofs Proofs.ViewProofs.
From Verif Require Import Spec.SplitLay.
From Verif Require Import Proofs.SplitShow.
From Coq Require Import Lia ZifyBool.
Open Scope Z_scope.

(** * An empty container is never the counterpart of the value of an entry that is not *)
Lemma empty_apart a b m : is_container a = true -> is_container b = true -> fits_memory a -> fits_memory b -> NoDup (ids a ++ ids b) -> build a b = inl m ->
  children a = [] \/ children b = [] -> meqv m = [].
Proof.
  intros CA CB FA FB N H E. destruct (container_shape a b m CA CB FA FB N H) as [(_ & ->)|(D & _)]; [reflexivity|exfalso]. apply D. clear D.
  destruct (build_subs a b m CA CB H) as (subs & (L1 & L2 & HR) & HC). rewrite (container_result a b subs m HC).
  assert (SA := fits_size a FA). assert (SB := fits_size b FB).
  set (n := length (children a)) in *. set (k := length (children b)) in *.
  unfold container_mat in HC. fold n k in HC. destruct (Z.max (Z.of_nat n) (Z.of_nat k) =? 0) eqn:E0; [discriminate|].
  assert (SM := small_fits _ subs n k L1 eq_refl ltac:(lia)).
  change (fst (cell_at (dp_table (width (Z.of_nat n) (Z.of_nat k)) k subs) n k)) with (cv (width (Z.of_nat n) (Z.of_nat k)) subs k n k).
  assert (C : cv (width (Z.of_nat n) (Z.of_nat k)) subs k n k = Z.max (Z.of_nat n) (Z.of_nat k)).
  { destruct E as [E|E].
    - assert (Z0 : n = 0%nat) by (unfold n; rewrite E; reflexivity). clearbody n. rewrite Z0 in *. rewrite (cv_row0 _ subs 0 k L1 k) by lia. rewrite SM; lia.
    - assert (Z0 : k = 0%nat) by (unfold k; rewrite E; reflexivity). clearbody k. rewrite Z0 in *. rewrite (cv_col0 _ subs n 0 L1 L2) by lia. rewrite SM; lia. }
  rewrite C. apply Z.div_same. lia.
Qed.

Lemma root_empty a b m : fits_memory a -> fits_memory b -> NoDup (ids a ++ ids b) -> build a b = inl m -> meqv m <> [] -> is_empty a = is_empty b.
Proof.
  intros FA FB N H NE.
  assert (X : is_container a = true -> is_container b = true -> is_empty a = is_empty b).
  { intros CA CB. assert (E := empty_apart a b m CA CB FA FB N H).
    destruct a as [| ma [|xa la]|ma [|xa la]]; try discriminate; destruct b as [|mb [|xb lb]|mb [|xb lb]]; try discriminate; cbn [is_empty children map] in *; try reflexivity; exfalso; apply NE, E; auto. }
  destruct (is_container a) eqn:CA.
  2:{ destruct a as [ma pa| |]; try discriminate. cbn [build] in H. destruct b as [mb pb|mb lb|mb lb]; [reflexivity| |]; injection H as <-; destruct (NE eq_refl). }
  destruct (is_container b) eqn:CB; [auto|].
  destruct b as [mb pb| |]; try discriminate. destruct a; [discriminate| |]; cbn [build is_container] in H; injection H as <-; destruct (NE eq_refl).
Qed.

Definition evalues (x : elem) : list node := match x with ENode n => entry_values n | EEntry _ _ v => v :: entry_values v end.
Lemma values_children n : entry_values n = flat_map evalues (children n).
Proof. destruct n as [m p|m l|m l]; cbn [entry_values children]; [reflexivity| |]; rewrite flat_map_map; apply flat_map_ext_F; intros x _; reflexivity. Qed.
Lemma evalues_vids x n : In n (evalues x) -> In (nid n) (evids x).
Proof. destruct x as [c|m k v]; cbn [evalues evids]; [apply in_map|]. intros [<-|I]; [left; reflexivity|right; apply in_map, I]. Qed.
Lemma values_child a x n : NoDup (ids a) -> In x (children a) -> In n (entry_values a) -> In (nid n) (eids x) -> In n (evalues x).
Proof.
  intros N I V E. rewrite values_children in V. apply in_flat_map in V. destruct V as (z & J & V).
  rewrite ids_children in N. inversion_clear N as [|? ? _ N']. rewrite (NoDup_flat_in eids (children a) x z (nid n) N' I J E); [exact V|]. apply evids_in, evalues_vids, V.
Qed.

Lemma build_empty : forall a b m, fits_memory a -> fits_memory b -> NoDup (ids a ++ ids b) -> build a b = inl m ->
  forall n n', In n (entry_values a) -> In n' (entry_values b) -> In (nid n, nid n') (meqv m) \/ In (nid n', nid n) (meqv m) -> is_empty n = is_empty n'.
Proof.
  induction a as [a IH] using node_children_ind. intros b m FA FB N H n n' V V' I.
  assert (Na := NoDup_app_l _ _ N). assert (Nb := NoDup_app_r _ _ N).
  assert (VA : In (nid n) (vids a)) by (apply in_map, V). assert (VB : In (nid n') (vids b)) by (apply in_map, V').
  assert (IA : In (nid n) (ids a)) by (apply vids_tl in VA; destruct (ids a); [destruct VA|right; exact VA]).
  assert (IB : In (nid n') (ids b)) by (apply vids_tl in VB; destruct (ids b); [destruct VB|right; exact VB]).
  assert (D : forall z, In z (ids a) -> In z (ids b) -> False) by (intros z; apply NoDup_app_not, N).
  assert (HA : In (nid a) (ids a)) by (rewrite ids_children; left; reflexivity). assert (HB : In (nid b) (ids b)) by (rewrite ids_children; left; reflexivity).
  destruct (is_container a) eqn:CA; [|destruct a; [destruct V| |]; discriminate]. destruct (is_container b) eqn:CB; [|destruct b; [destruct V'| |]; discriminate].
  destruct (container_shape a b m CA CB FA FB N H) as [(_ & EM)|(_ & st & ops & eqs & RT & _ & _ & _ & K)]; [rewrite EM in I; destruct I as [[]|[]]|].
  assert (C : collected st (nid n) (nid n') \/ collected st (nid n') (nid n)).
  { destruct I as [I|I]; apply K in I; destruct I as [[E1 E2]|[[E1 E2]|I]]; auto; exfalso.
    - apply (D (nid n) IA). rewrite E1. exact HB.
    - apply (nid_vids a Na). rewrite <- E1. exact VA.
    - apply (nid_vids b Nb). rewrite <- E1. exact VB.
    - apply (D (nid a) HA). rewrite <- E1. exact IB. }
  assert (X : exists x y o s, In (StM x y o s) st /\ (In (nid n, nid n') ((eid x, eid y) :: meqv s) \/ In (nid n', nid n) ((eid x, eid y) :: meqv s))).
  { destruct C as [(x & y & o & s & J & C)|(x & y & o & s & J & C)]; exists x, y, o, s; (split; [exact J|]); [left|right]; (destruct C as [[-> ->]|C]; [left; reflexivity|right; exact C]). }
  clear C I. destruct X as (x & y & o & s & J & I).
  assert (R : R_step a b x y s).
  { clear - J RT. induction RT as [|la lb z st RT IH|la lb z st RT IH|la lb z z' o' s' st RT IH HR]; [destruct J| | |]; destruct J as [J|J]; auto; try discriminate.
    injection J as <- <- <- <-. exact HR. }
  destruct R as [(P & I1 & I2) _]. destruct (NoDup_sub_nodes a b x y N I1 I2) as [NXY ND]. assert (NX := NoDup_app_l _ _ NXY). assert (NY := NoDup_app_r _ _ NXY).
  assert (EX : In (eid x) (ids a)) by (apply (child_ids a x I1 Na), eid_in). assert (EY : In (eid y) (ids b)) by (apply (child_ids b y I2 Nb), eid_in).
  assert (R1 : nid n <> eid x) by (intros E; rewrite E in VA; apply (vids_child a x _ Na I1 (eid_in x)) in VA; exact (eid_evids x NX VA)).
  assert (I' : In (nid n, nid n') (meqv s) \/ In (nid n', nid n) (meqv s)).
  { destruct I as [[E|I]|[E|I]]; auto; injection E as E1 E2; exfalso; [congruence|]. apply (D (eid x) EX). rewrite E1. exact IB. }
  clear I. assert (IHx := IH x I1 (sub_nodes y)).
  assert (SX : forall u, In u (ids (sub_nodes x)) -> In u (eids x)) by (intros u; destruct x; cbn [sub_nodes]; rewrite ?eids_node, ?eids_entry; cbn [In]; auto).
  assert (SY : forall u, In u (ids (sub_nodes y)) -> In u (eids y)) by (intros u; destruct y; cbn [sub_nodes]; rewrite ?eids_node, ?eids_entry; cbn [In]; auto).
  assert (SUB : build (sub_nodes x) (sub_nodes y) = inl s -> In n (evalues x) /\ In n' (evalues y) /\ (nid n = nid (sub_nodes x) <-> nid n' = nid (sub_nodes y))).
  { intros B. assert (A : DiffRows.alike (sub_nodes x) (sub_nodes y) (nid n) (nid n')).
    { assert (Q : forall u v, In (u, v) (meqv s) -> DiffRows.alike (sub_nodes x) (sub_nodes y) u v \/ DiffRows.alike (sub_nodes x) (sub_nodes y) v u) by (apply build_rows; [exact (fits_child _ _ _ FA I1)|exact (fits_child _ _ _ FB I2)|exact ND|exact B]).
      assert (BAD : DiffRows.alike (sub_nodes x) (sub_nodes y) (nid n') (nid n) -> False).
      { intros (A & _). apply (D (nid n')); [|exact IB]. apply (child_ids a x I1 Na), SX, A. }
      destruct I' as [I|I]; apply Q in I; tauto. }
    destruct A as (A1 & A2 & A3 & _). split; [apply (values_child a); auto|]. split; [apply (values_child b); auto|exact A3]. }
  assert (GO : forall s', build (sub_nodes x) (sub_nodes y) = inl s' -> s' = s -> is_empty n = is_empty n').
  { intros s' B ->. destruct (SUB B) as (A1 & A2 & A3). assert (FX := fits_child _ _ _ FA I1). assert (FY := fits_child _ _ _ FB I2).
    assert (G : In n (entry_values (sub_nodes x)) -> In n' (entry_values (sub_nodes y)) -> is_empty n = is_empty n') by (intros G1 G2; exact (IHx s FX FY ND B n n' G1 G2 I')).
    assert (T : n = sub_nodes x -> n' = sub_nodes y -> is_empty n = is_empty n').
    { intros -> ->. apply (root_empty _ _ s FX FY ND B). intros E. rewrite E in I'. destruct I' as [[]|[]]. }
    assert (NXs : NoDup (ids (sub_nodes x))) by exact (NoDup_app_l _ _ ND). assert (NYs : NoDup (ids (sub_nodes y))) by exact (NoDup_app_r _ _ ND).
    destruct x as [xa|mx kx xv], y as [yb|my ky yv]; cbn [evalues sub_nodes] in *; auto.
    - exfalso. destruct (is_container xa) eqn:Q; cbn [pair node_with entry_with] in P; rewrite Q in P; injection P as <-; destruct I' as [[]|[]].
    - exfalso. destruct (is_container yb) eqn:Q; cbn [pair node_with entry_with] in P; rewrite Q in P; injection P as <-; destruct I' as [[]|[]].
    - destruct A1 as [A1|A1], A2 as [A2|A2]; auto; exfalso.
      + apply (nid_vids yv NYs). rewrite <- (proj1 A3) by congruence. apply in_map, A2.
      + apply (nid_vids xv NXs). rewrite <- (proj2 A3) by congruence. apply in_map, A1. }
  destruct x as [xa|mx kx xv]; destruct y as [yb|my ky yv]; cbn [pair node_with entry_with sub_nodes] in *.
  - exact (GO s P eq_refl).
  - destruct (is_container xa); injection P as <-; destruct I' as [[]|[]].
  - destruct (is_container yb); injection P as <-; destruct I' as [[]|[]].
  - destruct (beqb kx ky); [exact (GO s P eq_refl)|]. injection P as <-. unfold scored in I'. cbn [meqv] in I'. cbn [eid] in *. exfalso.
    destruct I' as [[E|[]]|[E|[]]]; injection E as E1 E2; [congruence|]. apply (D (mid mx) EX). rewrite E1. exact IB.
Qed.

(** * Lists in the same order *)
Lemma sublist_filter {A} (f : A -> bool) (l : list A) : sublist (filter f l) l.
Proof. induction l as [|x l IH]; [constructor|]. cbn [filter]. destruct (f x); constructor; exact IH. Qed.
Lemma sublist_trans {A} (a b c : list A) : sublist a b -> sublist b c -> sublist a c.
Proof.
  intros H1 H2. revert a H1. induction H2 as [|x l l' _ IH|x l l' _ IH]; intros a H1; [exact H1|apply SL_skip, IH, H1|].
  inversion H1; subst; [apply SL_skip, IH; assumption|apply SL_keep, IH; assumption].
Qed.
Lemma sublist_same {A} (L : list A) : NoDup L -> forall l l', sublist l L -> sublist l' L -> (forall x, In x l <-> In x l') -> l = l'.
Proof.
  induction L as [|x L IH]; intros N l l' S S' E; [inversion S; inversion S'; reflexivity|]. inversion_clear N as [|? ? NI N'].
  assert (OUT : forall k, sublist k L -> ~ In x k) by (intros k K I; apply NI; exact (sublist_In _ _ _ K I)).
  inversion S as [|? k ? K|? k ? K]; subst; inversion S' as [|? k' ? K'|? k' ? K']; subst.
  - apply IH; assumption.
  - exfalso. apply (OUT _ K), E. left. reflexivity.
  - exfalso. apply (OUT _ K'), E. left. reflexivity.
  - f_equal. apply IH; auto. intros y. assert (Q := E y). cbn [In] in Q. assert (X := OUT _ K). assert (X' := OUT _ K'). split; intros I.
    + destruct (proj1 Q (or_intror I)) as [<-|J]; [contradiction|exact J].
    + destruct (proj2 Q (or_intror I)) as [<-|J]; [contradiction|exact J].
Qed.
Lemma kids_sub n : sublist (map eid (children n)) (ids n).
Proof.
  rewrite ids_children. apply SL_skip. induction (children n) as [|c l IH]; [constructor|]. cbn [map flat_map]. rewrite eids_head. cbn [app]. apply SL_keep.
  change (map eid l) with ([] ++ map eid l). apply sublist_app; [apply sublist_nil|exact IH].
Qed.
Lemma ids_sub n : forall c, In (ENode c) (elems n) -> sublist (ids c) (ids n).
Proof.
  induction n as [n IH] using node_kids_ind. intros c. rewrite elems_children. intros [[= ->]|I]; [clear; induction (ids c); constructor; assumption|].
  apply in_flat_map in I. destruct I as (x & J & I). rewrite (ids_children n). apply SL_skip.
  assert (S : sublist (ids c) (eids x)).
  { specialize (IH x J c). destruct x as [d|m k v]; cbn [eelems value_of] in *; rewrite ?eids_node, ?eids_entry; [exact (IH I)|]. destruct I as [E|I]; [discriminate|]. apply SL_skip, IH, I. }
  apply in_split in J. destruct J as (l1 & l2 & ->). rewrite flat_map_app. cbn [flat_map]. change (ids c) with ([] ++ ids c). apply sublist_app; [apply sublist_nil|].
  rewrite <- (app_nil_r (ids c)). apply sublist_app; [exact S|apply sublist_nil].
Qed.

Lemma within_children coll n : within coll n = if is_container n && negb (hidden coll n) then
    flat_map (fun c => (eid c, false) :: match c with ENode d => within coll d | EEntry _ _ v => if is_empty v then [] else within coll v end) (children n) ++ [(nid n, true)] else [].
Proof.
  destruct n as [m p|m l|m l]; cbn [within is_container andb children]; [reflexivity| |]; destruct (hidden coll _); cbn [negb]; try reflexivity; f_equal; rewrite flat_map_map; apply flat_map_ext_F; intros x _; reflexivity.
Qed.

(** * Rows with a counterpart, in both documents *)
Section Match.
  Variable (a b : node) (m : mat) (coll : list Z).
  Hypothesis MA : in_memory a.
  Hypothesis MB : in_memory b.
  Hypothesis FA : fits_memory a.
  Hypothesis FB : fits_memory b.
  Hypothesis N : NoDup (ids a ++ ids b).
  Hypothesis B : build a b = inl m.
  Hypothesis HC : forall x y, getEquivalence m x = Some y -> (In x coll <-> In y coll).
  Hypothesis SK : same_kinds m a b.
  Let E (x y : Z) : Prop := getEquivalence m x = Some y.
  Let has (x : Z) : bool := match getEquivalence m x with Some _ => true | None => false end.
  Let of_kid (c : elem) : list (Z * bool) := (eid c, false) :: match c with ENode d => within coll d | EEntry _ _ v => if is_empty v then [] else within coll v end.
  Let kept (l : list (Z * bool)) : list (Z * bool) := filter (fun s => has (fst s)) l.

  Lemma E_both x y : E x y -> has x = true /\ has y = true /\ E y x.
  Proof.
    intros H. assert (S : E y x).
    { destruct (pairing_spec a b m FA FB N B) as (P & _ & _ & C & _). apply C in H. apply C. tauto. }
    unfold has. rewrite H, S. auto.
  Qed.
  (** A pair of rows of the two documents and their parents. *)
  Lemma E_parents x y : In x (ids a) -> E x y -> exists e e', In e (elems a) /\ eid e = x /\ In e' (elems b) /\ eid e' = y /\
    match epar e, epar e' with None, None => True | Some u, Some v => E u v | _, _ => False end.
  Proof.
    intros I H. destruct (pairing_spec a b m FA FB N B) as (P & S1 & S2 & C & F). rewrite Forall_forall in F. destruct (proj1 (C x y) H) as [J|J].
    - unfold idp in J. apply in_map_iff in J. destruct J as ([[x' rx] [y' ry]] & [= -> ->] & J). assert (Q := F _ J). cbn [fst snd] in Q. destruct Q as [_ Q].
      assert (X : In (x, rx) (outline 1 None a)) by (apply (sublist_In _ _ _ S1), in_map_iff; exists (x, rx, (y, ry)); auto).
      assert (Y : In (y, ry) (outline 1 None b)) by (apply (sublist_In _ _ _ S2), in_map_iff; exists (x, rx, (y, ry)); auto).
      destruct (SplitMem.outline_linked a _ _ _ _ (proj1 MA) X) as (e & A1 & A2 & A3). destruct (SplitMem.outline_linked b _ _ _ _ (proj1 MB) Y) as (e' & B1 & B2 & B3).
      exists e, e'. rewrite A3, B3. split; [exact A1|]. split; [exact A2|]. split; [exact B1|]. split; [exact B2|]. destruct (snd rx), (snd ry); auto. apply C. left. exact Q.
    - exfalso. apply idp_snd in J. apply (NoDup_app_not _ _ x N I). rewrite <- (outline_ids b 1 None). apply (sublist_In _ _ _ (sublist_map fst _ _ S2)). exact J.
  Qed.
  Lemma elem_ids r e : In e (elems r) -> In (eid e) (ids r).
  Proof. intros I. rewrite <- elems_eid. apply in_map, I. Qed.
  Lemma ids_elem r i : In i (ids r) -> exists e, In e (elems r) /\ eid e = i.
  Proof. rewrite <- elems_eid, in_map_iff. intros (e & X & I). eauto. Qed.
  Lemma E_sides x y : E x y -> In x (ids a) /\ In y (ids b) \/ In x (ids b) /\ In y (ids a).
  Proof. intros H. destruct (pairs_rows a b m x y FA FB N B H) as [(X & Y & _)|(X & Y & _)]; auto. Qed.
  Lemma E_into x y : In x (ids a) -> E x y -> In y (ids b).
  Proof. intros I H. destruct (E_sides x y H) as [[_ J]|[J _]]; [exact J|]. destruct (NoDup_app_not _ _ x N I J). Qed.
  Lemma E_back x y : In y (ids b) -> E x y -> In x (ids a).
  Proof. intros I H. destruct (E_sides x y H) as [[J _]|[_ J]]; [exact J|]. destruct (NoDup_app_not _ _ y N J I). Qed.
  Lemma E_fun x y y' : E x y -> E x y' -> y = y'.
  Proof. unfold E. congruence. Qed.

  (** Children of counterparts are counterparts in order. *)
  Lemma kids_match n n' : In (ENode n) (elems a) -> In (ENode n') (elems b) -> E (nid n) (nid n') ->
    Forall2 E (filter has (map eid (children n))) (filter has (map eid (children n'))).
  Proof.
    intros I I' H. destruct (pairing_spec a b m FA FB N B) as (P & S1 & S2 & C & F). rewrite Forall_forall in F.
    set (here := fun p : orec * orec => match snd (snd (fst p)) with Some u => u =? nid n | None => false end).
    assert (Na := proj2 MA). assert (Nb := proj2 MB).
    assert (EQ1 : forall x y, In (x, y) (idp P) -> E x y) by (intros x y J; apply C; auto).
    assert (RA : forall p, In p P -> In (fst p) (outline 1 None a)) by (intros p J; apply (sublist_In _ _ _ S1), in_map, J).
    assert (RB : forall p, In p P -> In (snd p) (outline 1 None b)) by (intros p J; apply (sublist_In _ _ _ S2), in_map, J).
    assert (CH : forall r (M : in_memory r) c e, In (ENode c) (elems r) -> In e (elems r) -> epar e = Some (nid c) -> In e (children c)).
    { intros r M c e Ic Ie EP. destruct (elem_origin r e Ie) as [->|[(d & J & Q)|(mm & k & v & J & ->)]].
      - rewrite (root_parent r M) in EP. discriminate.
      - rewrite (child_parent r M d e J Q) in EP. injection EP as EP. assert (X := eid_inj r M (ENode d) (ENode c) J Ic EP). injection X as ->. exact Q.
      - rewrite (value_parent r M mm k v J) in EP. injection EP as EP. assert (X := eid_inj r M (EEntry mm k v) (ENode c) J Ic EP). discriminate X. }
    assert (KA : filter has (map eid (children n)) = map fst (map fst (filter here P))).
    { apply (sublist_same (ids a) Na).
      - apply (sublist_trans _ (map eid (children n))); [apply sublist_filter|]. apply (sublist_trans _ (ids n)); [apply kids_sub|apply ids_sub, I].
      - rewrite <- (outline_ids a 1 None). apply sublist_map. apply (sublist_trans _ (map fst P)); [apply sublist_map, sublist_filter|exact S1].
      - intros x. rewrite filter_In, !in_map_iff. split.
        + intros [(c & <- & J) Q]. unfold has in Q. destruct (getEquivalence m (eid c)) as [y|] eqn:EY; [|discriminate]. assert (Ic := kid_in a n c I J).
          assert (PY : In (eid c, y) (idp P)).
          { destruct (proj1 (C _ _) EY) as [K|K]; [exact K|]. exfalso. apply idp_snd in K. apply (NoDup_app_not _ _ (eid c) N (elem_ids a c Ic)). rewrite <- (outline_ids b 1 None). apply (sublist_In _ _ _ (sublist_map fst _ _ S2)). exact K. }
          unfold idp in PY. apply in_map_iff in PY. destruct PY as (p & [= P1 P2] & PI). exists (fst p). split; [exact P1|]. apply in_map_iff. exists p. split; [reflexivity|]. apply filter_In. split; [exact PI|].
          assert (X := RA p PI). destruct p as [[x' rx] ry]. cbn [fst snd] in *. subst x'. destruct (SplitMem.outline_linked a _ _ _ _ (proj1 MA) X) as (e & A1 & A2 & A3).
          assert (e = c) by (apply (eid_inj a MA); assumption). subst e. unfold here. cbn [fst snd]. rewrite <- A3, (child_parent a MA n c I J). apply Z.eqb_refl.
        + intros (r & <- & K). apply in_map_iff in K. destruct K as (p & <- & K). apply filter_In in K. destruct K as [PI K]. unfold here in K.
          assert (X := RA p PI). assert (PE := EQ1 (fst (fst p)) (fst (snd p)) ltac:(unfold idp; apply in_map_iff; exists p; auto)).
          destruct p as [[x' rx] ry]. cbn [fst snd] in *. destruct (SplitMem.outline_linked a _ _ _ _ (proj1 MA) X) as (e & A1 & A2 & A3).
          split; [|apply (E_both _ _ PE)]. exists e. split; [exact A2|]. apply (CH a MA n e I A1). rewrite A3. destruct (snd rx) as [u|]; [|discriminate]. apply Z.eqb_eq in K. congruence. }
    assert (KB : filter has (map eid (children n')) = map fst (map snd (filter here P))).
    { apply (sublist_same (ids b) Nb).
      - apply (sublist_trans _ (map eid (children n'))); [apply sublist_filter|]. apply (sublist_trans _ (ids n')); [apply kids_sub|apply ids_sub, I'].
      - rewrite <- (outline_ids b 1 None). apply sublist_map. apply (sublist_trans _ (map snd P)); [apply sublist_map, sublist_filter|exact S2].
      - intros x. rewrite filter_In, !in_map_iff. split.
        + intros [(c & <- & J) Q]. unfold has in Q. destruct (getEquivalence m (eid c)) as [y|] eqn:EY; [|discriminate]. assert (Ic := kid_in b n' c I' J).
          assert (PY : In (y, eid c) (idp P)).
          { destruct (proj1 (C _ _) EY) as [K|K]; [|exact K]. exfalso. apply idp_fst in K. apply (NoDup_app_not _ _ (eid c) N); [|exact (elem_ids b c Ic)]. rewrite <- (outline_ids a 1 None). apply (sublist_In _ _ _ (sublist_map fst _ _ S1)). exact K. }
          unfold idp in PY. apply in_map_iff in PY. destruct PY as (p & [= P1 P2] & PI). exists (snd p). split; [exact P2|]. apply in_map_iff. exists p. split; [reflexivity|]. apply filter_In. split; [exact PI|].
          assert (X := RB p PI). assert (Q2 := F p PI). destruct p as [[x' rx] [y' ry]]. cbn [fst snd] in *. subst x' y'. destruct (SplitMem.outline_linked b _ _ _ _ (proj1 MB) X) as (e & A1 & A2 & A3).
          assert (e = c) by (apply (eid_inj b MB); assumption). subst e. unfold here. cbn [fst snd]. rewrite <- A3, (child_parent b MB n' c I' J) in Q2. destruct Q2 as [_ Q2].
          destruct (snd rx) as [u|]; [|destruct Q2]. apply EQ1 in Q2. apply Z.eqb_eq. apply (E_fun (nid n')); [apply (E_both _ _ Q2)|apply (E_both _ _ H)].
        + intros (r & <- & K). apply in_map_iff in K. destruct K as (p & <- & K). apply filter_In in K. destruct K as [PI K]. unfold here in K.
          assert (X := RB p PI). assert (Q2 := F p PI). assert (PE := EQ1 (fst (fst p)) (fst (snd p)) ltac:(unfold idp; apply in_map_iff; exists p; auto)).
          destruct p as [[x' rx] [y' ry]]. cbn [fst snd] in *. destruct (SplitMem.outline_linked b _ _ _ _ (proj1 MB) X) as (e & A1 & A2 & A3).
          split; [|apply (E_both _ _ PE)]. exists e. split; [exact A2|]. apply (CH b MB n' e I' A1). rewrite A3. destruct (snd rx) as [u|]; [|discriminate]. apply Z.eqb_eq in K. subst u.
          destruct (snd ry) as [v|]; [|destruct Q2 as [_ []]]. destruct Q2 as [_ Q2]. apply EQ1 in Q2. f_equal. exact (E_fun _ _ _ Q2 H). }
    rewrite KA, KB. clear KA KB. assert (G : forall p, In p (filter here P) -> In p P) by (intros p J; apply filter_In in J; apply J). clear - EQ1 G.
    assert (G' : forall p, In p (filter here P) -> E (fst (fst p)) (fst (snd p))) by (intros p J; apply EQ1; unfold idp; apply in_map_iff; exists p; auto). clear - G'.
    induction (filter here P) as [|p l IH]; cbn [map]; constructor; [apply G'; left; reflexivity|apply IH; intros q J; apply G'; right; exact J].
  Qed.

  Lemma kept_flat l : (forall c, In c l -> has (eid c) = false -> kept (of_kid c) = []) ->
    kept (flat_map of_kid l) = flat_map (fun c => kept (of_kid c)) (filter (fun c => has (eid c)) l).
  Proof.
    intros H. induction l as [|c l IH]; [reflexivity|]. cbn [flat_map filter]. unfold kept at 1. rewrite filter_app. fold (kept (of_kid c)) (kept (flat_map of_kid l)).
    rewrite IH by (intros d I; apply H; right; exact I). destruct (has (eid c)) eqn:Q; [reflexivity|]. rewrite (H c (or_introl eq_refl) Q). reflexivity.
  Qed.

  (** Below what has no counterpart nothing has one. *)
  Lemma dark r : in_memory r -> (forall e p, In e (elems r) -> epar e = Some p -> has p = false -> has (eid e) = false) ->
    forall n, In (ENode n) (elems r) -> has (nid n) = false -> kept (within coll n) = [].
  Proof.
    intros M UP. induction n as [n IH] using node_kids_ind. intros I Q. rewrite within_children. destruct (is_container n && negb (hidden coll n)); [|reflexivity].
    fold of_kid. unfold kept. rewrite filter_app. fold (kept (flat_map of_kid (children n))). cbn [filter fst]. rewrite Q, app_nil_r.
    assert (D : forall c, In c (children n) -> has (eid c) = false) by (intros c J; apply (UP c (nid n) (kid_in r n c I J) (child_parent r M n c I J) Q)).
    assert (K : forall c, In c (children n) -> kept (of_kid c) = []).
    { intros c J. assert (Ic := kid_in r n c I J). assert (X := IH c J (value_in r c Ic)). unfold kept, of_kid. cbn [filter fst]. rewrite (D c J). destruct c as [d|mm k v]; cbn [value_of] in X.
      - exact (X (D _ J)).
      - destruct (is_empty v); [reflexivity|]. apply X. exact (UP (ENode v) (mid mm) (value_in r _ Ic) (value_parent r M mm k v Ic) (D _ J)). }
    rewrite kept_flat by (intros c J _; exact (K c J)). rewrite flat_map_concat_map. assert (Z0 : filter (fun c => has (eid c)) (children n) = []); [|rewrite Z0; reflexivity].
    clear - D. induction (children n) as [|c l IHl]; [reflexivity|]. cbn [filter]. rewrite (D c (or_introl eq_refl)). apply IHl. intros d J. apply D. right. exact J.
  Qed.

  Lemma up_a e p : In e (elems a) -> epar e = Some p -> has p = false -> has (eid e) = false.
  Proof.
    intros I EP Q. unfold has in *. destruct (getEquivalence m (eid e)) as [y|] eqn:EY; [|reflexivity].
    destruct (E_parents (eid e) y (elem_ids a e I) EY) as (d & d' & A1 & A2 & _ & _ & X). assert (d = e) by (apply (eid_inj a MA); assumption). subst d. rewrite EP in X.
    destruct (epar d') as [v|]; [|destruct X]. unfold E in X. rewrite X in Q. discriminate.
  Qed.
  Lemma up_b e p : In e (elems b) -> epar e = Some p -> has p = false -> has (eid e) = false.
  Proof.
    intros I EP Q. unfold has in *. destruct (getEquivalence m (eid e)) as [y|] eqn:EY; [|reflexivity].
    destruct (E_both _ _ EY) as (_ & _ & ES). assert (IY := E_back _ _ (elem_ids b e I) ES).
    destruct (E_parents y (eid e) IY ES) as (d & d' & _ & _ & A1 & A2 & X). assert (d' = e) by (apply (eid_inj b MB); assumption). subst d'. rewrite EP in X.
    destruct (epar d) as [v|]; [|destruct X]. destruct (E_both _ _ X) as (_ & _ & X'). unfold E in X'. rewrite X' in Q. discriminate.
  Qed.

  Definition kind_of (e : elem) : kind := match e with ENode n => if is_container n then Container else Scalar | EEntry _ _ _ => Entry end.
  Lemma kinds_elems n : forall e, In e (elems n) -> In (eid e, kind_of e) (kinds n).
  Proof.
    induction n as [mm p|mm l IH|mm l IH] using node_ind'; intros e; cbn [elems kinds].
    - intros [<-|[]]. left. reflexivity.
    - intros [<-|I]; [left; reflexivity|]. right. apply in_flat_map in I. destruct I as (x & J & I). rewrite Forall_forall in IH. apply in_flat_map. exists x. split; [exact J|exact (IH x J e I)].
    - intros [<-|I]; [left; reflexivity|]. right. apply in_flat_map in I. destruct I as (x & J & I). rewrite Forall_forall in IH. apply in_flat_map. exists x. split; [exact J|].
      destruct I as [<-|I]; [left; reflexivity|right; exact (IH x J e I)].
  Qed.
  Lemma E_kinds e e' : In e (elems a) -> In e' (elems b) -> E (eid e) (eid e') -> kind_of e = kind_of e'.
  Proof. intros I I' H. exact (SK _ _ _ _ (kinds_elems a e I) (kinds_elems b e' I') H). Qed.

  Lemma E_hidden n n' : E (nid n) (nid n') -> hidden coll n = hidden coll n'.
  Proof.
    intros H. apply HC in H. unfold hidden. apply Bool.eq_iff_eq_true. rewrite !existsb_exists. split; intros (z & I & Q); apply Z.eqb_eq in Q; subst z; [exists (nid n')|exists (nid n)]; (split; [apply H, I|apply Z.eqb_refl]).
  Qed.
  (** Values of paired entries: counterparts, or both without one. *)
  Lemma E_values mm k v mm' k' v' : In (EEntry mm k v) (elems a) -> In (EEntry mm' k' v') (elems b) -> E (mid mm) (mid mm') ->
    E (nid v) (nid v') \/ has (nid v) = false /\ has (nid v') = false.
  Proof.
    intros I I' H. assert (Iv := value_in a _ I). assert (Iv' := value_in b _ I'). cbn [value_of] in *.
    assert (X : forall x y, In x (ids a) -> E x y -> x = nid v \/ y = nid v' -> E (nid v) (nid v')).
    { intros x y J Q O. destruct (E_parents x y J Q) as (e & e' & A1 & A2 & B1 & B2 & P). destruct O as [->| ->].
      - assert (e = ENode v) by (apply (eid_inj a MA); assumption). subst e. rewrite (value_parent a MA _ _ _ I) in P. destruct (epar e') as [u|] eqn:EP; [|destruct P].
        assert (u = mid mm') by exact (E_fun _ _ _ P H). subst u. destruct (elem_origin b e' B1) as [->|[(c & JC & QC)|(m2 & k2 & v2 & J2 & ->)]].
        + rewrite (root_parent b MB) in EP. discriminate.
        + rewrite (child_parent b MB c e' JC QC) in EP. injection EP as EP. assert (Z0 := eid_inj b MB (ENode c) (EEntry mm' k' v') JC I' EP). discriminate Z0.
        + rewrite (value_parent b MB _ _ _ J2) in EP. injection EP as EP. assert (Z0 := eid_inj b MB _ _ J2 I' EP). injection Z0 as -> -> ->. rewrite <- B2 in Q. exact Q.
      - assert (e' = ENode v') by (apply (eid_inj b MB); assumption). subst e'. rewrite (value_parent b MB _ _ _ I') in P. destruct (epar e) as [u|] eqn:EP; [|destruct P].
        assert (u = mid mm) by (apply (E_fun (mid mm')); [apply (E_both _ _ P)|apply (E_both _ _ H)]). subst u. destruct (elem_origin a e A1) as [->|[(c & JC & QC)|(m2 & k2 & v2 & J2 & ->)]].
        + rewrite (root_parent a MA) in EP. discriminate.
        + rewrite (child_parent a MA c e JC QC) in EP. injection EP as EP. assert (Z0 := eid_inj a MA (ENode c) (EEntry mm k v) JC I EP). discriminate Z0.
        + rewrite (value_parent a MA _ _ _ J2) in EP. injection EP as EP. assert (Z0 := eid_inj a MA _ _ J2 I EP). injection Z0 as -> -> ->. rewrite <- A2 in Q. exact Q. }
    destruct (getEquivalence m (nid v)) as [y|] eqn:EY; [left; apply (X (nid v) y); [apply (elem_ids a _ Iv)|exact EY|auto]|].
    destruct (getEquivalence m (nid v')) as [y|] eqn:EY'; [|right; unfold has; rewrite EY, EY'; auto].
    left. destruct (E_both _ _ EY') as (_ & _ & ES). apply (X y (nid v')); [exact (E_back _ _ (elem_ids b _ Iv') ES)|exact ES|auto].
  Qed.
  Lemma entry_value r mm k v : In (EEntry mm k v) (elems r) -> In v (entry_values r).
  Proof.
    induction r as [r IH] using node_kids_ind. rewrite elems_children. intros [Q|I]; [discriminate|]. apply in_flat_map in I. destruct I as (x & J & I).
    rewrite values_children. apply in_flat_map. exists x. split; [exact J|]. specialize (IH x J). destruct x as [c|m' k' v']; cbn [eelems evalues value_of] in *; [auto|].
    destruct I as [[= -> -> ->]|I]; [left; reflexivity|right; auto].
  Qed.
  Lemma E_meqv x y : E x y -> In (x, y) (meqv m) \/ In (y, x) (meqv m).
  Proof.
    unfold E, getEquivalence. pose proof (find_spec (fun p => (fst p =? x) || (snd p =? x)) (meqv m)) as FS. destruct (find _ (meqv m)) as [[u v]|]; [|discriminate]. destruct FS as [I C]. cbn [fst snd] in C.
    destruct (u =? x) eqn:EU; intros [= <-]; [left|right]; [apply Z.eqb_eq in EU; subst u; exact I|]. cbn [orb] in C. apply Z.eqb_eq in C. subst v. exact I.
  Qed.

  Let same (s t : Z * bool) : Prop := snd s = snd t /\ E (fst s) (fst t).
  Lemma flat_match l l' : Forall2 E (filter has (map eid l)) (filter has (map eid l')) ->
    (forall c c', In c l -> In c' l' -> E (eid c) (eid c') -> Forall2 same (kept (of_kid c)) (kept (of_kid c'))) ->
    Forall2 same (flat_map (fun c => kept (of_kid c)) (filter (fun c => has (eid c)) l)) (flat_map (fun c => kept (of_kid c)) (filter (fun c => has (eid c)) l')).
  Proof.
    intros F G. assert (X : forall k, filter has (map eid k) = map eid (filter (fun c => has (eid c)) k)).
    { clear. induction k as [|c k IH]; [reflexivity|]. cbn [map filter]. rewrite IH. destruct (has (eid c)); reflexivity. }
    rewrite !X in F. assert (G1 : forall c, In c (filter (fun c => has (eid c)) l) -> In c l) by (intros c J; apply filter_In in J; apply J).
    assert (G2 : forall c, In c (filter (fun c => has (eid c)) l') -> In c l') by (intros c J; apply filter_In in J; apply J).
    assert (G' : forall c c', In c (filter (fun c => has (eid c)) l) -> In c' (filter (fun c => has (eid c)) l') -> E (eid c) (eid c') -> Forall2 same (kept (of_kid c)) (kept (of_kid c'))) by auto.
    clear - F G'. revert F G'. generalize (filter (fun c => has (eid c)) l) (filter (fun c => has (eid c)) l'). intros k. induction k as [|c k IH]; intros k' F G'; destruct k' as [|c' k']; cbn [map flat_map] in *; inversion F; subst; [constructor|].
    apply Forall2_app; [apply G'; [left; reflexivity|left; reflexivity|assumption]|]. apply IH; [assumption|]. intros d d' J J'. apply G'; right; assumption.
  Qed.

  Lemma within_match : forall n, In (ENode n) (elems a) -> forall n', In (ENode n') (elems b) -> E (nid n) (nid n') ->
    Forall2 same (kept (within coll n)) (kept (within coll n')).
  Proof.
    induction n as [n IH] using node_kids_ind. intros I n' I' H. rewrite !within_children.
    assert (KO := E_kinds _ _ I I' H). assert (CO : is_container n = is_container n') by (cbn [kind_of] in KO; destruct (is_container n), (is_container n'); auto; discriminate KO).
    rewrite (E_hidden n n' H), CO. destruct (is_container n' && negb (hidden coll n')); [|constructor]. fold of_kid.
    unfold kept. rewrite !filter_app. fold (kept (flat_map of_kid (children n))) (kept (flat_map of_kid (children n'))). apply Forall2_app.
    2:{ destruct (E_both _ _ H) as (H1 & H2 & _). cbn [filter fst]. rewrite H1, H2. constructor; [split; [reflexivity|exact H]|constructor]. }
    assert (DA := dark a MA up_a). assert (DB := dark b MB up_b).
    assert (KID : forall r (M : in_memory r), (forall e p, In e (elems r) -> epar e = Some p -> has p = false -> has (eid e) = false) ->
      forall d, In (ENode d) (elems r) -> forall c, In c (children d) -> has (eid c) = false -> kept (of_kid c) = []).
    { intros r M UP d Id c J Q. assert (Ic := kid_in r d c Id J). unfold kept, of_kid. cbn [filter fst]. rewrite Q. destruct c as [e|mm k v].
      - exact (dark r M UP e Ic Q).
      - destruct (is_empty v); [reflexivity|]. apply (dark r M UP v (value_in r _ Ic)). exact (UP (ENode v) (mid mm) (value_in r _ Ic) (value_parent r M mm k v Ic) Q). }
    rewrite (kept_flat (children n)) by exact (KID a MA up_a n I). rewrite (kept_flat (children n')) by exact (KID b MB up_b n' I').
    apply flat_match; [exact (kids_match n n' I I' H)|].
    intros c c' J J' Q. assert (Ic := kid_in a n c I J). assert (Ic' := kid_in b n' c' I' J'). destruct (E_both _ _ Q) as (Q1 & Q2 & _).
    unfold kept, of_kid. cbn [filter fst]. rewrite Q1, Q2. constructor; [split; [reflexivity|exact Q]|].
    assert (X := IH c J (value_in a c Ic)). assert (KC := E_kinds c c' Ic Ic' Q). destruct c as [d|mm k v], c' as [d'|mm' k' v']; cbn [kind_of value_of] in *; try (exfalso; revert KC; clear; destruct (is_container _); discriminate).
    - exact (X d' Ic' Q).
    - destruct (E_values _ _ _ _ _ _ Ic Ic' Q) as [QV|[Z1 Z2]].
      + rewrite (build_empty a b m FA FB N B v v' (entry_value a _ _ _ Ic) (entry_value b _ _ _ Ic') (E_meqv _ _ QV)).
        destruct (is_empty v'); [constructor|]. exact (X v' (value_in b _ Ic') QV).
      + assert (Y := DA v (value_in a _ Ic) Z1). assert (Y' := DB v' (value_in b _ Ic') Z2). unfold kept in Y, Y'. destruct (is_empty v), (is_empty v'); rewrite ?Y, ?Y'; constructor.
  Qed.

  Lemma steps_match : Forall2 same (kept (SplitLay.steps coll a)) (kept (SplitLay.steps coll b)).
  Proof.
    unfold SplitLay.steps. unfold kept. cbn [filter fst]. fold (kept (within coll a)) (kept (within coll b)).
    destruct (getEquivalence m (nid a)) as [y|] eqn:EY.
    - assert (y = nid b).
      { destruct (E_parents (nid a) y (elem_ids a _ (root_in a)) EY) as (e & e' & A1 & A2 & B1 & B2 & P). assert (e = ENode a) by (apply (eid_inj a MA); [exact A1|apply root_in|exact A2]). subst e.
        rewrite (root_parent a MA) in P. destruct (epar e') as [u|] eqn:EP; [destruct P|]. destruct (elem_origin b e' B1) as [->|[(c & JC & QC)|(m2 & k2 & v2 & J2 & ->)]].
        - symmetry. exact B2.
        - rewrite (child_parent b MB c e' JC QC) in EP. discriminate.
        - rewrite (value_parent b MB _ _ _ J2) in EP. discriminate. }
      subst y. destruct (E_both _ _ EY) as (H1 & H2 & _). rewrite H1, H2. constructor; [split; [reflexivity|exact EY]|]. exact (within_match a (root_in a) b (root_in b) EY).
    - assert (HA : has (nid a) = false) by (unfold has; rewrite EY; reflexivity).
      assert (HB : has (nid b) = false).
      { unfold has. destruct (getEquivalence m (nid b)) as [y|] eqn:EB; [|reflexivity]. destruct (E_both _ _ EB) as (_ & _ & ES). assert (IY := E_back _ _ (elem_ids b _ (root_in b)) ES).
        destruct (E_parents y (nid b) IY ES) as (e & e' & A1 & A2 & B1 & B2 & P). assert (e' = ENode b) by (apply (eid_inj b MB); [exact B1|apply root_in|exact B2]). subst e'.
        rewrite (root_parent b MB) in P. destruct (epar e) as [u|] eqn:EP; [destruct P|]. destruct (elem_origin a e A1) as [->|[(c & JC & QC)|(m2 & k2 & v2 & J2 & ->)]].
        - cbn [eid] in A2. subst y. unfold E in ES. congruence.
        - rewrite (child_parent a MA c e JC QC) in EP. discriminate.
        - rewrite (value_parent a MA _ _ _ J2) in EP. discriminate. }
      rewrite HA, HB, (dark a MA up_a a (root_in a) HA), (dark b MB up_b b (root_in b) HB). constructor.
  Qed.
End Match.

(** * On the screen *)
Lemma within_ids coll n : forall s, In s (within coll n) -> In (fst s) (ids n).
Proof.
  induction n as [n IH] using node_kids_ind. intros s. rewrite within_children, ids_children. destruct (is_container n && negb (hidden coll n)); [|intros []].
  intros I. apply in_app_or in I. destruct I as [I|[<-|[]]]; [right|left; reflexivity]. apply in_flat_map in I. destruct I as (c & J & I). apply in_flat_map. exists c. split; [exact J|].
  specialize (IH c J). destruct I as [<-|I]; [apply eid_in|]. destruct c as [d|m k v]; cbn [value_of] in IH; rewrite ?eids_node, ?eids_entry; [exact (IH s I)|]. right. destruct (is_empty v); [destruct I|exact (IH s I)].
Qed.
Lemma NoDup_flat {A} (f : A -> list (Z * bool)) (g : A -> list Z) l : NoDup (flat_map g l) -> (forall c, In c l -> NoDup (f c) /\ forall s, In s (f c) -> In (fst s) (g c)) -> NoDup (flat_map f l).
Proof.
  induction l as [|c l IH]; intros N H; [constructor|]. cbn [flat_map] in *. apply NoDup_app_in.
  - apply H. left. reflexivity.
  - apply IH; [exact (NoDup_app_r _ _ N)|]. intros d J. apply H. right. exact J.
  - intros s I J. apply in_flat_map in J. destruct J as (d & J1 & J2). apply (NoDup_app_not _ _ (fst s) N); [apply (H c (or_introl eq_refl)), I|]. apply in_flat_map. exists d. split; [exact J1|]. apply (H d (or_intror J1)), J2.
Qed.
Lemma within_NoDup coll n : NoDup (ids n) -> NoDup (within coll n) /\ ~ In (nid n, false) (within coll n).
Proof.
  induction n as [n IH] using node_kids_ind. intros N. rewrite within_children. rewrite ids_children in N. inversion_clear N as [|? ? NI NK].
  destruct (is_container n && negb (hidden coll n)); [|split; [constructor|intros []]].
  set (f := fun c => _ :: _). assert (G : forall c, In c (children n) -> forall s, In s (f c) -> In (fst s) (eids c)).
  { intros c J s [<-|I]; [apply eid_in|]. destruct c as [d|m k v]; rewrite ?eids_node, ?eids_entry; [exact (within_ids coll d s I)|]. right. destruct (is_empty v); [destruct I|exact (within_ids coll v s I)]. }
  assert (OUT : forall x, In x (flat_map f (children n)) -> fst x <> nid n).
  { intros x I Q. apply NI. rewrite <- Q. apply in_flat_map in I. destruct I as (c & J & I). apply in_flat_map. exists c. split; [exact J|exact (G c J x I)]. }
  split.
  - apply NoDup_app_in; [|constructor; [intros []|constructor]|intros x I [<-|[]]; exact (OUT _ I eq_refl)].
    apply (NoDup_flat f eids _ NK). intros c J. split; [|exact (G c J)]. assert (NC : NoDup (eids c)).
    { clear - NK J. apply in_split in J. destruct J as (l1 & l2 & E). rewrite E, flat_map_app in NK. apply NoDup_app_r in NK. cbn [flat_map] in NK. exact (NoDup_app_l _ _ NK). }
    specialize (IH c J). unfold f. destruct c as [d|m k v]; cbn [value_of eid] in *; rewrite ?eids_node, ?eids_entry in NC.
    + destruct (IH NC) as [Q1 Q2]. constructor; assumption.
    + inversion_clear NC as [|? ? NV NC']. constructor; [|destruct (is_empty v); [constructor|apply (IH NC')]]. intros I. apply NV. destruct (is_empty v); [destruct I|]. exact (within_ids coll v _ I).
  - intros I. apply in_app_or in I. destruct I as [I|[[=]|[]]]. exact (OUT _ I eq_refl).
Qed.
Lemma steps_NoDup coll n : NoDup (ids n) -> NoDup (SplitLay.steps coll n).
Proof. intros N. destruct (within_NoDup coll n N). constructor; assumption. Qed.

Lemma Forall2_nth {A B} (R : A -> B -> Prop) l l' : Forall2 R l l' -> forall k x, nth_error l k = Some x -> exists y, nth_error l' k = Some y /\ R x y.
Proof. induction 1 as [|a b l l' H _ IH]; intros [|k] x E; cbn in *; try discriminate; [injection E as <-; eauto|exact (IH k x E)]. Qed.

Lemma names_kept m l more k p : nth_error (filter (matched m) l) k = Some p ->
  nth_error (filter (fun s => match getEquivalence m (fst s) with Some _ => true | None => false end) (map (fun s => (sid s, sclose s)) l ++ more)) k = Some (sid p, sclose p).
Proof.
  intros H. rewrite filter_app. assert (E : filter (fun s : Z * bool => match getEquivalence m (fst s) with Some _ => true | None => false end) (map (fun s => (sid s, sclose s)) l) = map (fun s => (sid s, sclose s)) (filter (matched m) l)).
  { clear. induction l as [|x l IH]; [reflexivity|]. cbn [map filter fst]. rewrite IH. change (matched m x) with (match getEquivalence m (sid x) with Some _ => true | None => false end). destruct (getEquivalence m (sid x)); reflexivity. }
  rewrite E, nth_error_app1; [rewrite nth_error_map, H; reflexivity|]. rewrite map_length. apply nth_error_Some. congruence.
Qed.

Lemma windows_level f a b m len sc p w v : comparable a b m len f -> roomy_windows sc -> slen sc = len -> same_kinds m a b -> compares a b m sc p -> pwins p = [w; v] ->
  exists l r, fills len (pcoll p) (sw sc - 2) w l /\ fills len (pcoll p) (sw sc - 2) v r /\ level_pairs m l r.
Proof.
  intros OK R L SK C EW. destruct (windows_beside f a b m len sc p w v OK R L C EW) as (l & r & F1 & F2 & AB & _).
  exists l, r. split; [exact F1|]. split; [exact F2|]. destruct F1 as (_ & _ & more & _ & _ & _ & S1). destruct F2 as (_ & _ & more' & _ & _ & _ & S2).
  assert (EA : wroot w = a /\ wroot v = b).
  { destruct C as (_ & (u0 & u1 & E & (Q0 & _) & (Q1 & _)) & _). rewrite EW in E. injection E as <- <-. auto. }
  rewrite (proj1 EA) in S1. rewrite (proj2 EA) in S2. destruct OK as (MA & MB & FA & FB & N & B & _). destruct C as (_ & _ & _ & _ & _ & _ & FO).
  assert (M := steps_match a b m (pcoll p) MA MB FA FB N B FO SK). cbn beta zeta in M. rewrite S1, S2 in M.
  intros s t I J CL E. assert (ME : matched m s = true) by (unfold matched; rewrite E; reflexivity).
  assert (MT : matched m t = true). { unfold matched. destruct (E_both a b m FA FB N B _ _ E) as (_ & H & _). exact H. }
  assert (I' : In s (filter (matched m) l)) by (apply filter_In; auto). assert (J' : In t (filter (matched m) r)) by (apply filter_In; auto).
  apply In_nth_error in I'. destruct I' as (k & K). apply In_nth_error in J'. destruct J' as (k' & K').
  assert (X := names_kept m l more k s K). assert (X' := names_kept m r more' k' t K').
  destruct (Forall2_nth _ _ _ M k _ X) as (y & Y & (Y1 & Y2)). cbn [fst snd] in *. assert (y = (sid t, sclose t)) by (destruct y as [y1 y2]; cbn [fst snd] in *; congruence). subst y.
  assert (KK : k = k').
  { assert (ND := steps_NoDup (pcoll p) b (proj2 MB)). rewrite S2 in ND. apply (NoDup_filter (fun s => match getEquivalence m (fst s) with Some _ => true | None => false end)) in ND.
    apply (proj1 (NoDup_nth_error _) ND); [apply nth_error_Some; congruence|congruence]. }
  subst k'. exact (AB k s t K K').
Qed.

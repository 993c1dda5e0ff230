(** The value of an entry is paired only with the value of an entry. *)
From Verif Require Export Proofs.DiffPairing.
From Verif Require Import Spec.ViewSpec Proofs.RowProofs.
From Coq Require Import Lia.
Open Scope Z_scope.

(** Identities of the values of the entries below. *)
Definition vids (n : node) : list Z := map nid (entry_values n).
Definition evids (x : elem) : list Z := match x with ENode n => vids n | EEntry _ _ v => nid v :: vids v end.

Lemma vids_children n : vids n = flat_map evids (children n).
Proof.
  unfold vids. destruct n as [m p|m l|m l]; cbn [entry_values children flat_map]; [reflexivity| |]; rewrite map_flat_map', flat_map_map; apply flat_map_ext_F; intros x _; reflexivity.
Qed.

Lemma vids_tl n : incl (vids n) (tl (ids n)).
Proof.
  induction n as [n IH] using node_kids_ind. rewrite vids_children, ids_children. cbn [tl]. intros u I. apply in_flat_map in I. destruct I as (x & J & I).
  apply in_flat_map. exists x. split; [exact J|]. specialize (IH x J). destruct x as [c|m k v]; cbn [evids value_of] in *.
  - rewrite eids_node. specialize (IH u I). destruct (ids c); [destruct IH|right; exact IH].
  - rewrite eids_entry. right. destruct I as [<-|I]; [rewrite ids_children; left; reflexivity|]. specialize (IH u I). destruct (ids v); [destruct IH|right; exact IH].
Qed.
Lemma evids_tl x : incl (evids x) (tl (eids x)).
Proof.
  intros u I. destruct x as [c|m k v]; cbn [evids] in I.
  - rewrite eids_node. apply vids_tl, I.
  - rewrite eids_entry. cbn [tl]. destruct I as [<-|I]; [rewrite ids_children; left; reflexivity|]. apply vids_tl in I. destruct (ids v); [destruct I|right; exact I].
Qed.
Lemma evids_in x : incl (evids x) (eids x).
Proof. intros u I. rewrite eids_head. right. apply evids_tl, I. Qed.
Lemma nid_vids n : NoDup (ids n) -> ~ In (nid n) (vids n).
Proof. intros N I. apply vids_tl in I. rewrite ids_children in *. inversion_clear N. contradiction. Qed.
Lemma eid_evids x : NoDup (eids x) -> ~ In (eid x) (evids x).
Proof. intros N I. apply evids_tl in I. rewrite eids_head in N. inversion_clear N. contradiction. Qed.

Lemma NoDup_flat_in {A} (f : A -> list Z) l x y u : NoDup (flat_map f l) -> In x l -> In y l -> In u (f x) -> In u (f y) -> x = y.
Proof.
  induction l as [|z l IH]; [intros _ []|]. cbn [flat_map]. intros N [<-|I] [<-|J] U V; [reflexivity| | |].
  - exfalso. apply (NoDup_app_not _ _ u N U). apply in_flat_map. eauto.
  - exfalso. apply (NoDup_app_not _ _ u N V). apply in_flat_map. eauto.
  - apply IH; auto. exact (NoDup_app_r _ _ N).
Qed.
Lemma vids_child n x u : NoDup (ids n) -> In x (children n) -> In u (eids x) -> (In u (vids n) <-> In u (evids x)).
Proof.
  intros N I U. rewrite vids_children. split; [|intros E; apply in_flat_map; eauto]. intros J. apply in_flat_map in J. destruct J as (y & K & E).
  rewrite ids_children in N. inversion_clear N as [|? ? _ N']. rewrite (NoDup_flat_in eids (children n) x y u N' I K U); [exact E|]. apply evids_in, E.
Qed.

(** [u] of [a] and [v] of [b] are both roots or both not, both values of entries
    or both not. *)
Definition alike (a b : node) (u v : Z) : Prop :=
  In u (ids a) /\ In v (ids b) /\ (u = nid a <-> v = nid b) /\ (In u (vids a) <-> In v (vids b)).

Lemma alike_roots a b : NoDup (ids a ++ ids b) -> alike a b (nid a) (nid b).
Proof.
  intros N. assert (Na := NoDup_app_l _ _ N). assert (Nb := NoDup_app_r _ _ N).
  split; [rewrite ids_children; left; reflexivity|]. split; [rewrite ids_children; left; reflexivity|]. split; [tauto|].
  split; intros H; [destruct (nid_vids _ Na H)|destruct (nid_vids _ Nb H)].
Qed.

(** What is paired below a pair of children. *)
Lemma alike_child a b x y u v : NoDup (ids a ++ ids b) -> In x (children a) -> In y (children b) ->
  In u (eids x) -> In v (eids y) -> (In u (evids x) <-> In v (evids y)) -> alike a b u v.
Proof.
  intros N I J U V E. assert (Na := NoDup_app_l _ _ N). assert (Nb := NoDup_app_r _ _ N).
  destruct (child_ids a x I Na) as [_ A]. destruct (child_ids b y J Nb) as [_ B]. destruct (A u U) as [A1 A2]. destruct (B v V) as [B1 B2].
  split; [exact A1|]. split; [exact B1|]. split; [split; intros; contradiction|]. rewrite (vids_child a x u Na I U), (vids_child b y v Nb J V). exact E.
Qed.

Lemma build_rows : forall a b m, fits_memory a -> fits_memory b -> NoDup (ids a ++ ids b) -> build a b = inl m ->
  forall u v, In (u, v) (meqv m) -> alike a b u v \/ alike a b v u.
Proof.
  induction a as [a IH] using node_children_ind. intros b m FA FB N H.
  assert (SC : forall r s x y, x = nid a -> y = nid b -> forall u v, In (u, v) (meqv (scored r x y s)) -> alike a b u v \/ alike a b v u).
  { intros r s x y -> -> u v I. left. unfold scored in I. cbn [meqv] in I. destruct s; [|destruct I]. destruct I as [[= <- <-]|[]]. apply alike_roots, N. }
  destruct (is_container a) eqn:CA.
  2:{ destruct a as [ma pa| |]; try discriminate. cbn [build] in H. destruct b as [mb pb|mb lb|mb lb]; injection H as <-.
      - apply SC; reflexivity.
      - intros u v [].
      - intros u v []. }
  destruct (is_container b) eqn:CB.
  2:{ destruct b as [mb pb| |]; try discriminate. destruct a; [discriminate| |]; cbn [build is_container] in H; injection H as <-; intros u v []. }
  destruct (container_shape a b m CA CB FA FB N H) as [(_ & ->)|(_ & st & ops & eqs & RT & _ & _ & _ & K)].
  - intros u v [].
  - intros u v I. apply K in I. destruct I as [[-> ->]|[[-> ->]|(x & y & o & s & J & I)]]; [right; apply alike_roots, N|left; apply alike_roots, N|].
    assert (R : R_step a b x y s).
    { clear - J RT. induction RT as [|la lb z st RT IH|la lb z st RT IH|la lb z z' o' s' st RT IH HR]; [destruct J| | |]; destruct J as [J|J]; auto; try discriminate.
      injection J as <- <- <- <-. exact HR. }
    destruct R as [(P & I1 & I2) _].
    destruct (NoDup_sub_nodes a b x y N I1 I2) as [NXY ND]. assert (NX := NoDup_app_l _ _ NXY). assert (NY := NoDup_app_r _ _ NXY).
    assert (RR : alike a b (eid x) (eid y)).
    { apply (alike_child a b x y); auto; try apply eid_in. split; intros E; [destruct (eid_evids x NX E)|destruct (eid_evids y NY E)]. }
    destruct I as [[-> ->]|I]; [left; exact RR|].
    assert (IHx := IH x I1 (sub_nodes y)).
    destruct x as [xa|mx kx xv]; destruct y as [yb|my ky yv]; cbn [pair node_with entry_with sub_nodes] in *.
    + assert (Q := IHx s (fits_child _ _ _ FA I1) (fits_child _ _ _ FB I2) ND P u v I).
      destruct Q as [(A & B & _ & C)|(A & B & _ & C)]; [left|right];
        (apply (alike_child a b (ENode xa) (ENode yb)); auto; rewrite eids_node; assumption).
    + destruct (is_container xa); injection P as <-; destruct I.
    + destruct (is_container yb); injection P as <-; destruct I.
    + destruct (beqb kx ky).
      * assert (Q := IHx s (fits_child _ _ _ FA I1) (fits_child _ _ _ FB I2) ND P u v I).
        assert (G : forall u v, alike xv yv u v -> alike a b u v).
        { clear - N I1 I2. intros u v (A & B & R & C).
          apply (alike_child a b (EEntry mx kx xv) (EEntry my ky yv)); auto; rewrite ?eids_entry; cbn [In evids]; auto. split; intros [E|E]; intuition. }
        destruct Q as [Q|Q]; [left|right]; apply G, Q.
      * injection P as <-. unfold scored in I. cbn [meqv] in I. destruct I as [[= <- <-]|[]]. left. exact RR.
Qed.

Lemma pairs_rows a b m x y : fits_memory a -> fits_memory b -> NoDup (ids a ++ ids b) -> build a b = inl m ->
  getEquivalence m x = Some y -> alike a b x y \/ alike a b y x.
Proof.
  intros FA FB N H. unfold getEquivalence. pose proof (find_spec (fun p => (fst p =? x) || (snd p =? x)) (meqv m)) as FS.
  destruct (find _ (meqv m)) as [[u v]|]; [|discriminate]. destruct FS as [I C]. cbn [fst snd] in C.
  apply (build_rows a b m FA FB N H) in I. destruct (u =? x) eqn:EU; intros [= <-].
  - apply Z.eqb_eq in EU. subst u. tauto.
  - cbn [orb] in C. apply Z.eqb_eq in C. subst v. tauto.
Qed.

Lemma pair_values a b m x y : fits_memory a -> fits_memory b -> NoDup (ids a ++ ids b) -> build a b = inl m ->
  getEquivalence m x = Some y ->
  (In x (map nid (entry_values a ++ entry_values b)) <-> In y (map nid (entry_values a ++ entry_values b))).
Proof.
  intros FA FB N H E. rewrite map_app, !in_app_iff. fold (vids a) (vids b).
  assert (VA : forall z, In z (vids a) -> In z (ids a)) by (intros z J; apply vids_tl in J; destruct (ids a); [destruct J|right; exact J]).
  assert (VB : forall z, In z (vids b) -> In z (ids b)) by (intros z J; apply vids_tl in J; destruct (ids b); [destruct J|right; exact J]).
  assert (D : forall z, In z (ids a) -> In z (ids b) -> False) by (intros z; apply NoDup_app_not, N).
  destruct (pairs_rows a b m x y FA FB N H E) as [(A & B & _ & C)|(A & B & _ & C)]; specialize (VA); split; intros [J|J].
  - right. apply C, J.
  - destruct (D x A (VB x J)).
  - destruct (D y (VA y J) B).
  - left. apply C, J.
  - destruct (D x (VA x J) B).
  - left. apply C, J.
  - right. apply C, J.
  - destruct (D y A (VB y J)).
Qed.

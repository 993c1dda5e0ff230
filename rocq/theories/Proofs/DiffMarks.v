(** The marks given by a comparison. *)
From Verif Require Import Proofs.LevProofs Proofs.LevScore.
From Verif Require Export Proofs.DiffPairing.
From Coq Require Import Lia.
Open Scope Z_scope.

Lemma scalars_children n : is_container n = true -> scalars n = flat_map (fun x => scalars (sub_nodes x)) (children n).
Proof. destruct n as [m p|m l|m l]; [discriminate| |]; intros _; cbn [scalars children]; rewrite flat_map_map; reflexivity. Qed.

Lemma scalar_id n : forall u p, In (u, p) (scalars n) -> In u (ids n).
Proof.
  induction n as [n IH] using node_children_ind. intros u p I. rewrite ids_children. destruct (is_container n) eqn:C.
  - right. rewrite (scalars_children n C) in I. apply in_flat_map in I. destruct I as (x & I1 & I2). apply in_flat_map. exists x. split; [exact I1|].
    apply sub_ids_in. exact (IH x I1 u p I2).
  - destruct n; [|discriminate|discriminate]. destruct I as [[= <- <-]|[]]. left. reflexivity.
Qed.

(** A scalar of a container belongs to the one child its identity belongs to. *)
Lemma flat_map_once {A} (f : A -> list Z) l x y u : NoDup (flat_map f l) -> In x l -> In y l -> In u (f x) -> In u (f y) -> x = y.
Proof.
  induction l as [|z l IH]; cbn [flat_map In]; [intros _ []|]. intros N [->|I1] [->|I2] U V; [reflexivity| | |].
  - exfalso. apply (NoDup_app_not _ _ u N U). apply in_flat_map. eauto.
  - exfalso. apply (NoDup_app_not _ _ u N V). apply in_flat_map. eauto.
  - apply IH; auto. exact (NoDup_app_r _ _ N).
Qed.

Lemma scalar_in_child n x u p : is_container n = true -> NoDup (ids n) -> In x (children n) -> In u (eids x) -> In (u, p) (scalars n) -> In (u, p) (scalars (sub_nodes x)).
Proof.
  intros C N I U S. rewrite (scalars_children n C) in S. apply in_flat_map in S. destruct S as (y & I2 & S).
  assert (V : In u (eids y)) by (apply sub_ids_in; eapply scalar_id; eauto).
  rewrite ids_children in N. inversion_clear N as [|? ? _ N2]. rewrite (flat_map_once eids (children n) x y u N2 I I2 U V). exact S.
Qed.

Definition alike (p q : prim) : Prop :=
  same_type p q = true /\ score_similar (levenshteinPercent (prim_string p) (prim_string q)) = true.

Definition Marked (a b : node) (m : mat) : Prop := forall u, In (u, OEqu) (mops m) ->
  (forall p, In (u, p) (scalars a) -> exists v q, In (v, q) (scalars b) /\ In (u, v) (meqv m) /\ alike p q) /\
  (forall q, In (u, q) (scalars b) -> exists v p, In (v, p) (scalars a) /\ In (v, u) (meqv m) /\ alike p q).

Definition MarkN (a b : node) (m : mat) : Prop :=
  incl (keys (mops m)) (ids a ++ ids b) /\ In (nid a) (keys (mops m)) /\ In (nid b) (keys (mops m)) /\ Marked a b m.
Definition MarkE (x y : elem) (m : mat) : Prop :=
  incl (keys (mops m)) (eids x ++ eids y) /\
  ((In (eid x) (keys (mops m)) /\ In (eid y) (keys (mops m))) \/ (eid x <> nid (sub_nodes x) /\ eid y <> nid (sub_nodes y) /\ x <> ENode (sub_nodes x) /\ y <> ENode (sub_nodes y)) ) /\
  Marked (sub_nodes x) (sub_nodes y) m.

Lemma msets_In_back {B} (l0 : list (Z * B)) : forall l u v, In (u, v) (msets l0 l) -> In (u, v) l0 \/ (~ In u (keys l0) /\ In (u, v) l).
Proof.
  induction l0 as [|[k w] l0 IH]; intros l u v I; [right; split; [intros []|exact I]|].
  change (msets ((k, w) :: l0) l) with (msets l0 (mset k w l)) in I. apply IH in I. destruct I as [I|[NI I]]; [left; right; exact I|].
  apply mset_In in I. destruct I as [[-> ->]|[NK I]]; [left; left; reflexivity|]. right. split; [|exact I].
  intros [Q|Q]; [cbn in Q; congruence|contradiction].
Qed.

Lemma run_ops st : forall ops eqs u o, In (u, o) (fst (fold_left run_step st (ops, eqs))) ->
  In (u, o) ops \/ (exists x, (In (StA x) st \/ In (StB x) st) /\ u = eid x /\ o = OAdd) \/
  exists x y o' s, In (StM x y o' s) st /\ (In (u, o) (mops s) \/ (~ In u (keys (mops s)) /\ (u = eid x \/ u = eid y))).
Proof.
  induction st as [|h st IH]; intros ops eqs u o I; [left; exact I|]. cbn [fold_left] in I.
  assert (L : forall ops' eqs', In (u, o) (fst (fold_left run_step st (ops', eqs'))) ->
    In (u, o) ops' \/ (exists x, (In (StA x) (h :: st) \/ In (StB x) (h :: st)) /\ u = eid x /\ o = OAdd) \/
    exists x y o' s, In (StM x y o' s) (h :: st) /\ (In (u, o) (mops s) \/ (~ In u (keys (mops s)) /\ (u = eid x \/ u = eid y)))).
  { intros ops' eqs' J. destruct (IH ops' eqs' u o J) as [J'|[(x & J1 & J2)|(x & y & o' & s & J1 & J2)]]; [auto| |].
    - right. left. exists x. split; [|exact J2]. destruct J1; [left|right]; right; assumption.
    - right. right. exists x, y, o', s. split; [right; exact J1|exact J2]. }
  destruct h as [x|y|x y o' s]; cbn [run_step] in I; apply L in I; destruct I as [I|I]; auto.
  - apply mset_In in I. destruct I as [[-> ->]|[_ I]]; [|auto]. right. left. exists x. split; [left; left; reflexivity|auto].
  - apply mset_In in I. destruct I as [[-> ->]|[_ I]]; [|auto]. right. left. exists y. split; [right; left; reflexivity|auto].
  - apply msets_In_back in I. destruct I as [I|[NI I]].
    + right. right. exists x, y, o', s. split; [left; reflexivity|auto].
    + apply mset_In in I. destruct I as [[-> ->]|[_ I]].
      * right. right. exists x, y, o', s. split; [left; reflexivity|auto].
      * apply mset_In in I. destruct I as [[-> ->]|[_ I]]; [|auto]. right. right. exists x, y, o', s. split; [left; reflexivity|auto].
Qed.

Lemma route_In R la lb st : route R la lb st ->
  (forall x, In (StA x) st -> In x la) /\ (forall y, In (StB y) st -> In y lb) /\
  (forall x y o s, In (StM x y o s) st -> R x y s /\ In x la /\ In y lb).
Proof.
  assert (IA : forall (l : list elem) x y, In x l -> In x (l ++ [y])) by (intros; apply in_or_app; auto).
  assert (IB : forall (l : list elem) y, In y (l ++ [y])) by (intros; apply in_or_app; right; left; reflexivity).
  induction 1 as [|la lb x st RT (A & B & C)|la lb y st RT (A & B & C)|la lb x y o s st RT (A & B & C) HR].
  - repeat split; intros; contradiction.
  - split; [|split].
    + intros z [[= <-]|I]; auto.
    + intros z [Q|I]; [discriminate|auto].
    + intros z w o s [Q|I]; [discriminate|]. destruct (C z w o s I) as (D & E & F). auto.
  - split; [|split].
    + intros z [Q|I]; [discriminate|auto].
    + intros z [[= <-]|I]; auto.
    + intros z w o s [Q|I]; [discriminate|]. destruct (C z w o s I) as (D & E & F). auto.
  - split; [|split].
    + intros z [Q|I]; [discriminate|auto].
    + intros z [Q|I]; [discriminate|auto].
    + intros z w o' s' [[= <- <- <- <-]|I]; [auto|]. destruct (C z w o' s' I) as (D & E & F). auto.
Qed.

Lemma same_type_sym p q : same_type p q = same_type q p.
Proof. unfold same_type. apply Bool.eq_iff_eq_true. rewrite !beqb_eq. split; congruence. Qed.

Lemma score0_false : score0 = false.
Proof. vm_compute. reflexivity. Qed.

Lemma scored_marks a b st r : (st = true -> r = true -> False) -> forall x y, Marked x y (scored r a b st).
Proof.
  intros H x y u I. exfalso. unfold scored in I. cbn [mops] in I. apply mset_In in I.
  assert (Q : (if st then if r then OEqu else OMod else OAdd) <> OEqu) by (destruct st; destruct r; try discriminate; intros _; apply H; reflexivity).
  destruct I as [[_ E]|[_ I]]; [congruence|]. apply mset_In in I. destruct I as [[_ E]|[_ []]]. congruence.
Qed.
Lemma manual_marks c o : forall x y, Marked x y (manual c o).
Proof.
  intros x y u I. exfalso. unfold manual in I. cbn [mops] in I. apply mset_In in I. destruct I as [[_ E]|[_ I]]; [discriminate|].
  apply mset_In in I. destruct I as [[_ E]|[_ []]]. discriminate.
Qed.

Lemma keys_mset {B} k (w : B) l u : In u (keys (mset k w l)) <-> u = k \/ In u (keys l).
Proof.
  unfold keys. rewrite !in_map_iff. split.
  - intros ([u' v] & E & I). cbn in E. subst u'. apply mset_In in I. destruct I as [[-> _]|[_ I]]; [auto|]. right. exists (u, v). auto.
  - intros [->|([u' v] & E & I)].
    + exists (k, w). split; [reflexivity|]. left. reflexivity.
    + cbn in E. subst u'. destruct (Z.eq_dec u k) as [->|NE]; [exists (k, w); split; [reflexivity|left; reflexivity]|].
      exists (u, v). split; [reflexivity|]. apply mset_In. auto.
Qed.

Lemma scored_keys r a b st u : In u (keys (mops (scored r a b st))) <-> u = a \/ u = b.
Proof. unfold scored. cbn [mops]. rewrite !keys_mset. cbn. tauto. Qed.
Lemma manual_keys c o u : In u (keys (mops (manual c o))) <-> u = o \/ u = nid c.
Proof. unfold manual. cbn [mops]. rewrite !keys_mset. cbn. tauto. Qed.
Lemma nid_in n : In (nid n) (ids n).
Proof. rewrite ids_children. left. reflexivity. Qed.

Lemma build_marks : forall a b m, fits_memory a -> fits_memory b -> NoDup (ids a ++ ids b) -> build a b = inl m -> MarkN a b m.
Proof.
  induction a as [a IH] using node_children_ind. intros b m FA FB N H.
  assert (II : forall u, u = nid a \/ u = nid b -> In u (ids a ++ ids b)).
  { intros u [->| ->]; apply in_or_app; [left|right]; apply nid_in. }
  destruct (is_container a) eqn:CA.
  2:{ destruct a as [ma pa| |]; try discriminate. cbn [build] in H. destruct b as [mb pb|mb lb|mb lb]; injection H as <-.
      - split; [intros u I; apply scored_keys in I; apply II; exact I|]. split; [apply scored_keys; auto|]. split; [apply scored_keys; auto|].
        destruct (same_type pa pb) eqn:ST; [|apply scored_marks; discriminate].
        destruct (score_similar (levenshteinPercent (prim_string pa) (prim_string pb))) eqn:SC; [|apply scored_marks; discriminate].
        assert (NE : mid ma <> mid mb).
        { intros E. apply (NoDup_app_not _ _ (mid ma) N); [left; reflexivity|]. rewrite E. left. reflexivity. }
        intros u I. split.
        + intros p [[= <- <-]|[]]. exists (mid mb), pb. split; [left; reflexivity|]. split; [left; reflexivity|]. split; assumption.
        + intros q [[= <- <-]|[]]. exists (mid ma), pa. split; [left; reflexivity|]. split; [left; reflexivity|]. split; assumption.
      - split; [intros u I; apply manual_keys in I; apply II; cbn; tauto|]. split; [apply manual_keys; auto|]. split; [apply manual_keys; auto|apply manual_marks].
      - split; [intros u I; apply manual_keys in I; apply II; cbn; tauto|]. split; [apply manual_keys; auto|]. split; [apply manual_keys; auto|apply manual_marks]. }
  destruct (is_container b) eqn:CB.
  2:{ destruct b as [mb pb| |]; try discriminate. destruct a; [discriminate| |]; cbn [build is_container] in H; injection H as <-;
      (split; [intros u I; apply manual_keys in I; apply II; tauto|]; split; [apply manual_keys; auto|]; split; [apply manual_keys; auto|apply manual_marks]). }
  pose proof (NoDup_app_l _ _ N) as Na. pose proof (NoDup_app_r _ _ N) as Nb.
  destruct (container_shape a b m CA CB FA FB N H) as [(_ & ->)|(_ & st & ops & eqs & RT & RUN & EM & NK & K)].
  { split; [|split; [|split]].
    - intros u I. cbn [mops] in I. rewrite !keys_mset in I. apply II. destruct I as [I|[I|[]]]; auto.
    - cbn [mops]. rewrite !keys_mset. auto.
    - cbn [mops]. rewrite !keys_mset. auto.
    - intros u I. exfalso. cbn [mops] in I. apply mset_In in I. destruct I as [[_ E]|[_ I]]; [discriminate|]. apply mset_In in I. destruct I as [[_ E]|[_ []]]. discriminate. }
  destruct (route_In _ _ _ _ RT) as (RA & RB & RM).
  assert (CHA : forall x u, In x (children a) -> In u (eids x) -> In u (ids a) /\ u <> nid a) by (intros x u I; apply child_ids; auto).
  assert (CHB : forall x u, In x (children b) -> In u (eids x) -> In u (ids b) /\ u <> nid b) by (intros x u I; apply child_ids; auto).
  assert (HM : forall x y s, pair x y = inl s -> In x (children a) -> In y (children b) -> MarkE x y s).
  { intros x y s P I1 I2. destruct (NoDup_sub_nodes a b x y N I1 I2) as [NE ND].
    assert (IE : forall u, u = eid x \/ u = eid y -> In u (eids x ++ eids y)).
    { intros u [->| ->]; apply in_or_app; [left|right]; apply eid_in. }
    destruct x as [xa|mx kx xv]; destruct y as [yb|my ky yv]; cbn [pair node_with entry_with sub_nodes eid] in *.
    - destruct (IH _ I1 yb s (fits_child _ _ _ FA I1) (fits_child _ _ _ FB I2) ND P) as (A & B & C & D).
      split; [rewrite !eids_node; exact A|]. split; [left; auto|exact D].
    - destruct (is_container xa); injection P as <-.
      + split; [intros u I; apply manual_keys in I; apply IE; tauto|]. split; [left; split; apply manual_keys; auto|apply manual_marks].
      + split; [intros u I; apply scored_keys in I; apply IE; tauto|]. split; [left; split; apply scored_keys; auto|apply scored_marks; discriminate].
    - destruct (is_container yb); injection P as <-.
      + split; [intros u I; apply manual_keys in I; apply IE; tauto|]. split; [left; split; apply manual_keys; auto|apply manual_marks].
      + split; [intros u I; apply scored_keys in I; apply IE; tauto|]. split; [left; split; apply scored_keys; auto|apply scored_marks; discriminate].
    - destruct (beqb kx ky).
      + destruct (IH _ I1 yv s (fits_child _ _ _ FA I1) (fits_child _ _ _ FB I2) ND P) as (A & B & C & D). cbn [sub_nodes] in A, D.
        split; [|split; [right|exact D]].
        * intros u I. apply A in I. rewrite !eids_entry. apply in_app_or in I. apply in_or_app. destruct I; [left|right]; right; assumption.
        * rewrite !eids_entry in NE. split; [|split; [|split; discriminate]].
          -- intros E. cbn [eid sub_nodes] in E. pose proof (NoDup_app_l _ _ NE) as Q. inversion_clear Q as [|? ? Q1 _]. apply Q1. rewrite E. apply nid_in.
          -- intros E. cbn [eid sub_nodes] in E. pose proof (NoDup_app_r _ _ NE) as Q. inversion_clear Q as [|? ? Q1 _]. apply Q1. rewrite E. apply nid_in.
      + injection P as <-. split; [intros u I; apply scored_keys in I; apply IE; tauto|]. split; [left; split; apply scored_keys; auto|apply scored_marks].
        intros _. rewrite score0_false. discriminate. }
  assert (OPS : forall u o, In (u, o) ops -> (exists x, (In x (children a) \/ In x (children b)) /\ u = eid x /\ o = OAdd) \/
    exists x y o' s, In (StM x y o' s) st /\ (In (u, o) (mops s) \/ (~ In u (keys (mops s)) /\ (u = eid x \/ u = eid y)))).
  { intros u o I. pose proof (run_ops st [] [] u o) as Q. rewrite RUN in Q. destruct (Q I) as [[]|[(x & J & E)|J]]; [left|right; exact J].
    exists x. split; [|exact E]. destruct J; auto. }
  assert (MO : mops m = mset (nid a) OEqu (mset (nid b) OEqu ops)) by (rewrite EM; reflexivity).
  split; [|split; [|split]].
  - rewrite MO. intros u I. rewrite !keys_mset in I. destruct I as [I|[I|I]]; [apply II; auto|apply II; auto|].
    unfold keys in I. apply in_map_iff in I. destruct I as ([u' o] & E & I). cbn in E. subst u'. apply in_or_app.
    destruct (OPS u o I) as [(x & [J|J] & -> & _)|(x & y & o' & s & J & K2)].
    + left. apply (CHA x); [exact J|apply eid_in].
    + right. apply (CHB x); [exact J|apply eid_in].
    + destruct (RM x y o' s J) as (((P & I1 & I2) & _) & _). destruct (HM x y s P I1 I2) as (A & _).
      destruct K2 as [K2|[_ [->| ->]]].
      * apply keys_In, A, in_app_or in K2. destruct K2; [left; eapply CHA; eauto|right; eapply CHB; eauto].
      * left. apply (CHA x); [exact I1|apply eid_in].
      * right. apply (CHB y); [exact I2|apply eid_in].
  - rewrite MO. rewrite !keys_mset. auto.
  - rewrite MO. rewrite !keys_mset. auto.
  - assert (NSA : forall p, ~ In (nid a, p) (scalars a)).
    { intros p I. rewrite (scalars_children a CA) in I. apply in_flat_map in I. destruct I as (x & I1 & I2). apply scalar_id, sub_ids_in in I2.
      destruct (CHA x (nid a) I1 I2) as [_ Q]. congruence. }
    assert (NSB : forall p, ~ In (nid b, p) (scalars b)).
    { intros p I. rewrite (scalars_children b CB) in I. apply in_flat_map in I. destruct I as (x & I1 & I2). apply scalar_id, sub_ids_in in I2.
      destruct (CHB x (nid b) I1 I2) as [_ Q]. congruence. }
    assert (NEN : forall x p n, (n = a \/ n = b) -> In x (children n) -> eid x <> nid (sub_nodes x) -> x <> ENode (sub_nodes x) -> ~ In (eid x, p) (scalars n)).
    { intros x p n Hn I1 NE NX Q.
      assert (NDn : NoDup (ids n)) by (destruct Hn as [->| ->]; assumption). assert (Cn : is_container n = true) by (destruct Hn as [->| ->]; assumption).
      apply (scalar_in_child n x) in Q; auto; [|apply eid_in]. apply scalar_id in Q.
      destruct x as [xa|mx kx xv]; [cbn in NX; congruence|]. cbn [eid sub_nodes] in *.
      destruct (child_ids n _ I1 NDn) as [Q2 _]. rewrite eids_entry in Q2. inversion_clear Q2. contradiction. }
    assert (DA : forall u, In u (ids a) -> In u (ids b) -> False) by (intros u; apply NoDup_app_not; exact N).
    intros u I. rewrite MO in I. apply mset_In in I. destruct I as [[-> _]|[_ I]]; [|apply mset_In in I; destruct I as [[-> _]|[_ I]]].
    + split; [intros p Q; destruct (NSA p Q)|]. intros q Q. apply scalar_id in Q. destruct (DA (nid a) (nid_in a) Q).
    + split; [|intros p Q; destruct (NSB p Q)]. intros q Q. apply scalar_id in Q. destruct (DA (nid b) Q (nid_in b)).
    + destruct (OPS u OEqu I) as [(x & _ & _ & E)|(x & y & o' & s & J & K2)]; [discriminate|].
      destruct (RM x y o' s J) as (((P & I1 & I2) & _) & _). destruct (HM x y s P I1 I2) as (A & B & C).
      assert (COL : forall u v, In (u, v) (meqv s) -> In (u, v) (meqv m)).
      { intros p q Q. apply K. right. right. exists x, y, o', s. auto. }
      destruct K2 as [K2|[K2 E]].
      * assert (SA : forall p, In (u, p) (scalars a) -> In (u, p) (scalars (sub_nodes x))).
        { intros p Q. apply (scalar_in_child a); auto. pose proof (keys_In _ _ _ K2) as Q2. apply A, in_app_or in Q2. destruct Q2 as [Q2|Q2]; [exact Q2|].
          exfalso. apply (DA u); [eapply scalar_id; eauto|apply (CHB y u I2 Q2)]. }
        assert (SB : forall p, In (u, p) (scalars b) -> In (u, p) (scalars (sub_nodes y))).
        { intros p Q. apply (scalar_in_child b); auto. pose proof (keys_In _ _ _ K2) as Q2. apply A, in_app_or in Q2. destruct Q2 as [Q2|Q2]; [|exact Q2].
          exfalso. apply (DA u); [apply (CHA x u I1 Q2)|eapply scalar_id; eauto]. }
        destruct (C u K2) as [C1 C2]. split.
        -- intros p Q. destruct (C1 p (SA p Q)) as (v & q & V & M & AL). exists v, q. split; [|auto]. rewrite (scalars_children b CB). apply in_flat_map. eauto.
        -- intros p Q. destruct (C2 p (SB p Q)) as (v & q & V & M & AL). exists v, q. split; [|auto]. rewrite (scalars_children a CA). apply in_flat_map. eauto.
      * destruct B as [[B1 B2]|(B1 & B2 & B3 & B4)]; [destruct E; subst u; contradiction|].
        split; intros p Q; exfalso; destruct E as [->| ->].
        -- exact (NEN x p a (or_introl eq_refl) I1 B1 B3 Q).
        -- apply scalar_id in Q. apply (DA (eid y) Q). apply (CHB y); [exact I2|apply eid_in].
        -- apply scalar_id in Q. apply (DA (eid x)); [|exact Q]. apply (CHA x); [exact I1|apply eid_in].
        -- exact (NEN y p b (or_intror eq_refl) I2 B2 B4 Q).
Qed.

Lemma shown_In m u : shown_op m u = OEqu -> In (u, OEqu) (mops m).
Proof.
  unfold shown_op, mget. pose proof (find_spec (fun p => fst p =? u) (mops m)) as F. destruct (find _ (mops m)) as [[u' o]|]; [|discriminate].
  cbn [option_map snd]. intros ->. destruct F as [I E]. cbn in E. apply Z.eqb_eq in E. subst u'. exact I.
Qed.

(** A scalar marked '=' has a partner of its type whose text scores above 0.7. *)
Lemma equal_scalars a b m u p : fits_memory a -> fits_memory b -> NoDup (ids a ++ ids b) -> build a b = inl m ->
  shown_op m u = OEqu ->
  (In (u, p) (scalars a) -> exists v q, In (v, q) (scalars b) /\ getEquivalence m u = Some v /\ alike p q) /\
  (In (u, p) (scalars b) -> exists v q, In (v, q) (scalars a) /\ getEquivalence m u = Some v /\ alike q p).
Proof.
  intros FA FB N H S. apply shown_In in S. destruct (build_marks a b m FA FB N H) as (_ & _ & _ & M). destruct (M u S) as [M1 M2]. split; intros I.
  - destruct (M1 p I) as (v & q & V & E & A). exists v, q. split; [exact V|]. split; [|exact A]. apply (meqv_found a b m u v); auto.
  - destruct (M2 p I) as (v & q & V & E & A). exists v, q. split; [exact V|]. split; [|exact A]. apply (meqv_found a b m v u); auto.
Qed.

(** The mark of two containers compared. *)
Lemma root_mark a b m : is_container a = true -> is_container b = true -> fits_memory a -> fits_memory b -> NoDup (ids a ++ ids b) -> build a b = inl m ->
  let o := if mresult m / Z.max (Z.of_nat (length (children a))) (Z.of_nat (length (children b))) =? 1 then OAdd else OEqu in
  shown_op m (nid a) = o /\ shown_op m (nid b) = o.
Proof.
  intros CA CB FA FB N H o.
  assert (NE : nid a <> nid b) by (intros E; apply (NoDup_app_not _ _ (nid a) N); [apply nid_in|rewrite E; apply nid_in]).
  assert (G : forall k (w w' : op) k' l, mget k (mset k w l) = Some w /\ (k <> k' -> mget k (mset k' w' (mset k w l)) = Some w)).
  { intros k w w' k' l. unfold mget, mset. cbn [find fst filter]. rewrite Z.eqb_refl. split; [reflexivity|]. intros D.
    replace (k' =? k) with false by lia. replace (k =? k') with false by lia. cbn [negb find fst]. rewrite Z.eqb_refl. reflexivity. }
  unfold o. destruct (container_shape a b m CA CB FA FB N H) as [(D & EM)|(D & st & ops & eqs & _ & _ & EM & _)].
  - rewrite D. cbn [Z.eqb]. unfold shown_op. rewrite EM. cbn [mops].
    destruct (G (nid b) OAdd OAdd (nid a) (mset (nid a) OAdd [])) as [-> _]. destruct (G (nid a) OAdd OAdd (nid b) []) as [_ ->]; auto.
  - apply Z.eqb_neq in D. rewrite D. unfold shown_op. rewrite EM. cbn [mops].
    destruct (G (nid a) OEqu OEqu (nid b) (mset (nid b) OEqu ops)) as [-> _]. destruct (G (nid b) OEqu OEqu (nid a) ops) as [_ ->]; auto.
Qed.

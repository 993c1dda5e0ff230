From Verif Require Export Spec.TreeSpec Proofs.ParserBase.
Open Scope Z_scope.

(** * Induction principles *)
Lemma tree_ind' (P : tree -> Prop) :
  (forall p, P (TPrim p)) ->
  (forall l, Forall P l -> P (TArr l)) ->
  (forall l, Forall (fun kv => P (snd kv)) l -> P (TObj l)) ->
  forall t, P t.
Proof.
  intros H1 H2 H3. fix IH 1. intros [p|l|l].
  - apply H1.
  - apply H2. induction l as [|t l IHl]; constructor; [apply IH|exact IHl].
  - apply H3. induction l as [|[k t] l IHl]; constructor; [apply IH|exact IHl].
Qed.

Lemma node_ind' (P : node -> Prop) :
  (forall m p, P (NPrim m p)) ->
  (forall m l, Forall P l -> P (NArr m l)) ->
  (forall m l, Forall (fun x => P (snd x)) l -> P (NObj m l)) ->
  forall n, P n.
Proof.
  intros H1 H2 H3. fix IH 1. intros [m p|m l|m l].
  - apply H1.
  - apply H2. induction l as [|t l IHl]; constructor; [apply IH|exact IHl].
  - apply H3. induction l as [|[k t] l IHl]; constructor; [apply IH|exact IHl].
Qed.

(** * Byte order *)
Lemma uchar_inj x y : uchar x = uchar y -> x = y.
Proof.
  unfold uchar. intros H. apply N2Z.inj in H.
  rewrite <- (ascii_N_embedding x), <- (ascii_N_embedding y). f_equal. exact H.
Qed.

Lemma uchar_range c : 0 <= uchar c < 256.
Proof. unfold uchar. pose proof (N_ascii_bounded c). lia. Qed.

Lemma bltb_spec a : forall b, bltb a b = true <-> byte_lt a b.
Proof.
  induction a as [|x a IH]; intros b.
  - destruct b as [|y b]; simpl.
    + split; [discriminate|]. intros [(x & c & E)|(p & x & y & a' & b' & E & _)].
      * destruct c; discriminate.
      * destruct p; discriminate.
    + split; [|reflexivity]. intros _. left. exists y, b. reflexivity.
  - destruct b as [|y b]; simpl.
    + split; [discriminate|]. intros [(z & c & E)|(p & z & y & a' & b' & _ & E & _)].
      * discriminate.
      * destruct p; discriminate.
    + destruct (uchar x <? uchar y) eqn:E1.
      * split; [|reflexivity]. intros _. right. exists [], x, y, a, b. repeat split. lia.
      * destruct (uchar y <? uchar x) eqn:E2.
        -- split; [discriminate|].
           intros [(z & c & E)|(p & z & w & a' & b' & Ea & Eb & L)].
           ++ injection E as E3 _. subst. lia.
           ++ destruct p as [|q p]; simpl in Ea, Eb.
              ** injection Ea as -> _. injection Eb as -> _. lia.
              ** injection Ea as -> _. injection Eb as E3 _. subst. lia.
        -- assert (x = y) by (apply uchar_inj; lia). subst y. rewrite IH. split.
           ++ intros [(z & c & ->)|(p & z & w & a' & b' & -> & -> & L)].
              ** left. exists z, c. reflexivity.
              ** right. exists (x :: p), z, w, a', b'. auto.
           ++ intros [(z & c & E)|(p & z & w & a' & b' & Ea & Eb & L)].
              ** injection E as ->. left. exists z, c. reflexivity.
              ** destruct p as [|q p]; simpl in Ea, Eb.
                 --- injection Ea as -> _. injection Eb as -> _. lia.
                 --- injection Ea as -> ->. injection Eb as ->. right. exists p, z, w, a', b'. auto.
Qed.

Lemma bltb_irrefl a : bltb a a = false.
Proof. induction a as [|x a IH]; simpl; [reflexivity|]. rewrite Z.ltb_irrefl. exact IH. Qed.

Lemma bltb_trans a : forall b c, bltb a b = true -> bltb b c = true -> bltb a c = true.
Proof.
  induction a as [|x a IH]; intros [|y b] [|z c]; simpl; try discriminate; auto.
  destruct (uchar x <? uchar y) eqn:E1; destruct (uchar y <? uchar z) eqn:E2;
  destruct (uchar y <? uchar x) eqn:E3; destruct (uchar z <? uchar y) eqn:E4;
  destruct (uchar x <? uchar z) eqn:E5; destruct (uchar z <? uchar x) eqn:E6; try discriminate; try lia; eauto.
Qed.

Lemma bltb_total a : forall b, bltb a b = false -> a <> b -> bltb b a = true.
Proof.
  induction a as [|x a IH]; intros [|y b]; simpl; try discriminate; try congruence.
  destruct (uchar x <? uchar y) eqn:E1; [discriminate|].
  destruct (uchar y <? uchar x) eqn:E2; [reflexivity|].
  assert (x = y) by (apply uchar_inj; lia). subst y. intros H N. apply IH; [exact H|congruence].
Qed.

Lemma byte_lt_trans a b c : byte_lt a b -> byte_lt b c -> byte_lt a c.
Proof. rewrite <- !bltb_spec. apply bltb_trans. Qed.

Lemma byte_lt_irrefl a : ~ byte_lt a a.
Proof. rewrite <- bltb_spec, bltb_irrefl. discriminate. Qed.

Lemma byte_lt_total a b : ~ byte_lt a b -> a <> b -> byte_lt b a.
Proof. rewrite <- !bltb_spec. intros H N. apply bltb_total; [destruct (bltb a b); congruence|exact N]. Qed.

(** * Entries of an object *)
Section Entries.
  Context {V : Type} (key : V -> bytes).

  Lemma obj_contains_spec k l : obj_contains key k l = true <-> In k (map key l).
  Proof.
    unfold obj_contains. rewrite existsb_exists, in_map_iff. split.
    - intros (x & H1 & H2). apply beqb_eq in H2. eauto.
    - intros (x & H1 & H2). exists x. split; [exact H2|]. apply beqb_eq. exact H1.
  Qed.

  Lemma obj_contains_false k l : obj_contains key k l = false -> ~ In k (map key l).
  Proof. intros H Q. apply obj_contains_spec in Q. congruence. Qed.

  Lemma obj_erase_incl k l : incl (obj_erase key k l) l.
  Proof.
    induction l as [|x l IH]; intros y; simpl; [tauto|].
    destruct (beqb (key x) k); simpl; [tauto|]. intros [->|H]; [auto|right; apply IH, H].
  Qed.

  Lemma obj_erase_Forall (P : V -> Prop) k l : Forall P l -> Forall P (obj_erase key k l).
  Proof. rewrite !Forall_forall. intros H x Hx. apply H. eapply obj_erase_incl; eauto. Qed.

  Lemma obj_erase_keys k l : NoDup (map key l) ->
    NoDup (map key (obj_erase key k l)) /\ ~ In k (map key (obj_erase key k l)).
  Proof.
    induction l as [|x l IH]; simpl; intros H; [split; [constructor|tauto]|].
    inversion_clear H as [|? ? H1 H2]. destruct (beqb (key x) k) eqn:E.
    - apply beqb_eq in E. subst k. auto.
    - apply beqb_neq in E. destruct (IH H2) as [H3 H4]. simpl. split.
      + constructor; [|exact H3]. intros Q. apply H1. apply in_map_iff in Q. destruct Q as (y & <- & Q).
        apply in_map. eapply obj_erase_incl; eauto.
      + intros [Q|Q]; [congruence|tauto].
  Qed.

  Lemma obj_erase_sorted R k l : StronglySorted R (map key l) -> StronglySorted R (map key (obj_erase key k l)).
  Proof.
    induction l as [|x l IH]; simpl; intros H; [constructor|].
    inversion_clear H as [|? ? H1 H2]. destruct (beqb (key x) k) eqn:E; [exact H1|].
    simpl. constructor; [auto|]. rewrite Forall_forall in *. intros y Hy. apply H2.
    apply in_map_iff in Hy. destruct Hy as (z & <- & Hz). apply in_map. eapply obj_erase_incl; eauto.
  Qed.

  Lemma obj_push_perm sorted x l : Permutation (x :: l) (obj_push key sorted x l).
  Proof.
    unfold obj_push. destruct sorted.
    - induction l as [|y l IH]; simpl; [reflexivity|].
      destruct (bltb (key y) (key x)); [|reflexivity].
      rewrite perm_swap. constructor. exact IH.
    - apply Permutation_cons_append.
  Qed.

  Lemma obj_push_sorted_ok x l : ~ In (key x) (map key l) -> StronglySorted byte_lt (map key l) ->
    StronglySorted byte_lt (map key (obj_push_sorted key x l)).
  Proof.
    induction l as [|y l IH]; intros N H; simpl; [constructor; constructor|].
    inversion_clear H as [|? ? H1 H2]. destruct (bltb (key y) (key x)) eqn:E.
    - simpl. constructor; [apply IH; simpl in N; tauto|].
      apply bltb_spec in E. rewrite Forall_forall in *. intros k Hk.
      assert (P : Permutation (x :: l) (obj_push key true x l)) by apply obj_push_perm.
      apply (Permutation_map key) in P. apply Permutation_sym in P.
      apply (Permutation_in _ P) in Hk. destruct Hk as [<-|Hk]; auto.
    - simpl in *. assert (L : byte_lt (key x) (key y)).
      { apply byte_lt_total; [rewrite <- bltb_spec; congruence|]. intros Q. apply N. auto. }
      constructor; [constructor; auto|]. constructor; [exact L|].
      rewrite Forall_forall in *. intros k Hk. eapply byte_lt_trans; eauto.
  Qed.
End Entries.

(** * Identities *)
Lemma map_flat_map {A B C} (f : B -> C) (g : A -> list B) l :
  map f (flat_map g l) = flat_map (fun x => map f (g x)) l.
Proof. induction l; simpl; [reflexivity|]. rewrite map_app. congruence. Qed.

Lemma flat_map_ext_Forall {A B} (f g : A -> list B) l :
  Forall (fun x => f x = g x) l -> flat_map f l = flat_map g l.
Proof. induction 1; simpl; congruence. Qed.

Lemma elements_ids_depth n : forall d, map (fun x => mid (fst x)) (elements d n) = ids n.
Proof.
  unfold ids. induction n using node_ind'; intros d; simpl; [reflexivity| |].
  - f_equal. rewrite !map_flat_map. apply flat_map_ext_Forall.
    eapply Forall_impl; [|exact H]. intros a Ha. rewrite Ha, (Ha 2%nat). reflexivity.
  - f_equal. rewrite !map_flat_map. apply flat_map_ext_Forall.
    eapply Forall_impl; [|exact H]. intros a Ha. simpl. f_equal. rewrite Ha, (Ha 3%nat). reflexivity.
Qed.

Lemma ids_arr m l : ids (NArr m l) = mid m :: flat_map ids l.
Proof.
  unfold ids at 1. simpl. f_equal. rewrite map_flat_map. apply flat_map_ext_Forall.
  apply Forall_forall. intros. apply elements_ids_depth.
Qed.

Definition eids (x : meta * bytes * node) : list Z := mid (fst (fst x)) :: ids (snd x).

Lemma ids_obj m l : ids (NObj m l) = mid m :: flat_map eids l.
Proof.
  unfold ids at 1. simpl. f_equal. rewrite map_flat_map. apply flat_map_ext_Forall.
  apply Forall_forall. intros. simpl. unfold eids. f_equal. apply elements_ids_depth.
Qed.

Lemma ids_set_parent p n : ids (set_parent p n) = ids n.
Proof. destruct n; [reflexivity| |]; simpl; [rewrite !ids_arr|rewrite !ids_obj]; reflexivity. Qed.

Lemma erase_set_parent p n : erase (set_parent p n) = erase n.
Proof. destruct n; reflexivity. Qed.

Lemma linked_set_parent p q n : linked p n -> linked (Some q) (set_parent q n).
Proof. destruct 1; simpl; constructor; auto. Qed.

Lemma Permutation_flat_map' {A B} (f : A -> list B) l l' :
  Permutation l l' -> Permutation (flat_map f l) (flat_map f l').
Proof.
  induction 1; simpl; auto.
  - apply Permutation_app_head. auto.
  - rewrite !app_assoc. apply Permutation_app_tail. apply Permutation_app_comm.
  - eapply perm_trans; eauto.
Qed.

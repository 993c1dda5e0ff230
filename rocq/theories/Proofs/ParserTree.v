(** Invariants of the tree built by the reader: distinct keys, sorted keys,
    consistent parents, distinct identities. *)
From Verif Require Export Model.Element Proofs.ParserShape Proofs.TreeProofs.
Open Scope Z_scope.

Definition fresh_in (lo hi : Z) (l : list Z) : Prop := Forall (fun i => lo <= i < hi) l /\ NoDup l.

Lemma NoDup_app_remove_l {A} (l l' : list A) : NoDup (l ++ l') -> NoDup l'.
Proof. induction l; simpl; [auto|]. intros H. apply IHl. inversion_clear H; auto. Qed.
Lemma NoDup_app_remove_r {A} (l l' : list A) : NoDup (l ++ l') -> NoDup l.
Proof.
  induction l; simpl; [constructor|]. intros H. inversion_clear H as [|? ? H1 H2].
  constructor; [|auto]. intros Q. apply H1, in_app_iff. auto.
Qed.

Lemma fresh_in_app lo mi hi a b : lo <= mi <= hi -> fresh_in lo mi a -> fresh_in mi hi b -> fresh_in lo hi (a ++ b).
Proof.
  intros L [A1 A2] [B1 B2]. rewrite Forall_forall in A1, B1. split.
  - apply Forall_forall. intros x Hx. apply in_app_iff in Hx.
    destruct Hx as [Hx|Hx]; [apply A1 in Hx|apply B1 in Hx]; lia.
  - revert A1. induction A2 as [|x a Hx A2 IH]; intros A1; [exact B2|]. simpl. constructor.
    + intros Q. apply in_app_iff in Q. destruct Q as [Q|Q]; [tauto|].
      apply B1 in Q. specialize (A1 x (or_introl eq_refl)). lia.
    + apply IH. intros. apply A1. right; auto.
Qed.

Lemma fresh_in_perm lo hi a b : Permutation a b -> fresh_in lo hi a -> fresh_in lo hi b.
Proof.
  intros P [H1 H2]. split; [|eapply Permutation_NoDup; eauto].
  rewrite Forall_forall in *. intros x Hx. apply H1. eapply Permutation_in; [apply Permutation_sym, P|exact Hx].
Qed.

Lemma fresh_in_weak lo hi lo' hi' a : lo' <= lo -> hi <= hi' -> fresh_in lo hi a -> fresh_in lo' hi' a.
Proof. intros L1 L2 [H1 H2]. split; [|exact H2]. eapply Forall_impl; [|exact H1]. simpl. intros. lia. Qed.

Lemma fresh_in_one i : fresh_in i (i + 1) [i].
Proof. split; [repeat constructor; lia|repeat constructor; auto]. Qed.

Lemma fresh_in_sub lo hi a b : (forall x, In x b -> In x a) -> NoDup b -> fresh_in lo hi a -> fresh_in lo hi b.
Proof. intros S N [H1 H2]. split; [|exact N]. rewrite Forall_forall in *. auto. Qed.

Section Tree.
  Variable e : env.
  Variable params : option cfg.

  (** Keys are distinct, and sorted when sorting is on. *)
  Definition keys_ok (ks : list bytes) : Prop :=
    NoDup ks /\ (sorts params = true -> StronglySorted byte_lt ks).

  Definition node_ok (parent : option Z) (lo hi : Z) (n : node) : Prop :=
    linked parent n /\ fresh_in lo hi (ids n) /\ all_objects keys_ok (erase n).

  Definition node_post (parent : option Z) (s : st) (n : node) (s' : st) : Prop :=
    nextid s <= nextid s' /\ node_ok parent (nextid s) (nextid s') n.

  Definition entry_ok (mid0 : Z) (x : meta * bytes * node) : Prop :=
    (mpar (fst (fst x)) = Some mid0 /\ linked (Some (mid (fst (fst x)))) (snd x)) /\
    all_objects keys_ok (erase (snd x)).

  (** Object being filled. *)
  Definition obj_ok (parent : option Z) (lo hi : Z) (r : objpart) : Prop :=
    mpar (fst r) = parent /\ fresh_in lo hi (mid (fst r) :: flat_map eids (snd r)) /\
    Forall (entry_ok (mid (fst r))) (snd r) /\ keys_ok (map entry_key (snd r)).

  Definition arr_ok (parent : option Z) (lo hi : Z) (r : meta * list node) : Prop :=
    mpar (fst r) = parent /\ fresh_in lo hi (mid (fst r) :: flat_map ids (snd r)) /\
    Forall (fun n => linked (Some (mid (fst r))) n /\ all_objects keys_ok (erase n)) (snd r).

  Lemma obj_ok_node parent lo hi r : obj_ok parent lo hi r -> node_ok parent lo hi (NObj (fst r) (snd r)).
  Proof.
    destruct r as [m l]. intros (H1 & H2 & H3 & H4). simpl in *. repeat split.
    - constructor; [exact H1|]. eapply Forall_impl; [|exact H3]. intros x [Hx _]. exact Hx.
    - rewrite ids_obj. apply H2.
    - rewrite ids_obj. apply H2.
    - simpl. constructor.
      + rewrite map_map. simpl. exact H4.
      + apply Forall_map. eapply Forall_impl; [|exact H3]. intros x [_ Hx]. exact Hx.
  Qed.

  Lemma arr_ok_node parent lo hi r : arr_ok parent lo hi r -> node_ok parent lo hi (NArr (fst r) (snd r)).
  Proof.
    destruct r as [m l]. intros (H1 & H2 & H3). simpl in *. repeat split.
    - constructor; [exact H1|]. eapply Forall_impl; [|exact H3]. intros x [Hx _]. exact Hx.
    - rewrite ids_arr. apply H2.
    - rewrite ids_arr. apply H2.
    - simpl. constructor. apply Forall_map. eapply Forall_impl; [|exact H3]. intros x [_ Hx]. exact Hx.
  Qed.

  Lemma keys_nil_ok : keys_ok [].
  Proof. split; [constructor|]. intros _. constructor. Qed.

  Lemma empty_obj_ok i parent : obj_ok parent i (i + 1) (mkMeta i parent, []).
  Proof. split; [reflexivity|]. split; [apply fresh_in_one|]. split; [constructor|apply keys_nil_ok]. Qed.

  Lemma empty_arr_ok i parent : arr_ok parent i (i + 1) (mkMeta i parent, []).
  Proof. split; [reflexivity|]. split; [apply fresh_in_one|constructor]. Qed.

  Lemma obj_ok_weak parent lo hi hi' r : hi <= hi' -> obj_ok parent lo hi r -> obj_ok parent lo hi' r.
  Proof. intros L (H1 & H2 & H3 & H4). split; [auto|]. split; [|auto]. eapply fresh_in_weak; [| |exact H2]; lia. Qed.
  Lemma arr_ok_weak parent lo hi hi' r : hi <= hi' -> arr_ok parent lo hi r -> arr_ok parent lo hi' r.
  Proof. intros L (H1 & H2 & H3). split; [auto|]. split; [|auto]. eapply fresh_in_weak; [| |exact H2]; lia. Qed.

  Lemma obj_push_ok parent lo mi hi r i key p v :
    lo <= mi <= i -> i + 1 <= hi ->
    obj_ok parent lo mi r -> ~ In key (map entry_key (snd r)) -> node_ok p mi i v ->
    obj_ok parent lo hi
      (fst r, obj_push entry_key (sorts params) (mkMeta i (Some (mid (fst r))), key, set_parent i v) (snd r)).
  Proof.
    intros L1 L2 (H1 & H2 & H3 & H4 & H5) N (V1 & V2 & V3).
    set (x := (mkMeta i (Some (mid (fst r))), key, set_parent i v)).
    assert (P := obj_push_perm entry_key (sorts params) x (snd r)).
    split; [exact H1|]. split; [|split].
    - cbn [fst snd].
      eapply fresh_in_perm; [apply perm_skip, Permutation_flat_map', P|].
      cbn [flat_map]. eapply fresh_in_perm; [apply perm_skip, Permutation_app_comm|].
      rewrite app_comm_cons. eapply (fresh_in_app lo mi hi); [lia|exact H2|].
      unfold eids, x. cbn [fst snd mid]. rewrite ids_set_parent.
      eapply fresh_in_perm; [symmetry; apply Permutation_cons_append|].
      eapply (fresh_in_app mi i hi); [lia|exact V2|].
      eapply fresh_in_weak; [| |apply fresh_in_one]; lia.
    - cbn [fst snd]. eapply Permutation_Forall; [exact P|]. constructor; [|exact H3].
      split; [split; [reflexivity|]|]; cbn [fst snd mid x].
      + eapply linked_set_parent; eauto.
      + rewrite erase_set_parent. exact V3.
    - cbn [fst snd]. split.
      + eapply Permutation_NoDup; [apply Permutation_map, P|]. simpl. constructor; auto.
      + intros S. rewrite S. apply obj_push_sorted_ok; auto.
  Qed.

  Lemma open_object_ok lo parent result key s :
    (forall r, result = Some r -> obj_ok parent lo (nextid s) r) -> lo <= nextid s ->
    wp (open_object params parent result key)
       (fun r s' => nextid s <= nextid s' /\ obj_ok parent lo (nextid s') r /\ ~ In key (map entry_key (snd r)))
       anyfail s.
  Proof.
    intros H L. unfold open_object. destruct result as [[m l]|].
    - specialize (H _ eq_refl). destruct (obj_contains entry_key key l) eqn:C.
      + destruct (strict_keys params); [exact I|]. apply wp_warn, wp_ret. cbn [nextid].
        split; [lia|]. destruct H as (H1 & H2 & H3 & H4 & H5). cbn [fst snd] in *.
        destruct (obj_erase_keys entry_key key l H4) as [K1 K2].
        split; [|exact K2]. split; [exact H1|]. cbn [fst snd]. split; [|split].
        * eapply fresh_in_sub; [| |exact H2].
          -- intros x [Hx|Hx]; [left; exact Hx|right]. apply in_flat_map in Hx. destruct Hx as (y & Hy & Hx).
             apply in_flat_map. exists y. split; [eapply obj_erase_incl; eauto|exact Hx].
          -- destruct H2 as [_ H2]. revert H2. clear. induction l as [|x l IH]; intros H; [exact H|].
             cbn [flat_map obj_erase]. cbn [flat_map] in H. destruct (beqb (entry_key x) key).
             ++ apply NoDup_cons_iff in H. destruct H as [A B]. constructor.
                ** intros Q. apply A. apply in_app_iff. auto.
                ** apply NoDup_app_remove_l in B. exact B.
             ++ cbn [flat_map].
                assert (HH : NoDup (mid m :: flat_map eids l ++ eids x)).
                { eapply Permutation_NoDup; [apply perm_skip, Permutation_app_comm|exact H]. }
                assert (HI : NoDup (mid m :: flat_map eids (obj_erase entry_key key l))).
                { apply IH. rewrite app_comm_cons in HH. apply NoDup_app_remove_r in HH. exact HH. }
                eapply Permutation_NoDup; [apply perm_skip, Permutation_app_comm|].
                rewrite app_comm_cons in *. revert HH HI.
                assert (SUB : forall y, In y (mid m :: flat_map eids (obj_erase entry_key key l)) ->
                             In y (mid m :: flat_map eids l)).
                { intros y [Hy|Hy]; [left; exact Hy|right]. apply in_flat_map in Hy. destruct Hy as (z & Hz & Hy).
                  apply in_flat_map. exists z. split; [eapply obj_erase_incl; eauto|exact Hy]. }
                revert SUB. generalize (mid m :: flat_map eids (obj_erase entry_key key l)) as a.
                generalize (mid m :: flat_map eids l) as b. generalize (eids x) as c. clear.
                intros c b a S HB HA. induction HA as [|y a Hy HA IH]; simpl.
                ** apply NoDup_app_remove_l in HB. exact HB.
                ** constructor; [|apply IH; intros; apply S; right; auto].
                   rewrite in_app_iff. intros [Q|Q]; [tauto|].
                   assert (Hb : In y b) by (apply S; left; reflexivity).
                   clear -HB Q Hb. induction b as [|z b IH]; [contradiction|]. simpl in HB. inversion_clear HB as [|? ? B1 B2].
                   destruct Hb as [->|Hb]; [apply B1, in_app_iff; auto|auto].
        * apply obj_erase_Forall, H3.
        * split; [exact K1|]. intros S. apply obj_erase_sorted, H5, S.
      + apply wp_ret. split; [lia|]. split; [exact H|]. apply obj_contains_false, C.
    - apply wp_bind, wp_fresh, wp_ret. cbn [nextid]. split; [lia|]. split; [|simpl; tauto].
      destruct (empty_obj_ok (nextid s) parent) as (A & B & C). split; [exact A|]. split; [|exact C].
      eapply fresh_in_weak; [| |exact B]; lia.
  Qed.

  Definition elem_post (parent : option Z) (s : st) (r : option node) (s' : st) : Prop :=
    nextid s <= nextid s' /\ forall n, r = Some n -> node_ok parent (nextid s) (nextid s') n.

  Lemma prim_ok parent i p : node_ok parent i (i + 1) (NPrim (mkMeta i parent) p).
  Proof. split; [constructor; reflexivity|]. split; [apply fresh_in_one|constructor]. Qed.

  Lemma node_ok_weak parent lo hi lo' hi' n : lo' <= lo -> hi <= hi' -> node_ok parent lo hi n -> node_ok parent lo' hi' n.
  Proof. intros L1 L2 (H1 & H2 & H3). split; [exact H1|]. split; [|exact H3]. eapply fresh_in_weak; eauto. Qed.

  Lemma lex_id parent s t s' : lex_post parent s t s' -> nextid s <= nextid s'.
  Proof. unfold lex_post. destruct t; [intros (p & _ & H); lia|lia]. Qed.

  Lemma readArray_with_ok loop parent s :
    (forall t s1, nextid s <= nextid s1 -> (forall n, t = TElem n -> node_ok parent (nextid s) (nextid s1) n) ->
       wp (loop parent t) (node_post parent s) anyfail s1) ->
    wp (readArray_with e params loop parent) (node_post parent s) anyfail s.
  Proof.
    intros H. unfold readArray_with. apply wp_bind.
    eapply wp_mono; [apply consumeToken_shape| |auto].
    intros t s1 L. cbv beta. pose proof (lex_id _ _ _ _ L) as LI. destruct t as [n|b].
    - apply H; [lia|]. intros n' [= <-]. destruct L as (p & -> & ->). apply prim_ok.
    - destruct (beqb b (str "]")).
      + apply wp_bind, wp_fresh, wp_ret. split; cbn [nextid]; [lia|].
        eapply node_ok_weak; [| |apply (arr_ok_node _ _ _ _ (empty_arr_ok (nextid s1) parent))]; lia.
      + apply H; [lia|]. discriminate.
  Qed.

  Lemma readNext_with_ok ro ra parent s :
    (forall s1, wp (ro parent) (node_post parent s1) anyfail s1) ->
    (forall s1, wp (ra parent) (node_post parent s1) anyfail s1) ->
    wp (readNext_with e params ro ra parent) (elem_post parent s) anyfail s.
  Proof.
    intros HO HA. unfold readNext_with. apply wp_bind.
    eapply wp_mono; [apply consumeToken_shape| |auto].
    intros t s1 L. cbv beta. pose proof (lex_id _ _ _ _ L) as LI. destruct t as [n|b].
    - apply wp_ret. split; [lia|]. intros n' [= <-]. destruct L as (p & -> & ->). apply prim_ok.
    - assert (K : forall m : M node, wp m (node_post parent s1) anyfail s1 ->
                  wp (n <- m ;; ret (Some n)) (elem_post parent s) anyfail s1).
      { intros m Hm. apply wp_bind. eapply wp_mono; [exact Hm| |auto]. intros n s2 [L2 N2]. apply wp_ret.
        split; [lia|]. intros n' [= <-]. eapply node_ok_weak; [| |exact N2]; lia. }
      destruct (beqb b (str "{")); [apply K, HO|]. destruct (beqb b (str "[")); [apply K, HA|].
      apply wp_ret. split; [lia|discriminate].
  Qed.

  Lemma loops_ok f :
    (forall parent result lo s, lo <= nextid s -> (forall r, result = Some r -> obj_ok parent lo (nextid s) r) ->
       wp (object_loop e params f parent result)
          (fun n s' => nextid s <= nextid s' /\ node_ok parent lo (nextid s') n) anyfail s) /\
    (forall parent p result t lo s, lo <= nextid s ->
       (forall r, result = Some r -> exists mi, lo <= mi <= nextid s /\ arr_ok parent lo mi r /\
           forall n, t = TElem n -> node_ok p mi (nextid s) n) ->
       (forall n, result = None -> t = TElem n -> node_ok p lo (nextid s) n) ->
       wp (array_loop e params f parent result t)
          (fun n s' => nextid s <= nextid s' /\ node_ok parent lo (nextid s') n) anyfail s).
  Proof.
    induction f as [|f [IHO IHA]]; [split; intros; exact I|].
    assert (RA : forall parent s, wp (readArray_with e params (fun p t => array_loop e params f p None t) parent)
                   (node_post parent s) anyfail s).
    { intros parent s. apply readArray_with_ok. intros t s1 L1 H1.
      eapply wp_mono; [apply (IHA parent parent None t (nextid s) s1 L1)| |auto].
      - discriminate.
      - intros n _ ->. apply H1. reflexivity.
      - intros n s' [L N]. split; [lia|exact N]. }
    assert (RO : forall parent s, wp (object_loop e params f parent None) (node_post parent s) anyfail s).
    { intros parent s. eapply wp_mono; [apply (IHO parent None (nextid s) s)| |auto]; [lia|discriminate|].
      intros n s' [L N]. split; [lia|exact N]. }
    split.
    - intros parent result lo s L H. cbn [object_loop]. apply wp_bind.
      eapply wp_mono; [apply consumeToken_shape| |auto].
      intros t s1 L1. pose proof (lex_id _ _ _ _ L1) as LI1. cbv beta.
      destruct t as [n|b].
      + destruct n as [m pr|m l|m l]; try exact I. destruct pr as [key| | | | |]; try exact I.
        apply wp_bind. eapply wp_mono; [apply consumeToken_shape| |auto].
        intros t2 s2 L2. pose proof (lex_id _ _ _ _ L2) as LI2. cbv beta.
        destruct (match t2 with TTok b => beqb b (str ":") | TElem _ => false end); [|exact I].
        apply wp_bind. eapply wp_mono; [apply (open_object_ok lo)| |auto].
        { intros r ->. eapply obj_ok_weak; [|apply H; reflexivity]. lia. }
        { lia. }
        intros r s3 (L3 & R3 & N3). cbv beta. apply wp_bind.
        eapply wp_mono; [apply readNext_with_ok; [intros; apply RO|intros; apply RA]| |auto].
        intros child s4 [L4 C4]. cbv beta. destruct child as [v|]; [|exact I].
        apply wp_bind, wp_fresh. cbv zeta. cbn [nextid].
        specialize (C4 v eq_refl).
        pose proof (obj_push_ok parent lo (nextid s3) (nextid s4 + 1) r (nextid s4) key _ v
                      ltac:(lia) ltac:(lia) R3 N3 C4) as P.
        apply wp_bind. eapply wp_mono; [apply consumeToken_shape| |auto].
        intros t5 s5 L5. pose proof (lex_id _ _ _ _ L5) as LI5. cbn [nextid] in LI5. cbv beta.
        pose proof (obj_ok_weak _ _ _ _ _ LI5 P) as P5.
        destruct t5 as [n5|b5].
        * apply wp_ret. split; [lia|]. apply (obj_ok_node _ _ _ _ P5).
        * destruct (beqb b5 (str "}")).
          -- apply wp_ret. split; [lia|]. apply (obj_ok_node _ _ _ _ P5).
          -- eapply wp_mono; [apply (IHO parent (Some _) lo s5)| |auto]; [lia| |].
             ++ intros r' [= <-]. exact P5.
             ++ intros n s' [LL NN]. split; [lia|exact NN].
      + destruct (beqb b (str "}") && match result with None => true | Some _ => false end); [|exact I].
        apply wp_bind, wp_fresh, wp_ret. cbn [nextid]. split; [lia|].
        eapply node_ok_weak; [| |apply (obj_ok_node _ _ _ _ (empty_obj_ok (nextid s1) parent))]; lia.
    - intros parent p result t lo s L H1 H2. cbn [array_loop]. apply wp_bind.
      (* the child *)
      assert (CH : wp (match t with
                       | TElem n => ret n
                       | TTok b =>
                         if beqb b (str "[") then readArray_with e params (fun p t => array_loop e params f p None t) None
                         else if beqb b (str "{") then object_loop e params f None None
                         else throw NotJson
                       end)
                  (fun n s' => nextid s <= nextid s' /\ exists q,
                     match result with
                     | Some r => exists mi, lo <= mi <= nextid s' /\ arr_ok parent lo mi r /\ node_ok q mi (nextid s') n
                     | None => node_ok q lo (nextid s') n
                     end) anyfail s).
      { assert (K : forall m : M node, wp m (node_post None s) anyfail s ->
             wp m (fun n s' => nextid s <= nextid s' /\ exists q,
                     match result with
                     | Some r => exists mi, lo <= mi <= nextid s' /\ arr_ok parent lo mi r /\ node_ok q mi (nextid s') n
                     | None => node_ok q lo (nextid s') n
                     end) anyfail s).
        { intros m Hm. eapply wp_mono; [exact Hm| |auto]. intros n s' [L' N']. split; [lia|]. exists None.
          destruct result as [r|].
          - destruct (H1 r eq_refl) as (mi & M1 & M2 & _). exists mi. split; [lia|]. split; [exact M2|].
            eapply node_ok_weak; [| |exact N']; lia.
          - eapply node_ok_weak; [| |exact N']; lia. }
        destruct t as [n|b].
        - apply wp_ret. split; [lia|]. exists p. destruct result as [r|].
          + destruct (H1 r eq_refl) as (mi & M1 & M2 & M3). exists mi. split; [lia|]. split; [exact M2|apply M3; reflexivity].
          + apply H2; reflexivity.
        - destruct (beqb b (str "[")); [apply K, RA|]. destruct (beqb b (str "{")); [apply K, RO|exact I]. }
      eapply wp_mono; [exact CH| |auto]. clear CH H1 H2. intros n s1 (L1 & q & C). cbv beta.
      apply wp_bind.
      assert (AR : wp (match result with
                       | Some r => ret r
                       | None => i <- fresh ;; ret (mkMeta i parent, [])
                       end)
                    (fun r s' => nextid s1 <= nextid s' /\
                       arr_ok parent lo (nextid s') (fst r, snd r ++ [set_parent (mid (fst r)) n])) anyfail s1).
      { assert (PUT : forall r (hi : Z), mpar (fst r) = parent ->
                 fresh_in lo hi (mid (fst r) :: flat_map ids (snd r) ++ ids n) ->
                 Forall (fun n => linked (Some (mid (fst r))) n /\ all_objects keys_ok (erase n)) (snd r) ->
                 linked q n -> all_objects keys_ok (erase n) ->
                 arr_ok parent lo hi (fst r, snd r ++ [set_parent (mid (fst r)) n])).
        { intros r hi P1 P2 P3 P4 P5. split; [exact P1|]. cbn [fst snd]. split.
          - rewrite flat_map_app. cbn [flat_map]. rewrite app_nil_r, ids_set_parent. exact P2.
          - apply Forall_app. split; [exact P3|]. constructor; [|constructor]. split.
            + eapply linked_set_parent; eauto.
            + rewrite erase_set_parent. exact P5. }
        destruct result as [r|].
        - destruct C as (mi & M1 & (A1 & A2 & A3) & N1 & N2 & N3). apply wp_ret. split; [lia|].
          apply PUT; auto. rewrite app_comm_cons. eapply (fresh_in_app lo mi); [lia|exact A2|exact N2].
        - destruct C as (N1 & N2 & N3). apply wp_bind, wp_fresh, wp_ret. cbn [nextid]. split; [lia|].
          apply PUT; auto; cbn [fst snd mid flat_map nextid app]; [|constructor].
          eapply fresh_in_perm; [symmetry; apply Permutation_cons_append|].
          eapply (fresh_in_app lo (nextid s1)); [lia|exact N2|apply fresh_in_one]. }
      eapply wp_mono; [exact AR| |auto]. clear AR C. intros r s2 [L2 R2]. cbv beta zeta.
      apply wp_bind. eapply wp_mono; [apply consumeToken_shape| |auto].
      intros t3 s3 L3. pose proof (lex_id _ _ _ _ L3) as LI3. cbv beta.
      destruct t3 as [n3|b3]; [exact I|].
      destruct (beqb b3 (str "]")).
      { apply wp_ret. split; [lia|]. apply (arr_ok_node parent lo (nextid s3) (fst r, snd r ++ [set_parent (mid (fst r)) n])).
        eapply arr_ok_weak; [|exact R2]. lia. }
      destruct (negb (beqb b3 (str ","))); [exact I|].
      apply wp_bind. eapply wp_mono; [apply consumeToken_shape| |auto].
      intros t4 s4 L4. pose proof (lex_id _ _ _ _ L4) as LI4. cbv beta.
      eapply wp_mono; [apply (IHA parent (Some (mid (fst r))) (Some _) t4 lo s4)| |auto].
      + lia.
      + intros r' [= <-]. exists (nextid s3). split; [lia|]. split; [eapply arr_ok_weak; [|exact R2]; lia|].
        intros n4 ->. destruct L4 as (p4 & -> & ->). apply prim_ok.
      + discriminate.
      + intros n4 s5 [LL NN]. split; [lia|exact NN].
  Qed.

  Lemma read_doc_ok input root s' : read_doc e params input = Ok (Some root, s') ->
    node_ok None 0 (nextid s') root.
  Proof.
    intros H. unfold read_doc, readNext in H.
    assert (W : wp (readNext_with e params (readObject e params (S (S (length input))))
                    (readArray e params (S (S (length input)))) None) (elem_post None (init_st input)) anyfail (init_st input)).
    { apply readNext_with_ok; intros s1.
      - eapply wp_mono; [apply (proj1 (loops_ok _) None None (nextid s1) s1)| |auto]; [lia|discriminate|].
        intros n s2 [L N]. split; [lia|exact N].
      - apply readArray_with_ok. intros t s2 L2 H2.
        eapply wp_mono; [apply (proj2 (loops_ok _) None None None t (nextid s1) s2 L2)| |auto].
        + discriminate.
        + intros n _ ->. apply H2. reflexivity.
        + intros n s3 [L N]. split; [lia|exact N]. }
    unfold wp in W. rewrite H in W. destruct W as [_ W]. apply (W root eq_refl).
  Qed.

  (** C04 *)
  Lemma read_keys_distinct input root s' : read_doc e params input = Ok (Some root, s') ->
    all_objects (@NoDup bytes) (erase root).
  Proof.
    intros H. apply read_doc_ok in H. destruct H as (_ & _ & H). revert H.
    generalize (erase root). intros t. induction t as [p|l IH|l IH] using tree_ind'; intros H.
    - constructor.
    - constructor. inversion_clear H as [|? H1|]. rewrite Forall_forall in *. auto.
    - inversion_clear H as [| |? H1 H2]. constructor; [apply H1|]. rewrite Forall_forall in *. auto.
  Qed.

  (** C05 *)
  Lemma read_keys_sorted input root s' : sorts params = true -> read_doc e params input = Ok (Some root, s') ->
    all_objects (StronglySorted byte_lt) (erase root).
  Proof.
    intros S H. apply read_doc_ok in H. destruct H as (_ & _ & H). revert H.
    generalize (erase root). intros t. induction t as [p|l IH|l IH] using tree_ind'; intros H.
    - constructor.
    - constructor. inversion_clear H as [|? H1|]. rewrite Forall_forall in *. auto.
    - inversion_clear H as [| |? H1 H2]. constructor; [apply H1, S|]. rewrite Forall_forall in *. auto.
  Qed.
End Tree.

(** * Levels *)
Lemma heap_elements n : forall d, heap n = map fst (elements d n).
Proof.
  induction n using node_ind'; intros d; simpl; [reflexivity| |]; f_equal.
  - rewrite map_flat_map. apply flat_map_ext_Forall. eapply Forall_impl; [|exact H]. intros a Ha. apply Ha.
  - rewrite map_flat_map. apply flat_map_ext_Forall. eapply Forall_impl; [|exact H]. intros a Ha. simpl. f_equal. apply Ha.
Qed.

Lemma find_meta_ok h m : NoDup (map mid h) -> In m h -> find_meta h (mid m) = Some m.
Proof.
  unfold find_meta. induction h as [|x h IH]; simpl; intros N H; [contradiction|].
  inversion_clear N as [|? ? N1 N2]. destruct H as [->|H].
  - rewrite Z.eqb_refl. reflexivity.
  - destruct (mid x =? mid m) eqn:E; [|auto]. exfalso. apply N1. apply Z.eqb_eq in E. rewrite E. apply in_map, H.
Qed.

Lemma getLevel_S f h p d : getLevel f h p = Some d -> getLevel (S f) h p = Some d.
Proof.
  revert p d. induction f as [|f IH]; intros [i|] d; simpl; try discriminate; auto.
  destruct (find_meta h i) as [m|]; [|discriminate].
  destruct (getLevel f h (mpar m)) as [x|] eqn:E; [|discriminate]. apply IH in E. simpl in E. rewrite E. auto.
Qed.
Lemma getLevel_le f g h p d : (f <= g)%nat -> getLevel f h p = Some d -> getLevel g h p = Some d.
Proof. induction 1; auto using getLevel_S. Qed.

Lemma elements_level h n : NoDup (map mid h) ->
  forall d par, linked par n -> getLevel d h par = Some d -> (forall m k, In (m, k) (elements (S d) n) -> In m h) ->
  forall m k, In (m, k) (elements (S d) n) -> getLevel k h (Some (mid m)) = Some k.
Proof.
  intros N. induction n as [m0 p|m0 l IH|m0 l IH] using node_ind'; intros d par L G I m k Q;
    simpl in Q, I.
  - destruct Q as [[= <- <-]|[]]. inversion_clear L as [? ? ? E| |].
    simpl. rewrite find_meta_ok; [|exact N|apply (I m0 (S d)); auto]. rewrite E, G. reflexivity.
  - inversion_clear L as [|? ? ? E F|].
    assert (G0 : getLevel (S d) h (Some (mid m0)) = Some (S d)).
    { simpl. rewrite find_meta_ok; [|exact N|apply (I m0 (S d)); auto]. rewrite E, G. reflexivity. }
    destruct Q as [[= <- <-]|Q]; [exact G0|].
    apply in_flat_map in Q. destruct Q as (x & Hx & Q). rewrite Forall_forall in IH, F.
    eapply (IH x Hx (S d)); [apply F, Hx|exact G0| |exact Q].
    intros m' k' Q'. apply (I m' k'). right. apply in_flat_map. eauto.
  - inversion_clear L as [| |? ? ? E F].
    assert (G0 : getLevel (S d) h (Some (mid m0)) = Some (S d)).
    { simpl. rewrite find_meta_ok; [|exact N|apply (I m0 (S d)); auto]. rewrite E, G. reflexivity. }
    destruct Q as [[= <- <-]|Q]; [exact G0|].
    apply in_flat_map in Q. destruct Q as (x & Hx & Q). rewrite Forall_forall in IH, F.
    destruct (F x Hx) as [F1 F2].
    assert (G1 : getLevel (S (S d)) h (Some (mid (fst (fst x)))) = Some (S (S d))).
    { cbn [getLevel]. rewrite find_meta_ok; [|exact N|].
      - rewrite F1. cbn [getLevel] in G0. rewrite G0. reflexivity.
      - apply (I _ (S (S d))). right. apply in_flat_map. exists x. split; [exact Hx|left; reflexivity]. }
    destruct Q as [[= <- <-]|Q]; [exact G1|].
    eapply (IH x Hx (S (S d))); [exact F2|exact G1| |exact Q].
    intros m' k' Q'. apply (I m' k'). right. apply in_flat_map. exists x. split; [exact Hx|right; exact Q'].
Qed.

(** C42 *)
Lemma read_parents e params input root s' : read_doc e params input = Ok (Some root, s') ->
  linked None root /\ NoDup (ids root) /\
  forall m d, In (m, d) (elements 1 root) -> getLevel d (heap root) (Some (mid m)) = Some d.
Proof.
  intros H. apply read_doc_ok in H. destruct H as (H1 & [_ H2] & _). split; [exact H1|]. split; [exact H2|].
  assert (HH : heap root = map fst (elements 1 root)) by apply heap_elements.
  apply (elements_level (heap root) root) with (par := None).
  - rewrite HH, map_map. exact H2.
  - exact H1.
  - reflexivity.
  - intros m k Q. rewrite HH. apply in_map_iff. exists (m, k). auto.
Qed.

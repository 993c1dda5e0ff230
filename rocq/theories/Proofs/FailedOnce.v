(** A reading deletes nothing twice, however it ends. *)
From Verif Require Import Model.Failed Spec.TreeSpec Proofs.ParserBase Proofs.ParserTree Proofs.MemoryProofs Proofs.FailedProofs.
From Coq Require Import Lia.
Open Scope Z_scope.

Definition mk (a b x : Z) : nat := cnt (made a b) x.
Lemma mk_app a b c x : a <= b <= c -> mk a c x = (mk a b x + mk b c x)%nat.
Proof. intros L. unfold mk. rewrite (made_app a b c L). apply cnt_app. Qed.
Lemma mk_one a x : mk a (a + 1) x = cnt1 a x.
Proof. unfold mk. rewrite made_one. rewrite cnt_cons, cnt_nil. lia. Qed.
Lemma mk_same a x : mk a a x = O.
Proof. unfold mk. rewrite made_same. reflexivity. Qed.

Section Once.
  Variable e : env.
  Variable params : option cfg.

  Definition keeps (held : list Z) (s : st) (fr : list Z) (l : list Z) (s' : st) (fr' : list Z) : Prop :=
    nextid s <= nextid s' /\ exists d, fr' = fr ++ d /\ forall x, (cnt l x + cnt d x <= cnt held x + mk (nextid s) (nextid s') x)%nat.
  Definition stops (held : list Z) (s : st) (fr : list Z) (n : Z) (fr' : list Z) : Prop :=
    nextid s <= n /\ exists d, fr' = fr ++ d /\ forall x, (cnt d x <= cnt held x + mk (nextid s) n x)%nat.

  Lemma once_token parent s fr (Q : tok -> st -> list Z -> Prop) (E : Z -> list Z -> Prop) :
    (forall t s', nextid s <= nextid s' -> (forall x, cnt (ids_tok t) x = mk (nextid s) (nextid s') x) -> (forall n, t = TElem n -> ids n = [nid n]) -> Q t s' fr) ->
    E (nextid s) fr -> wpf (lift (consumeToken e params parent)) Q E s fr.
  Proof.
    intros K X. apply wpf_lift; [|exact X]. assert (A := tok_kept1 e params parent s). unfold wp in *.
    destruct (consumeToken e params parent s) as [[t s']| | | |]; auto. destruct A as (A & B & C). apply K; auto.
  Qed.

  (** Stopping later, or with less in hand, is as good. *)
  Lemma stops_here held s s1 fr d : nextid s <= nextid s1 -> (forall x, (cnt d x <= cnt held x + mk (nextid s) (nextid s1) x)%nat) -> stops held s fr (nextid s1) (fr ++ d).
  Proof. intros L H. split; [exact L|]. exists d. auto. Qed.
  Lemma stops_now held s fr : stops held s fr (nextid s) fr.
  Proof. split; [lia|]. exists []. rewrite app_nil_r. split; [reflexivity|]. intros x. rewrite cnt_nil. lia. Qed.

  (** A call made at [s1], with [held1] in hand and [d1] deleted since [s]. *)
  Lemma once_call {A} (m : F A) (get get' : A -> list Z) held held1 s s1 fr d1 :
    nextid s <= nextid s1 -> (forall x, (cnt held1 x + cnt d1 x <= cnt held x + mk (nextid s) (nextid s1) x)%nat) -> (forall a x, (cnt (get' a) x <= cnt (get a) x)%nat) ->
    wpf m (fun a => keeps held1 s1 (fr ++ d1) (get a)) (stops held1 s1 (fr ++ d1)) s1 (fr ++ d1) ->
    wpf m (fun a => keeps held s fr (get' a)) (stops held s fr) s1 (fr ++ d1).
  Proof.
    intros L H G W. eapply wpf_mono; [exact W| |].
    - intros a s2 fr2 (L2 & d & -> & D). split; [lia|]. exists (d1 ++ d). rewrite app_assoc. split; [reflexivity|]. intros x. specialize (D x). specialize (H x). specialize (G a x).
      rewrite cnt_app, (mk_app (nextid s) (nextid s1) (nextid s2)) by lia. lia.
    - intros n fr2 (L2 & d & -> & D). split; [lia|]. exists (d1 ++ d). rewrite app_assoc. split; [reflexivity|]. intros x. specialize (D x). specialize (H x).
      rewrite cnt_app, (mk_app (nextid s) (nextid s1) n) by lia. lia.
  Qed.

  Lemma once_call0 {A} (m : F A) (get get' : A -> list Z) held held1 s s1 fr :
    nextid s <= nextid s1 -> (forall x, (cnt held1 x <= cnt held x + mk (nextid s) (nextid s1) x)%nat) -> (forall a x, (cnt (get' a) x <= cnt (get a) x)%nat) ->
    wpf m (fun a => keeps held1 s1 fr (get a)) (stops held1 s1 fr) s1 fr ->
    wpf m (fun a => keeps held s fr (get' a)) (stops held s fr) s1 fr.
  Proof.
    intros L H G W. assert (X := once_call m get get' held held1 s s1 fr [] L). rewrite app_nil_r in X. apply X; auto. intros x. rewrite cnt_nil. specialize (H x). lia.
  Qed.

  Definition once_object (f : nat) : Prop := forall parent result s fr,
    wpf (object_fin e params f parent result) (fun n => keeps (obj_held result) s fr (ids n)) (stops (obj_held result) s fr) s fr.
  Definition once_array (f : nat) : Prop := forall parent result t s fr,
    wpf (array_fin e params f parent result t) (fun n => keeps (arr_held result ++ ids_tok t) s fr (ids n)) (stops (arr_held result ++ ids_tok t) s fr) s fr.

  Lemma once_with f : once_array f -> forall parent s fr,
    wpf (readArray_fin e params (fun p t => array_fin e params f p None t) parent) (fun n => keeps [] s fr (ids n)) (stops [] s fr) s fr.
  Proof.
    intros A parent s fr. unfold readArray_fin. apply wpf_bind, once_token; [|apply stops_now]. intros t s1 L1 T1 _.
    assert (G : wpf (array_fin e params f parent None t) (fun n => keeps [] s fr (ids n)) (stops [] s fr) s1 fr).
    { eapply (once_call0 _ ids ids [] (arr_held None ++ ids_tok t)); [exact L1| |reflexivity|apply A].
      intros x. cbn [arr_held app]. rewrite !cnt_nil, T1. lia. }
    destruct t as [n|b]; [exact G|]. destruct (beqb b (str "]")); [|exact G]. apply wpf_bind, wpf_fresh, wpf_ret. split; [cbn; lia|].
    exists []. rewrite app_nil_r. split; [reflexivity|]. intros x. cbn [nextid]. rewrite (mk_app (nextid s) (nextid s1)), mk_one by lia. rewrite ids_arr. cbn [mid flat_map]. rewrite cnt_cons, !cnt_nil. lia.
  Qed.

  Lemma once_next f : once_object f -> once_array f -> forall parent s fr,
    wpf (readNext_fin e params (fun p => object_fin e params f p None) (readArray_fin e params (fun p t => array_fin e params f p None t)) parent)
      (fun o => keeps [] s fr (ids_opt o)) (stops [] s fr) s fr.
  Proof.
    intros O A parent s fr. unfold readNext_fin. apply wpf_bind, once_token; [|apply stops_now]. intros t s1 L1 T1 _.
    assert (STEP : forall m : F node, wpf m (fun n => keeps [] s1 fr (ids n)) (stops [] s1 fr) s1 fr ->
      wpf (fbind m (fun x => fret (Some x))) (fun o => keeps [] s fr (ids_opt o)) (stops [] s fr) s1 fr).
    { intros m H. apply wpf_bind. eapply wpf_mono; [eapply (once_call0 m ids ids [] [] s s1 fr); [exact L1|intros x; rewrite cnt_nil; lia|reflexivity|exact H]| |auto].
      intros n s2 fr2 K. apply wpf_ret. exact K. }
    assert (HERE : forall l, (forall x, (cnt l x <= mk (nextid s) (nextid s1) x)%nat) -> keeps [] s fr l s1 fr).
    { intros l H. split; [exact L1|]. exists []. rewrite app_nil_r. split; [reflexivity|]. intros x. specialize (H x). rewrite !cnt_nil. lia. }
    destruct t as [n|b]; [apply wpf_ret, HERE; intros x; cbn [ids_opt]; specialize (T1 x); cbn [ids_tok] in T1; lia|].
    destruct (beqb b (str "{")); [apply STEP, (O parent None)|]. destruct (beqb b (str "[")); [apply STEP, once_with, A|].
    apply wpf_ret, HERE. intros x. cbn [ids_opt]. rewrite cnt_nil. lia.
  Qed.

  (** What a member of object [r] adds, [k] being its key's identity. *)
  Lemma once_member f parent (r : objpart) k key s fr : once_object f -> once_array f ->
    wpf (member e params f parent r k key) (fun n => keeps (k :: obj_ids r) s fr (ids n)) (stops (k :: obj_ids r) s fr) s fr.
  Proof.
    intros O A. unfold member. apply wpf_bind. eapply wpf_mono; [exact (once_next f O A (Some (mid (fst r))) s fr)| |].
    2: { intros n fr' (L & d & -> & D). split; [exact L|]. exists d. split; [reflexivity|]. intros x. specialize (D x). rewrite cnt_nil in D. lia. }
    intros child s1 fr1 (L1 & d1 & -> & D1).
    destruct child as [v|].
    2: { apply wpf_lift; [exact Logic.I|]. apply stops_here; [exact L1|]. intros x. specialize (D1 x). cbn [ids_opt] in D1; rewrite !cnt_nil in D1. lia. }
    cbn [ids_opt] in D1. apply wpf_bind, wpf_fresh. cbv zeta. set (s2 := mkSt (inp s1) (good s1) (his s1) (warns s1) (nextid s1 + 1)).
    set (l2 := obj_push entry_key (sorts params) _ (snd r)).
    assert (W2 : forall x, (cnt (mid (fst r) :: flat_map eids l2) x + cnt (d1 ++ [k]) x <= cnt (k :: obj_ids r) x + mk (nextid s) (nextid s1 + 1) x)%nat).
    { intros x. unfold l2, obj_ids. rewrite cnt_app, !cnt_cons, cnt_nil, cnt_push. unfold eids at 1. cbn [fst snd mid]. rewrite ids_set_parent, cnt_cons.
      rewrite (mk_app (nextid s) (nextid s1)), mk_one by lia. specialize (D1 x). rewrite cnt_nil in D1. lia. }
    apply wpf_bind, wpf_free, wpf_bind, once_token.
    2: { rewrite <- app_assoc. apply (stops_here _ s s2); [cbn; lia|]. intros x. specialize (W2 x). rewrite cnt_cons in W2. cbn [nextid s2]. lia. }
    intros t s3 L3 T3 _. cbn [nextid s2] in L3, T3. rewrite <- app_assoc.
    assert (W3 : forall x, (cnt (mid (fst r) :: flat_map eids l2) x + cnt (d1 ++ [k]) x <= cnt (k :: obj_ids r) x + mk (nextid s) (nextid s3) x)%nat).
    { intros x. specialize (W2 x). rewrite (mk_app (nextid s) (nextid s1 + 1) (nextid s3)) by lia. lia. }
    assert (DONE : keeps (k :: obj_ids r) s fr (ids (NObj (fst r) l2)) s3 (fr ++ d1 ++ [k])).
    { split; [lia|]. exists (d1 ++ [k]). split; [reflexivity|]. intros x. rewrite ids_obj. apply W3. }
    destruct t as [n0|b]; [apply wpf_ret, DONE|]. destruct (beqb b (str "}")); [apply wpf_ret, DONE|].
    eapply (once_call _ ids ids _ (obj_held (Some (fst r, l2)))); [lia|exact W3|reflexivity|apply O].
  Qed.

  Lemma once_loops f : once_object f /\ once_array f.
  Proof.
    induction f as [|f (O & A)].
    { split; [intros parent result s fr|intros parent result t s fr]; apply wpf_lift; [exact Logic.I|apply stops_now|exact Logic.I|apply stops_now]. }
    split.
    - intros parent result s fr. rewrite object_unfold. apply wpf_bind, once_token; [|apply stops_now]. intros t s1 L1 T1 K1.
      assert (HERE : forall s2, nextid s1 <= nextid s2 -> stops (obj_held result) s fr (nextid s2) fr).
      { intros s2 L. assert (X := stops_here (obj_held result) s s2 fr []). rewrite app_nil_r in X. apply X; [lia|]. intros x. rewrite cnt_nil. lia. }
      assert (THROW : forall B x (Q : B -> st -> list Z -> Prop), wpf (lift (throw x)) Q (stops (obj_held result) s fr) s1 fr).
      { intros B x Q. apply wpf_lift; [exact Logic.I|apply HERE; lia]. }
      destruct t as [n|b].
      2: { destruct (beqb b (str "}") && _); [|apply THROW]. apply wpf_bind, wpf_fresh, wpf_ret. split; [cbn; lia|]. exists []. rewrite app_nil_r. split; [reflexivity|].
        intros x. cbn [nextid]. rewrite (mk_app (nextid s) (nextid s1)), mk_one by lia. rewrite ids_obj. cbn [mid flat_map]. rewrite cnt_cons, !cnt_nil. lia. }
      destruct n as [km [key| | | | |]|km l|km l]; try apply THROW. specialize (K1 _ eq_refl). cbn [ids_tok] in T1. rewrite K1 in T1. change (nid (NPrim km (PStr key))) with (mid km) in T1.
      apply wpf_bind, once_token; [|apply HERE; lia]. intros t2 s2 L2 T2 _.
      destruct (match t2 with TTok b => beqb b (str ":") | TElem _ => false end) eqn:CO; [|apply wpf_lift; [exact Logic.I|apply HERE; lia]].
      apply wpf_bind. unfold open_object_fin. apply wpf_bind.
      assert (GO : forall r d s3, nextid s2 <= nextid s3 -> (forall x, (cnt (obj_ids r) x + cnt d x <= cnt (obj_held result) x + mk (nextid s2) (nextid s3) x)%nat) ->
        wpf (member e params f parent r (mid km) key) (fun n => keeps (obj_held result) s fr (ids n)) (stops (obj_held result) s fr) s3 (fr ++ d)).
      { intros r d s3 L3 H. eapply (once_call _ ids ids _ (mid km :: obj_ids r)); [lia| |reflexivity|apply once_member; assumption].
        intros x. specialize (H x). specialize (T1 x). rewrite cnt_cons, cnt_nil in T1. rewrite cnt_cons.
        rewrite (mk_app (nextid s) (nextid s1) (nextid s3)), (mk_app (nextid s1) (nextid s2) (nextid s3)) by lia. lia. }
      apply wpf_lift; [|apply HERE; lia]. destruct result as [[m l]|]; cbn [open_object].
      + assert (P := erased_perm key l). destruct (obj_contains entry_key key l) eqn:OC.
        * destruct (strict_keys params); [exact Logic.I|]. unfold wp, bind, warn, ret. apply wpf_bind, wpf_free, wpf_ret. apply GO; [cbn; lia|].
          intros x. apply cnt_perm with (x := x) in P. rewrite cnt_app in P. cbn [obj_held]. unfold obj_ids. cbn [fst snd nextid]. rewrite !cnt_cons. lia.
        * unfold wp, ret. apply wpf_bind, wpf_free, wpf_ret. rewrite (erased_none _ _ OC). apply GO; [lia|]. intros x. rewrite cnt_nil. cbn [obj_held]. lia.
      + unfold wp, bind, fresh, ret. apply wpf_bind, wpf_free, wpf_ret. apply GO; [cbn; lia|]. intros x. cbn [nextid obj_held]. unfold obj_ids. cbn [fst snd mid flat_map]. rewrite mk_one, cnt_cons, !cnt_nil. lia.
    - intros parent result t s fr. rewrite array_unfold. apply wpf_bind.
      assert (IT : wpf (item e params f t) (fun n => keeps (ids_tok t) s fr (ids n)) (stops (ids_tok t) s fr) s fr).
      { destruct t as [n|b]; cbn [item].
        - apply wpf_ret. split; [lia|]. exists []. rewrite app_nil_r. split; [reflexivity|]. intros x. rewrite cnt_nil. cbn [ids_tok]. lia.
        - destruct (beqb b (str "[")); [apply once_with, A|]. destruct (beqb b (str "{")); [apply (O None None)|]. apply wpf_lift; [exact Logic.I|apply stops_now]. }
      eapply wpf_mono; [exact IT| |].
      2: { intros n fr' (L & d & -> & D). split; [exact L|]. exists d. split; [reflexivity|]. intros x. specialize (D x). rewrite cnt_app. lia. }
      intros child s1 fr1 (L1 & d1 & -> & D1). apply wpf_bind.
      assert (ROW : forall r s2, nextid s1 <= nextid s2 -> (forall x, (cnt (arr_ids r) x <= cnt (arr_held result) x + mk (nextid s1) (nextid s2) x)%nat) ->
        wpf (items e params f parent r child) (fun n => keeps (arr_held result ++ ids_tok t) s fr (ids n)) (stops (arr_held result ++ ids_tok t) s fr) s2 (fr ++ d1)).
      { intros r s2 L2 H2. unfold items. set (l2 := snd r ++ _).
        assert (W : forall s3, nextid s2 <= nextid s3 -> forall x, (cnt (mid (fst r) :: flat_map ids l2) x + cnt d1 x <= cnt (arr_held result ++ ids_tok t) x + mk (nextid s) (nextid s2) x)%nat).
        { intros s3 L3 x. specialize (H2 x). specialize (D1 x). unfold arr_ids in H2. unfold l2. rewrite flat_map_app. cbn [flat_map]. rewrite app_nil_r, ids_set_parent. rewrite !cnt_cons, !cnt_app in *.
          rewrite (mk_app (nextid s) (nextid s1) (nextid s2)) by lia. lia. }
        assert (HERE : forall s3, nextid s2 <= nextid s3 -> stops (arr_held result ++ ids_tok t) s fr (nextid s3) (fr ++ d1)).
        { intros s3 L3. apply stops_here; [lia|]. intros x. specialize (W s3 L3 x). rewrite cnt_cons in W. rewrite (mk_app (nextid s) (nextid s2) (nextid s3)) by lia. lia. }
        apply wpf_bind, once_token; [|apply HERE; lia]. intros t2 s3 L3 T3 _.
        destruct t2 as [k|b]; [apply wpf_lift; [exact Logic.I|apply HERE; lia]|].
        destruct (beqb b (str "]")).
        { apply wpf_ret. split; [lia|]. exists d1. split; [reflexivity|]. intros x. rewrite ids_arr. specialize (W s3 L3 x). rewrite (mk_app (nextid s) (nextid s2) (nextid s3)) by lia. lia. }
        destruct (negb (beqb b (str ","))); [apply wpf_lift; [exact Logic.I|apply HERE; lia]|].
        apply wpf_bind, once_token; [|apply HERE; lia]. intros t3 s4 L4 T4 _.
        eapply (once_call _ ids ids _ (arr_held (Some (fst r, l2)) ++ ids_tok t3)); [lia| |reflexivity|apply A].
        intros x. specialize (W s3 L3 x). specialize (T4 x). rewrite cnt_app, T4. cbn [arr_held]. unfold arr_ids. cbn [fst snd].
        rewrite (mk_app (nextid s) (nextid s2) (nextid s4)), (mk_app (nextid s2) (nextid s3) (nextid s4)) by lia. lia. }
      destruct result as [r|].
      + apply wpf_ret, ROW; [lia|]. intros x. cbn [arr_held]. lia.
      + apply wpf_bind, wpf_fresh, wpf_ret, ROW; [cbn; lia|]. intros x. cbn [nextid arr_held]. unfold arr_ids. cbn [fst snd mid flat_map]. rewrite mk_one, cnt_cons, !cnt_nil. lia.
  Qed.

  Lemma cnt_made_le a b x : (mk a b x <= 1)%nat.
  Proof. unfold mk, cnt. apply NoDup_count_occ, made_nodup. Qed.

  Lemma read_once input : match read_fin e params input with
    | Reads root s freed => NoDup (ids_opt root ++ freed) /\ forall i, In i freed -> 0 <= i < nextid s
    | Stops _ n freed => NoDup freed /\ forall i, In i freed -> 0 <= i < n
    end.
  Proof.
    destruct (once_loops (S (S (length input)))) as (O & A). assert (H := once_next _ O A None (init_st input) []). unfold wpf in H. unfold read_fin.
    assert (ND : forall l n, (forall x, (cnt l x <= cnt [] x + mk 0 n x)%nat) -> NoDup l).
    { intros l n D. rewrite (NoDup_count_occ Z.eq_dec). intros x. specialize (D x). assert (C := cnt_made_le 0 n x). rewrite cnt_nil in D. unfold cnt in D. lia. }
    assert (IN : forall l n, (forall x, (cnt l x <= cnt [] x + mk 0 n x)%nat) -> forall i, In i l -> 0 <= i < n).
    { intros l n D i I. specialize (D i). rewrite cnt_nil in D. apply made_in. apply (count_occ_In Z.eq_dec). apply (count_occ_In Z.eq_dec) in I. unfold cnt, mk, MemoryProofs.cnt in D. unfold mk, cnt in D. lia. }
    destruct (readNext_fin _ _ _ _ _ _ _) as [root s fr|x n fr].
    - destruct H as (_ & d & -> & D). cbn [init_st nextid app] in *. split; [apply (ND _ (nextid s)); intros x; rewrite cnt_app; exact (D x)|].
      apply IN. intros x. specialize (D x). lia.
    - destruct H as (_ & d & -> & D). cbn [init_st nextid app] in *. split; [exact (ND _ n D)|exact (IN _ n D)].
  Qed.
End Once.

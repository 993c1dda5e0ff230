(** Sorted against --keep-order: C06. *)
From Verif Require Export Proofs.ParserTree Proofs.ParserTerm.
Open Scope Z_scope.

Inductive nrel : node -> node -> Prop :=
| NR_prim m p : nrel (NPrim m p) (NPrim m p)
| NR_arr m l l' : Forall2 nrel l l' -> nrel (NArr m l) (NArr m l')
| NR_obj m l l1 l' : Permutation l1 l' ->
    Forall2 (fun a b => fst a = fst b /\ nrel (snd a) (snd b)) l l1 -> nrel (NObj m l) (NObj m l').

Definition erel (a b : meta * bytes * node) : Prop := fst a = fst b /\ nrel (snd a) (snd b).

(** Entries up to order, keys distinct. *)
Definition lrel (l l' : list (meta * bytes * node)) : Prop :=
  NoDup (map entry_key l') /\ exists l1, Permutation l1 l' /\ Forall2 erel l l1.

Definition rsim {A B} (R : A -> B -> Prop) (m1 : M A) (m2 : M B) : Prop := forall s,
  match m1 s, m2 s with
  | Ok (a, s1), Ok (b, s2) => s1 = s2 /\ R a b
  | Throw x, Throw y => x = y
  | Abort x, Abort y => x = y
  | UB x, UB y => x = y
  | OutOfFuel, OutOfFuel => True
  | _, _ => False
  end.

Lemma rsim_bind {A B A' B'} (R : A -> B -> Prop) (R' : A' -> B' -> Prop) m1 m2 k1 k2 :
  rsim R m1 m2 -> (forall a b, R a b -> rsim R' (k1 a) (k2 b)) -> rsim R' (bind m1 k1) (bind m2 k2).
Proof.
  intros H K s. specialize (H s). unfold bind.
  destruct (m1 s) as [[a s1]| | | |], (m2 s) as [[b s2]| | | |]; try contradiction; auto.
  destruct H as [<- H]. apply (K a b H).
Qed.

Lemma rsim_eq {A} (m : M A) : rsim eq m m.
Proof. intros s. destruct (m s) as [[a s1]| | | |]; auto. Qed.
Lemma rsim_same {A} (R : A -> A -> Prop) (m : M A) : (forall a, R a a) -> rsim R m m.
Proof. intros H s. destruct (m s) as [[a s1]| | | |]; auto. Qed.
Lemma rsim_ret {A B} (R : A -> B -> Prop) a b : R a b -> rsim R (ret a) (ret b).
Proof. intros H s. simpl. auto. Qed.
Lemma rsim_throw {A B} (R : A -> B -> Prop) k : rsim R (throw k) (throw k).
Proof. intros s. simpl. auto. Qed.
Lemma rsim_ub {A B} (R : A -> B -> Prop) k : rsim R (ubM k) (ubM k).
Proof. intros s. simpl. auto. Qed.

Lemma nrel_refl n : nrel n n.
Proof.
  induction n as [m p|m l IH|m l IH] using node_ind'.
  - constructor.
  - constructor. induction IH; constructor; auto.
  - apply NR_obj with l; [reflexivity|]. induction IH; constructor; auto.
Qed.

Lemma nrel_set_parent p n n' : nrel n n' -> nrel (set_parent p n) (set_parent p n').
Proof. destruct 1; simpl; econstructor; eauto. Qed.

Lemma nrel_meta n n' : nrel n n' -> node_meta n = node_meta n'.
Proof. destruct 1; reflexivity. Qed.

Lemma erel_keys l l' : Forall2 erel l l' -> map entry_key l = map entry_key l'.
Proof. induction 1 as [|a b l l' [H _] _ IH]; simpl; [reflexivity|]. unfold entry_key at 1 3. rewrite H, IH. reflexivity. Qed.

Lemma lrel_keys l l' : lrel l l' -> Permutation (map entry_key l) (map entry_key l').
Proof. intros (_ & l1 & P & F). rewrite (erel_keys _ _ F). apply Permutation_map, P. Qed.

Lemma lrel_contains k l l' : lrel l l' -> obj_contains entry_key k l = obj_contains entry_key k l'.
Proof.
  intros H. apply lrel_keys in H. apply eq_true_iff_eq. rewrite !obj_contains_spec. split; apply Permutation_in; [|symmetry]; exact H.
Qed.

Lemma obj_erase_in l k : In k (map entry_key l) -> exists x a b,
  l = a ++ x :: b /\ entry_key x = k /\ obj_erase entry_key k l = a ++ b /\ ~ In k (map entry_key a).
Proof.
  induction l as [|x l IH]; simpl; [tauto|]. intros H. destruct (beqb (entry_key x) k) eqn:E.
  - apply beqb_eq in E. exists x, [], l. auto.
  - apply beqb_neq in E. destruct H as [H|H]; [congruence|]. destruct (IH H) as (y & a & b & -> & H1 & H2 & H3).
    exists y, (x :: a), b. rewrite H2. simpl. repeat split; auto. intros [Q|Q]; auto.
Qed.

Lemma obj_erase_notin l k : ~ In k (map entry_key l) -> obj_erase entry_key k l = l.
Proof.
  induction l as [|x l IH]; simpl; [reflexivity|]. intros H. destruct (beqb (entry_key x) k) eqn:E.
  - apply beqb_eq in E. tauto.
  - rewrite IH; tauto.
Qed.

Lemma obj_erase_perm l l' k : Permutation l l' -> NoDup (map entry_key l) ->
  Permutation (obj_erase entry_key k l) (obj_erase entry_key k l').
Proof.
  intros P N. assert (N' : NoDup (map entry_key l')) by (eapply Permutation_NoDup; [apply Permutation_map, P|exact N]).
  destruct (obj_contains entry_key k l) eqn:C.
  - apply obj_contains_spec in C. destruct (obj_erase_in l k C) as (x & a & b & -> & H1 & -> & _).
    assert (C' : In k (map entry_key l')) by (eapply Permutation_in; [apply Permutation_map, P|exact C]).
    destruct (obj_erase_in l' k C') as (x' & a' & b' & -> & H1' & -> & _).
    assert (x = x').
    { assert (Q : In x (a' ++ x' :: b')) by (eapply Permutation_in; [exact P|apply in_elt]).
      apply in_app_iff in Q. rewrite map_app in N'. simpl in N'. apply NoDup_remove_2 in N'.
      rewrite in_app_iff in N'.
      destruct Q as [Q|[Q|Q]]; [|auto|]; exfalso; apply N'; [left|right]; rewrite H1', <- H1; apply in_map, Q. }
    subst x'. eapply Permutation_app_inv; eauto.
  - apply obj_contains_false in C. rewrite (obj_erase_notin l k C).
    rewrite obj_erase_notin; [exact P|]. intros Q. apply C. eapply Permutation_in; [symmetry; apply Permutation_map, P|exact Q].
Qed.

Lemma erel_erase l l' k : Forall2 erel l l' -> Forall2 erel (obj_erase entry_key k l) (obj_erase entry_key k l').
Proof.
  induction 1 as [|a b l l' H F IH]; simpl; [constructor|].
  assert (E : entry_key a = entry_key b) by (unfold entry_key; destruct H; congruence).
  rewrite E. destruct (beqb (entry_key b) k); [exact F|constructor; auto].
Qed.

Lemma lrel_erase l l' k : lrel l l' -> lrel (obj_erase entry_key k l) (obj_erase entry_key k l').
Proof.
  intros (N & l1 & P & F). split; [apply obj_erase_keys, N|]. exists (obj_erase entry_key k l1). split.
  - apply obj_erase_perm; [exact P|]. eapply Permutation_NoDup; [symmetry; apply Permutation_map, P|exact N].
  - apply erel_erase, F.
Qed.

Lemma erel_push x y l l' : erel x y -> Forall2 erel l l' ->
  Forall2 erel (obj_push_sorted entry_key x l) (obj_push_sorted entry_key y l').
Proof.
  intros Hx. assert (Ex : entry_key x = entry_key y) by (unfold entry_key; destruct Hx; congruence).
  induction 1 as [|a b l l' H F IH]; simpl; [constructor; [exact Hx|constructor]|].
  assert (E : entry_key a = entry_key b) by (unfold entry_key; destruct H; congruence).
  rewrite E, Ex. destruct (bltb (entry_key b) (entry_key y)); constructor; auto.
Qed.

Lemma lrel_push x y l l' : erel x y -> lrel l l' -> ~ In (entry_key y) (map entry_key l') ->
  lrel (obj_push entry_key true x l) (obj_push entry_key false y l').
Proof.
  intros Hx (N & l1 & P & F) K. split.
  - unfold obj_push. rewrite map_app. simpl. apply Permutation_NoDup with (entry_key y :: map entry_key l').
    + apply Permutation_cons_append.
    + constructor; auto.
  - exists (obj_push entry_key true y l1). split.
    + rewrite <- obj_push_perm. rewrite <- obj_push_perm. constructor. exact P.
    + apply erel_push; auto.
Qed.

Section Sort.
  Variable e : env.
  Variable str_ au : bool.
  Notation PS := (Some (mkCfg str_ au true)).
  Notation PK := (Some (mkCfg str_ au false)).

  Lemma lex_eq parent : consumeToken e PS parent = consumeToken e PK parent.
  Proof. reflexivity. Qed.

  Definition prel (r r' : objpart) : Prop := fst r = fst r' /\ lrel (snd r) (snd r').
  Definition orel {A} (R : A -> A -> Prop) (a b : option A) : Prop :=
    match a, b with Some x, Some y => R x y | None, None => True | _, _ => False end.
  Definition arel (r r' : meta * list node) : Prop := fst r = fst r' /\ Forall2 nrel (snd r) (snd r').

  Lemma open_object_rsim parent r r' key : orel prel r r' ->
    rsim (fun a b => prel a b /\ ~ In key (map entry_key (snd b))) (open_object PS parent r key) (open_object PK parent r' key).
  Proof.
    intros H. unfold open_object. destruct r as [[m l]|], r' as [[m' l']|]; try contradiction.
    - destruct H as [E H]. simpl in E, H. subst m'. rewrite (lrel_contains key l l' H).
      destruct (obj_contains entry_key key l') eqn:C.
      + cbn [strict_keys strict]. destruct str_; [apply rsim_throw|].
        eapply rsim_bind; [apply rsim_eq|]. intros. apply rsim_ret. split.
        * split; [reflexivity|]. simpl. apply lrel_erase, H.
        * simpl. apply obj_erase_keys, H.
      + apply rsim_ret. split; [split; auto|]. apply obj_contains_false, C.
    - eapply rsim_bind; [apply rsim_eq|]. intros a b <-. apply rsim_ret. split; [|simpl; tauto].
      split; [reflexivity|]. simpl. split; [constructor|]. exists []. split; constructor.
  Qed.

  Lemma readArray_with_rsim l1 l2 parent : (forall t, rsim nrel (l1 parent t) (l2 parent t)) ->
    rsim nrel (readArray_with e PS l1 parent) (readArray_with e PK l2 parent).
  Proof.
    intros H. unfold readArray_with. rewrite lex_eq. eapply rsim_bind; [apply rsim_eq|]. intros t t' <-.
    destruct t as [n|b]; [apply H|]. destruct (beqb b (str "]")); [apply rsim_same, nrel_refl|apply H].
  Qed.

  Lemma readNext_with_rsim o1 o2 a1 a2 parent : rsim nrel (o1 parent) (o2 parent) -> rsim nrel (a1 parent) (a2 parent) ->
    rsim (orel nrel) (readNext_with e PS o1 a1 parent) (readNext_with e PK o2 a2 parent).
  Proof.
    intros HO HA. unfold readNext_with. rewrite lex_eq. eapply rsim_bind; [apply rsim_eq|]. intros t t' <-.
    destruct t as [n|b]; [apply rsim_ret; apply nrel_refl|].
    destruct (beqb b (str "{")); [eapply rsim_bind; [exact HO|intros; apply rsim_ret; assumption]|].
    destruct (beqb b (str "[")); [eapply rsim_bind; [exact HA|intros; apply rsim_ret; assumption]|].
    apply rsim_ret. exact I.
  Qed.

  Lemma lrel_obj m l l' : lrel l l' -> nrel (NObj m l) (NObj m l').
  Proof. intros (_ & l1 & P & F). apply NR_obj with l1; assumption. Qed.

  Lemma loops_rsim f :
    (forall parent r r', orel prel r r' -> rsim nrel (object_loop e PS f parent r) (object_loop e PK f parent r')) /\
    (forall parent r r' t, orel arel r r' -> rsim nrel (array_loop e PS f parent r t) (array_loop e PK f parent r' t)).
  Proof.
    induction f as [|f [IHO IHA]]; [split; intros; intros s; exact I|].
    assert (RA : forall parent, rsim nrel (readArray_with e PS (fun p t => array_loop e PS f p None t) parent)
                                  (readArray_with e PK (fun p t => array_loop e PK f p None t) parent)).
    { intros. apply readArray_with_rsim. intros. apply IHA. exact I. }
    split.
    - intros parent r r' H. cbn [object_loop]. rewrite <- !lex_eq.
      assert (EI : result_id r = result_id r').
      { destruct r as [[m l]|], r' as [[m' l']|]; try contradiction; [|reflexivity]. destruct H as [E _]. simpl in *. congruence. }
      rewrite EI. eapply rsim_bind; [apply rsim_eq|]. intros t t' <-. destruct t as [n|b].
      + destruct n as [m [key| | | | |]|m l|m l]; try apply rsim_throw.
        eapply rsim_bind; [apply rsim_eq|]. intros t t' <-.
        destruct (match t with TTok b => beqb b (str ":") | TElem _ => false end); [|apply rsim_throw].
        eapply rsim_bind; [apply open_object_rsim, H|]. intros o o' [[E1 H1] N1].
        rewrite <- E1. eapply rsim_bind.
        { apply readNext_with_rsim; [apply IHO; exact I|]. apply RA. }
        intros v v' HV. destruct v as [v|], v' as [v'|]; try contradiction; [|apply rsim_ub].
        eapply rsim_bind; [apply rsim_eq|]. intros i i' <-. cbv zeta.
        assert (LP : lrel (obj_push entry_key (sorts PS) (mkMeta i (Some (mid (fst o))), key, set_parent i v) (snd o))
                          (obj_push entry_key (sorts PK) (mkMeta i (Some (mid (fst o))), key, set_parent i v') (snd o'))).
        { apply lrel_push; [|exact H1|exact N1]. split; [reflexivity|]. apply nrel_set_parent. exact HV. }
        eapply rsim_bind; [rewrite lex_eq; apply rsim_eq|]. intros t3 t3' <-.
        destruct t3 as [n|b]; [apply rsim_ret, lrel_obj, LP|].
        destruct (beqb b (str "}")); [apply rsim_ret, lrel_obj, LP|].
        apply IHO. split; [reflexivity|exact LP].
      + assert (EM : match r with None => true | Some _ => false end = match r' with None => true | Some _ => false end).
        { destruct r as [[m l]|], r' as [[m' l']|]; try contradiction; reflexivity. }
        rewrite EM. destruct (beqb b (str "}") && match r' with None => true | Some _ => false end); [|apply rsim_throw].
        apply rsim_same, nrel_refl.
    - intros parent r r' t H. cbn [array_loop]. eapply rsim_bind with (R := nrel).
      { destruct t as [n|b]; [apply rsim_ret, nrel_refl|]. destruct (beqb b (str "[")); [apply RA|].
        destruct (beqb b (str "{")); [apply IHO; exact I|apply rsim_throw]. }
      intros n n' HN. eapply rsim_bind with (R := arel).
      { destruct r as [x|], r' as [x'|]; try contradiction; [apply rsim_ret; exact H|].
        apply rsim_same. intros a. split; [reflexivity|].
        induction (snd a); constructor; auto using nrel_refl. }
      intros x x' [E1 H1]. cbv zeta. rewrite <- E1.
      assert (FL : Forall2 nrel (snd x ++ [set_parent (mid (fst x)) n]) (snd x' ++ [set_parent (mid (fst x)) n'])).
      { apply Forall2_app; [exact H1|]. constructor; [apply nrel_set_parent, HN|constructor]. }
      rewrite <- !lex_eq. eapply rsim_bind; [apply rsim_eq|]. intros t2 t2' <-.
      destruct t2 as [n2|b]; [apply rsim_throw|].
      destruct (beqb b (str "]")); [apply rsim_ret; constructor; exact FL|].
      destruct (negb (beqb b (str ","))); [apply rsim_throw|].
      eapply rsim_bind; [apply rsim_eq|]. intros t3 t3' <-. apply IHA. split; [reflexivity|exact FL].
  Qed.


  Lemma readNext_rsim f : rsim (orel nrel) (readNext e PS f None) (readNext e PK f None).
  Proof.
    destruct (loops_rsim f) as [HO HA]. unfold readNext. apply readNext_with_rsim; [apply HO; exact I|].
    apply readArray_with_rsim. intros. apply HA. exact I.
  Qed.
End Sort.

Lemma nrel_reordered n : forall n', nrel n n' -> reordered (erase n) (erase n').
Proof.
  induction n as [m p|m l IH|m l IH] using node_ind'; intros n' H; inversion H as [| ? ? l' F|? ? l1 l' P F]; subst; simpl.
  - constructor.
  - constructor. clear H. induction F; simpl; constructor; inversion_clear IH; auto.
  - apply RO_obj with (map (fun e => (snd (fst e), erase (snd e))) l1).
    + apply Permutation_map, P.
    + clear H P. induction F as [|a b la lb [E1 E2] F IHF]; simpl; constructor; inversion_clear IH; auto.
      simpl. split; [congruence|auto].
Qed.

(** Outcome comparison of C06. *)
Lemma read_sort_rel e st_ au input :
  match read_doc e (Some (mkCfg st_ au true)) input, read_doc e (Some (mkCfg st_ au false)) input with
  | Ok (Some r, s), Ok (Some r', s') => s = s' /\ reordered (erase r) (erase r')
  | Ok (None, s), Ok (None, s') => s = s'
  | Throw x, Throw y => x = y
  | Abort x, Abort y => x = y
  | UB x, UB y => x = y
  | _, _ => False
  end.
Proof.
  pose proof (readNext_rsim e st_ au (S (S (length input))) (init_st input)) as H.
  pose proof (read_doc_terminates e (Some (mkCfg st_ au true)) input) as T.
  unfold read_doc in *.
  destruct (readNext e (Some (mkCfg st_ au true)) _ None (init_st input)) as [[[r|] s]| | | |],
           (readNext e (Some (mkCfg st_ au false)) _ None (init_st input)) as [[[r'|] s']| | | |];
    try contradiction; auto.
  - destruct H as [H1 H2]. split; [exact H1|apply nrel_reordered, H2].
  - destruct H as [_ []].
  - destruct H as [_ []].
  - destruct H as [H1 _]. exact H1.
Qed.

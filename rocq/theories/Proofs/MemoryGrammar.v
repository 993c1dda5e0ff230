(** Texts of the grammar: nothing is lost while reading them. *)
From Verif Require Export Proofs.MemoryProofs Proofs.GrammarProps.
Open Scope Z_scope.

(** * More fuel does not change an outcome *)
Section Fuel.
  Variable e : env.
  Variable params : option cfg.

  Lemma readArray_mem_le l1 l2 parent : (forall t, mle (l1 parent t) (l2 parent t)) ->
    mle (readArray_mem e params l1 parent) (readArray_mem e params l2 parent).
  Proof.
    intros H. unfold readArray_mem. apply mle_bind; [apply mle_refl|]. intros [n|b]; [apply H|].
    destruct (beqb b (str "]")); [apply mle_refl|apply H].
  Qed.

  Lemma readNext_mem_le o1 o2 a1 a2 parent : mle (o1 parent) (o2 parent) -> mle (a1 parent) (a2 parent) ->
    mle (readNext_mem e params o1 a1 parent) (readNext_mem e params o2 a2 parent).
  Proof.
    intros HO HA. unfold readNext_mem. apply mle_bind; [apply mle_refl|]. intros [n|b]; [apply mle_refl|].
    destruct (beqb b (str "{")); [apply mle_bind; [exact HO|intros; apply mle_refl]|].
    destruct (beqb b (str "[")); [apply mle_bind; [exact HA|intros; apply mle_refl]|apply mle_refl].
  Qed.

  Lemma mem_le f : forall g, (f <= g)%nat ->
    (forall parent result, mle (object_mem e params f parent result) (object_mem e params g parent result)) /\
    (forall parent result t, mle (array_mem e params f parent result t) (array_mem e params g parent result t)).
  Proof.
    induction f as [|f IH]; intros g L.
    { split; intros; intros s; left; reflexivity. }
    destruct g as [|g]; [lia|]. destruct (IH g ltac:(lia)) as [IHO IHA]. split.
    - intros parent result. cbn [object_mem]. apply mle_bind; [apply mle_refl|].
      intros [n|b]; [|apply mle_refl]. destruct n as [m p|m l|m l]; try apply mle_refl.
      destruct p; try apply mle_refl. apply mle_bind; [apply mle_refl|]. intros t2.
      destruct (match t2 with TTok b => beqb b (str ":") | TElem _ => false end); [|apply mle_refl].
      apply mle_bind; [apply mle_refl|]. intros r. cbv zeta. apply mle_bind.
      + apply readNext_mem_le; [apply IHO|]. apply readArray_mem_le. intros. apply IHA.
      + intros v. destruct (fst v); [|apply mle_refl]. apply mle_bind; [apply mle_refl|]. intros i.
        cbv zeta. apply mle_bind; [apply mle_refl|]. intros [k|b]; [apply mle_refl|].
        destruct (beqb b (str "}")); [apply mle_refl|]. apply mle_bind; [apply IHO|intros; apply mle_refl].
    - intros parent result t. cbn [array_mem]. apply mle_bind.
      + destruct t as [n|b]; [apply mle_refl|].
        destruct (beqb b (str "[")); [apply readArray_mem_le; intros; apply IHA|].
        destruct (beqb b (str "{")); [apply IHO|apply mle_refl].
      + intros n. apply mle_bind; [apply mle_refl|]. intros r. cbv zeta. apply mle_bind; [apply mle_refl|].
        intros [n'|b]; [apply mle_refl|]. destruct (beqb b (str "]")); [apply mle_refl|].
        destruct (negb (beqb b (str ","))); [apply mle_refl|].
        apply mle_bind; [apply mle_refl|]. intros t3. apply mle_bind; [apply IHA|intros; apply mle_refl].
  Qed.
End Fuel.

(** * The grammar *)
Section Grammar.
  Variable e : env.
  Variable p : cfg.
  Let params := Some p.
  Variable uni : bytes -> bytes -> Prop.
  Hypothesis uni_ok : forall h v, uni h v -> (exists u, code_unit h u) /\
    (if ignoreUnicode p then v = BSLASH :: "u"%char :: h else appendUnicode e h = UniOk v).
  Let Str := jstring kept_ctrl uni.

  Definition clean {A} (rest : bytes) (r : A * account) (s' : st) : Prop := snd (snd r) = [] /\ exists w, at_ w rest s'.

  Definition follows (f : nat) (rest : bytes) (t : tok) (s1 : st) : Prop :=
    match t with
    | TElem n => exists w, at_ w rest s1
    | TTok b =>
        (b = str "[" /\ forall q, wp (readArray_mem e params (fun q t => array_mem e params f q None t) q) (clean rest) never s1) \/
        (b = str "{" /\ forall q, wp (object_mem e params f q None) (clean rest) never s1)
    end.

  Definition C_val (t : bytes) (v : tree) : Prop :=
    exists f0, forall f w0 w rest s parent, (f0 <= f)%nat -> (strict p = true -> distinct_keys v) ->
      ws w0 -> boundary rest -> at_ w (w0 ++ t ++ rest) s ->
      wp (consumeToken e params parent) (follows f rest) never s.

  Definition C_elems (t : bytes) (l : list tree) : Prop :=
    exists f0, forall f w rest s parent, (f0 <= f)%nat -> (strict p = true -> Forall distinct_keys l) ->
      at_ w (t ++ "]"%char :: rest) s ->
      wp (consumeToken e params parent) (fun tk s1 => tk <> TTok (str "]") /\
        forall q res, wp (array_mem e params f q res tk) (clean rest) never s1) never s.

  Definition apart_from (acc : list (meta * bytes * node)) (l : list (bytes * tree)) : Prop :=
    (forall k, In k (map fst l) -> ~ In k (map entry_key acc)) /\ NoDup (map fst l) /\
    Forall (fun kv => distinct_keys (snd kv)) l.

  Definition C_members (t : bytes) (l : list (bytes * tree)) : Prop :=
    exists f0, forall f w rest s q res, (f0 <= f)%nat -> (strict p = true -> apart_from (acc_obj res) l) ->
      at_ w (t ++ "}"%char :: rest) s ->
      wp (object_mem e params f q res) (clean rest) never s.

  (** Scalars. *)
  Lemma prim_clean t x :
    (forall w0 w rest s parent, ws w0 -> boundary rest -> at_ w (w0 ++ t ++ rest) s ->
       wp (consumeToken e params parent) (fun t s' => (exists m, t = TElem (NPrim m x)) /\ at_ w rest s') never s) ->
    C_val t (TPrim x).
  Proof.
    intros K. exists O. intros f w0 w rest s parent _ _ W B H. eapply wp_mono; [eapply K; eauto| |auto].
    intros tk s' ((m & ->) & H'). exists w. exact H'.
  Qed.

  Lemma C_str b v : Str b v -> C_val (DQUOTE :: b ++ [DQUOTE]) (TPrim (PStr v)).
  Proof.
    intros S. apply prim_clean. intros w0 w rest s parent W B H. cbn [app] in H. rewrite <- app_assoc in H.
    exact (token_string e p uni uni_ok w0 b v w rest parent s W S H).
  Qed.

  Lemma C_null : C_val (str "null") (TPrim PNull).
  Proof.
    apply prim_clean. intros w0 w rest s parent W B H. eapply wp_token; [exact W|exact H|]. intros s1 H1 G1 fuel.
    exact (null_at params w rest parent s1 H1).
  Qed.

  Lemma C_true : C_val (str "true") (TPrim (PBool true)).
  Proof.
    apply prim_clean. intros w0 w rest s parent W B H. eapply wp_token; [exact W|exact H|]. intros s1 H1 G1 fuel.
    exact (bool_true params w rest parent s1 B H1).
  Qed.

  Lemma C_false : C_val (str "false") (TPrim (PBool false)).
  Proof.
    apply prim_clean. intros w0 w rest s parent W B H. eapply wp_token; [exact W|exact H|]. intros s1 H1 G1 fuel.
    exact (bool_false params w rest parent s1 B H1).
  Qed.

  Lemma C_int neg l x : int_digits l -> int_prim (signed neg (dec_value l)) x -> C_val (minus neg ++ l) (TPrim x).
  Proof.
    intros [D _] IP. apply prim_clean. intros w0 w rest s parent W B H.
    destruct (minus neg ++ l) as [|c r] eqn:E.
    { destruct D as [N _]. destruct neg; destruct l; discriminate || congruence. }
    destruct (number_first neg l c r D E) as (E1 & E2 & E3 & E4).
    eapply wp_token; [exact W|exact H|]. intros s1 H1 G1 fuel. rewrite E1, E2, E3, E4.
    eapply number_int; eauto; rewrite E; [exact H1|reflexivity].
  Qed.

  Lemma C_dbl neg l fr : int_digits l -> digits fr -> C_val (minus neg ++ l ++ "."%char :: fr)
    (TPrim (PDbl (decimal_to_double neg (dec_value (l ++ fr)) (Z.of_nat (length fr))))).
  Proof.
    intros [D _] D'. apply prim_clean. intros w0 w rest s parent W B H.
    replace ((minus neg ++ l ++ "."%char :: fr) ++ rest) with ((minus neg ++ l) ++ "."%char :: fr ++ rest) in H
      by (rewrite <- !app_assoc; reflexivity).
    destruct (minus neg ++ l) as [|c r] eqn:E.
    { destruct D as [N _]. destruct neg; destruct l; discriminate || congruence. }
    destruct (number_first neg l c r D E) as (E1 & E2 & E3 & E4).
    cbn [app] in H. eapply wp_token; [exact W|exact H|]. intros s1 H1 G1 fuel. rewrite E1, E2, E3, E4.
    eapply number_dbl; eauto; rewrite E; [exact H1|reflexivity].
  Qed.

  (** Values inside arrays and objects. *)
  Lemma in_array f rest t s : follows f rest t s ->
    wp (match t with
        | TElem n => ret (n, nothing)
        | TTok b =>
            if beqb b (str "[") then readArray_mem e params (fun p t => array_mem e params f p None t) None
            else if beqb b (str "{") then object_mem e params f None None
            else throw NotJson
        end) (clean rest) never s.
  Proof.
    destruct t as [n|b]; intros H; [apply wp_ret; split; [reflexivity|exact H]|]. destruct H as [[-> H]|[-> H]].
    - exact (H None).
    - exact (H None).
  Qed.

  Lemma in_object f rest q s : wp (consumeToken e params q) (follows f rest) never s ->
    wp (readNext_mem e params (fun p => object_mem e params f p None)
          (readArray_mem e params (fun p t => array_mem e params f p None t)) q)
       (fun c s' => (exists n, fst c = Some n) /\ clean rest c s') never s.
  Proof.
    intros H. unfold readNext_mem. apply wp_bind. eapply wp_mono; [exact H| |auto].
    intros t s1 A. destruct t as [n|b]; [apply wp_ret; split; [exists n; reflexivity|split; [reflexivity|exact A]]|].
    destruct A as [[-> A]|[-> A]].
    - change (beqb (str "[") (str "{")) with false. change (beqb (str "[") (str "[")) with true. cbv iota.
      apply wp_bind. eapply wp_mono; [apply A| |auto]. intros n s2 P. apply wp_ret. split; [eexists; reflexivity|exact P].
    - change (beqb (str "{") (str "{")) with true. cbv iota.
      apply wp_bind. eapply wp_mono; [apply A| |auto]. intros n s2 P. apply wp_ret. split; [eexists; reflexivity|exact P].
  Qed.

  Lemma not_end f rest t s : follows f rest t s -> t <> TTok (str "]").
  Proof. intros H ->. destruct H as [[H _]|[H _]]; discriminate. Qed.

  Lemma C_one w1 t w2 v : ws w1 -> C_val t v -> ws w2 -> C_elems (w1 ++ t ++ w2) [v].
  Proof.
    intros W1 (f0 & V) W2. exists (S f0). intros f w rest s parent F D H.
    destruct f as [|f]; [lia|]. rewrite <- !app_assoc in H.
    assert (D1 : strict p = true -> distinct_keys v) by (intros Q; specialize (D Q); inversion D; auto).
    eapply wp_mono; [eapply (V f); [lia|exact D1|exact W1| |exact H]| |auto].
    { apply boundary_ws; [exact W2|left; reflexivity]. }
    intros tk s1 A. split; [eapply not_end, A|]. intros q res. cbn [array_mem].
    apply wp_bind. eapply wp_mono; [eapply in_array, A| |auto]. intros n s2 (EL & w' & H2).
    apply wp_bind. eapply wp_mono; [eapply arr_result, H2| |auto]. intros r s3 [_ H3]. cbv zeta.
    apply wp_bind. eapply wp_mono; [eapply token_punct; [exact W2|exact H3|reflexivity]| |auto].
    intros t2 s4 [-> H4]. change (beqb ["]"%char] (str "]")) with true. cbv iota. apply wp_ret. split; [exact EL|eauto].
  Qed.

  Lemma C_more w1 t w2 v t' l : ws w1 -> C_val t v -> ws w2 -> C_elems t' l ->
    C_elems (w1 ++ t ++ w2 ++ ","%char :: t') (v :: l).
  Proof.
    intros W1 (f0 & V) W2 (f1 & L). exists (S (f0 + f1)). intros f w rest s parent F D H.
    destruct f as [|f]; [lia|]. rewrite <- !app_assoc in H. cbn [app] in H. 
    assert (D1 : strict p = true -> distinct_keys v) by (intros Q; specialize (D Q); inversion D; auto).
    assert (D2 : strict p = true -> Forall distinct_keys l) by (intros Q; specialize (D Q); inversion D; auto).
    eapply wp_mono; [eapply (V f); [lia|exact D1|exact W1| |exact H]| |auto].
    { apply boundary_ws; [exact W2|right; right; reflexivity]. }
    intros tk s1 A. split; [eapply not_end, A|]. intros q res. cbn [array_mem].
    apply wp_bind. eapply wp_mono; [eapply in_array, A| |auto]. intros n s2 (EL & w' & H2).
    apply wp_bind. eapply wp_mono; [eapply arr_result, H2| |auto]. intros r s3 [_ H3]. cbv zeta.
    apply wp_bind. eapply wp_mono; [eapply token_punct; [exact W2|exact H3|reflexivity]| |auto].
    intros t2 s4 [-> H4]. change (beqb [","%char] (str "]")) with false. change (beqb [","%char] (str ",")) with true.
    cbn [negb]. apply wp_bind. eapply wp_mono; [eapply (L f); [lia|exact D2|exact H4]| |auto].
    intros t3 s5 [_ K]. apply wp_bind. eapply wp_mono; [apply K| |auto].
    intros n' s6 (EL' & H6). apply wp_ret. split; [|exact H6]. cbn [fst snd plus]. rewrite EL, EL'. reflexivity.
  Qed.

  Lemma C_arr0 w1 : ws w1 -> C_val ("["%char :: w1 ++ str "]") (TArr []).
  Proof.
    intros W1. exists O. intros f w0 w rest s parent _ _ W B H. cbn [app] in H. rewrite <- app_assoc in H.
    eapply wp_mono; [eapply token_punct; [exact W|exact H|reflexivity]| |auto]. intros tk s1 [-> H1]. left.
    split; [reflexivity|]. intros q. unfold readArray_mem. apply wp_bind.
    eapply wp_mono; [eapply token_punct; [exact W1|exact H1|reflexivity]| |auto]. intros t2 s2 [-> H2].
    change (beqb ["]"%char] (str "]")) with true. cbv iota. apply wp_bind, wp_fresh, wp_ret.
    split; [reflexivity|]. exists w. apply at_fresh, H2.
  Qed.

  Lemma C_arr t l : C_elems t l -> C_val ("["%char :: t ++ str "]") (TArr l).
  Proof.
    intros (f0 & L). exists f0. intros f w0 w rest s parent F D W B H. cbn [app] in H. rewrite <- app_assoc in H.
    eapply wp_mono; [eapply token_punct; [exact W|exact H|reflexivity]| |auto]. intros tk s1 [-> H1]. left.
    split; [reflexivity|]. intros q. unfold readArray_mem. apply wp_bind.
    eapply wp_mono; [eapply (L f); [lia| |exact H1]| |auto].
    { intros Q. specialize (D Q). inversion D; auto. }
    intros t2 s2 [N K]. destruct t2 as [n|b]; [apply K|]. destruct (beqb b (str "]")) eqn:EB; [|apply K].
    apply beqb_eq in EB. subst b. congruence.
  Qed.

  Lemma erase_keys_in k (l : list (meta * bytes * node)) x :
    In x (map entry_key (obj_erase entry_key k l)) -> In x (map entry_key l).
  Proof.
    rewrite !in_map_iff. intros (y & E & H). exists y. split; [exact E|]. eapply obj_erase_incl, H.
  Qed.

  Lemma open_clean w rest q res key s : at_ w rest s ->
    (strict p = true -> ~ In key (map entry_key (acc_obj res))) ->
    wp (open_object_mem params q res key) (fun ra s' => clean rest ra s' /\
      forall x, In x (map entry_key (snd (fst ra))) -> In x (map entry_key (acc_obj res))) never s.
  Proof.
    intros H D. unfold open_object_mem, open_object. apply wp_bind. destruct res as [[m l]|].
    - cbn [acc_obj snd] in *. destruct (obj_contains entry_key key l) eqn:C.
      + apply contains_in in C. unfold strict_keys, params. destruct (strict p); [exfalso; apply D; auto|].
        apply wp_warn, wp_ret, wp_ret. split; [|intros x; apply erase_keys_in]. split; [reflexivity|].
        destruct H as (A & B & _). eexists (_ : list exn). split; [exact A|split; [exact B|reflexivity]].
      + apply wp_ret, wp_ret. split; [|auto]. split; [reflexivity|eauto].
    - apply wp_bind, wp_fresh, wp_ret, wp_ret. split; [|auto]. split; [reflexivity|]. exists w. apply at_fresh, H.
  Qed.

  (** A member and its separator [c]. *)
  Lemma member_clean w1 k kv w2 w3 t v w4 : ws w1 -> Str k kv -> ws w2 -> ws w3 -> C_val t v -> ws w4 ->
    exists f0, forall f w c rest s q res, (f0 <= f)%nat ->
      (strict p = true -> ~ In kv (map entry_key (acc_obj res)) /\ distinct_keys v) ->
      (c = "}"%char \/ c = ","%char) ->
      at_ w (w1 ++ DQUOTE :: k ++ DQUOTE :: w2 ++ ":"%char :: w3 ++ t ++ w4 ++ c :: rest) s ->
      forall rest', 
      (forall m l w' s', (forall x, In x (map entry_key l) -> x = kv \/ In x (map entry_key (acc_obj res))) ->
         at_ w' rest s' ->
         wp (if beqb [c] (str "}") then ret (NObj m l, nothing) else object_mem e params f q (Some (m, l))) (clean rest') never s') ->
      wp (object_mem e params (S f) q res) (clean rest') never s.
  Proof.
    intros W1 HS W2 W3 (f0 & V) W4. exists f0. intros f w c rest s q res F D C H rest' HK.
    cbn [object_mem]. apply wp_bind.
    eapply wp_mono; [eapply (token_string e p uni uni_ok); [exact W1|exact HS|exact H]| |auto]. intros tk s1 ((m1 & ->) & H1). cbv iota.
    apply wp_bind. eapply wp_mono; [eapply token_punct; [exact W2|exact H1|reflexivity]| |auto]. intros t2 s2 [-> H2].
    change (beqb [":"%char] (str ":")) with true. cbv iota.
    apply wp_bind. eapply wp_mono; [eapply open_clean; [exact H2|intros Q; apply D, Q]| |auto].
    intros r s3 ((EL & w' & H3) & IN). cbv zeta. apply wp_bind.
    eapply wp_mono; [eapply in_object, (V f); [lia|intros Q; apply D, Q|exact W3| |exact H3]| |auto].
    { apply boundary_ws; [exact W4|]. destruct C as [-> | ->]; unfold closes; auto. }
    intros ch s4 ((n & EC) & EL' & w'' & H4). rewrite EC. apply wp_bind, wp_fresh. apply wp_bind.
    eapply wp_mono; [eapply token_punct; [exact W4|apply at_fresh, H4|]| |auto].
    { destruct C as [-> | ->]; reflexivity. }
    intros t3 s5 [-> H5]. set (l := obj_push _ _ _ _). set (a := plus _ ([_], [])).
    assert (EA : snd a = []) by (subst a; cbn [snd plus]; rewrite EL, EL'; reflexivity).
    assert (IL : forall x, In x (map entry_key l) -> x = kv \/ In x (map entry_key (acc_obj res))).
    { intros x I. subst l. eapply Permutation_in in I; [|apply Permutation_map, Permutation_sym, obj_push_perm].
      cbn [map] in I. destruct I as [<-|I]; [left; reflexivity|right; apply IN, I]. }
    specialize (HK (fst (fst r)) l w'' s5 IL H5). destruct (beqb [c] (str "}")).
    - apply wp_ret. destruct HK as [_ HK]. split; [exact EA|exact HK].
    - apply wp_bind. eapply wp_mono; [exact HK| |auto]. intros x s6 (EX & H6). apply wp_ret. split; [|exact H6].
      cbn [fst snd plus]. rewrite EA, EX. reflexivity.
  Qed.

  Lemma C_mem_one w1 k kv w2 w3 t v w4 : ws w1 -> Str k kv -> ws w2 -> ws w3 -> C_val t v -> ws w4 ->
    C_members (w1 ++ DQUOTE :: k ++ DQUOTE :: w2 ++ ":"%char :: w3 ++ t ++ w4) [(kv, v)].
  Proof.
    intros W1 HS W2 W3 V W4. destruct (member_clean w1 k kv w2 w3 t v w4 W1 HS W2 W3 V W4) as (f0 & MO).
    exists (S f0). intros f w rest s q res F D H. destruct f as [|f]; [lia|].
    repeat (rewrite <- app_assoc in H; cbn [app] in H).
    eapply MO; [lia| |left; reflexivity|exact H|].
    - intros Q. destruct (D Q) as (A & _ & B). inversion_clear B. split; [apply A; left; reflexivity|assumption].
    - intros m l w' s' _ H'. change (beqb ["}"%char] (str "}")) with true. cbv iota. apply wp_ret. split; [reflexivity|eauto].
  Qed.

  Lemma C_mem_more w1 k kv w2 w3 t v w4 t' r : ws w1 -> Str k kv -> ws w2 -> ws w3 -> C_val t v -> ws w4 -> C_members t' r ->
    C_members (w1 ++ DQUOTE :: k ++ DQUOTE :: w2 ++ ":"%char :: w3 ++ t ++ w4 ++ ","%char :: t') ((kv, v) :: r).
  Proof.
    intros W1 HS W2 W3 V W4 (f1 & L). destruct (member_clean w1 k kv w2 w3 t v w4 W1 HS W2 W3 V W4) as (f0 & MO).
    exists (S (f0 + f1)). intros f w rest s q res F D H. destruct f as [|f]; [lia|].
    repeat (rewrite <- app_assoc in H; cbn [app] in H).
    eapply MO; [lia| |right; reflexivity|exact H|].
    - intros Q. destruct (D Q) as (A & _ & B). inversion_clear B. split; [apply A; left; reflexivity|assumption].
    - intros m l w' s' IL H'. change (beqb [","%char] (str "}")) with false. cbv iota.
      eapply (L f); [lia| |exact H']. intros Q. destruct (D Q) as (A & B & C). cbn [map fst] in A, B.
      apply NoDup_cons_iff in B. destruct B as [B1 B2]. inversion_clear C.
      split; [|split; assumption]. intros x I J. apply IL in J. cbn [acc_obj snd] in *. destruct J as [->|J]; [tauto|].
      exact (A x (or_intror I) J).
  Qed.

  Lemma C_obj0 w1 : ws w1 -> C_val ("{"%char :: w1 ++ str "}") (TObj []).
  Proof.
    intros W1. exists 1%nat. intros f w0 w rest s parent F _ W B H. cbn [app] in H. rewrite <- app_assoc in H.
    destruct f as [|f]; [lia|].
    eapply wp_mono; [eapply token_punct; [exact W|exact H|reflexivity]| |auto]. intros tk s1 [-> H1]. right.
    split; [reflexivity|]. intros q. cbn [object_mem]. apply wp_bind.
    eapply wp_mono; [eapply token_punct; [exact W1|exact H1|reflexivity]| |auto]. intros t2 s2 [-> H2].
    change (beqb ["}"%char] (str "}")) with true. cbn [andb]. apply wp_bind, wp_fresh, wp_ret.
    split; [reflexivity|]. exists w. apply at_fresh, H2.
  Qed.

  Lemma C_obj t l : C_members t l -> C_val ("{"%char :: t ++ str "}") (TObj l).
  Proof.
    intros (f0 & L). exists f0. intros f w0 w rest s parent F D W B H. cbn [app] in H. rewrite <- app_assoc in H.
    eapply wp_mono; [eapply token_punct; [exact W|exact H|reflexivity]| |auto]. intros tk s1 [-> H1]. right.
    split; [reflexivity|]. intros q. eapply (L f); [lia| |exact H1].
    intros Q. specialize (D Q). inversion D; subst. split; [intros k _ []|]. split; assumption.
  Qed.

  Lemma grammar_clean :
    (forall t v, jval Str t v -> C_val t v) /\
    (forall t l, elems Str t l -> C_elems t l) /\
    (forall t l, members Str t l -> C_members t l).
  Proof.
    apply grammar_mut.
    - exact C_str.
    - exact C_null.
    - exact C_true.
    - exact C_false.
    - exact C_int.
    - exact C_dbl.
    - exact C_arr0.
    - intros t l _ H. exact (C_arr t l H).
    - exact C_obj0.
    - intros t l _ H. exact (C_obj t l H).
    - intros w1 t w2 v W1 _ V W2. exact (C_one w1 t w2 v W1 V W2).
    - intros w1 t w2 v t' l W1 _ V W2 _ L. exact (C_more w1 t w2 v t' l W1 V W2 L).
    - intros w1 k kv w2 w3 t v w4 W1 S W2 W3 _ V W4. exact (C_mem_one w1 k kv w2 w3 t v w4 W1 S W2 W3 V W4).
    - intros w1 k kv w2 w3 t v w4 t' l W1 S W2 W3 _ V W4 _ L. exact (C_mem_more w1 k kv w2 w3 t v w4 t' l W1 S W2 W3 V W4 L).
  Qed.

  Lemma grammar_read w0 t v rest : jval Str t v -> (strict p = true -> distinct_keys v) -> ws w0 -> boundary rest ->
    exists root del s', read_mem e params (w0 ++ t ++ rest) = Ok ((Some root, (del, [])), s') /\ inp s' = rest.
  Proof.
    intros J D W B. destruct (proj1 grammar_clean t v J) as (f0 & V).
    set (input := w0 ++ t ++ rest). set (g := S (S (length input))). set (f := (f0 + g)%nat).
    assert (A : at_ [] input (init_st input)).
    { split; [reflexivity|]. split; [|reflexivity]. apply init_ready. }
    pose proof (in_object f rest None (init_st input) (V f w0 [] rest (init_st input) None ltac:(unfold f; lia) D W B A)) as H.
    assert (LE : mle (readNext_mem e params (fun p => object_mem e params g p None)
                        (readArray_mem e params (fun p t => array_mem e params g p None t)) None)
                     (readNext_mem e params (fun p => object_mem e params f p None)
                        (readArray_mem e params (fun p t => array_mem e params f p None t)) None)).
    { destruct (mem_le e params g f ltac:(unfold f; lia)) as [HO HA]. apply readNext_mem_le; [apply HO|].
      apply readArray_mem_le. intros. apply HA. }
    unfold wp in H. destruct (readNext_mem e params (fun p => object_mem e params f p None) _ None (init_st input)) as [[c s']| | | |] eqn:ER; try contradiction.
    destruct H as ((n & EN) & EL & w' & EI & _).
    destruct c as [c [del lost]]. cbn [fst snd] in EN, EL. subst c lost. exists n, del, s'. split; [|exact EI].
    destruct (LE (init_st input)) as [Q|Q]; [|exact (eq_trans Q ER)]. exfalso.
    apply (read_doc_terminates e params input). rewrite <- read_forget. unfold forget, bind, read_mem. fold g. rewrite Q. reflexivity.
  Qed.
End Grammar.

(** * Reading and deleting a document *)
Lemma read_accounted e params input root s' : read_doc e params input = Ok (root, s') ->
  exists del lost, read_mem e params input = Ok ((root, (del, lost)), s') /\
    Permutation (ids_opt root ++ del ++ lost) (made 0 (nextid s')).
Proof.
  intros H. pose proof (read_forget e params input) as F. rewrite H in F. unfold forget, bind, ret in F.
  destruct (read_mem e params input) as [[[r [del lost]] s1]| | | |] eqn:R; try discriminate.
  injection F as E1 E2. cbn [fst] in E1. subst r s1. exists del, lost. split; [reflexivity|].
  unfold read_mem in R.
  assert (W : wp (readNext_mem e params (fun p => object_mem e params (S (S (length input))) p None)
      (readArray_mem e params (fun p t => array_mem e params (S (S (length input))) p None t)) None)
      (kept_post ids_opt [] (init_st input)) anyfail (init_st input)).
  { apply readNext_kept; intros s1; [apply (proj1 (loops_kept e params _) None None s1)|].
    apply readArray_kept. intros t s2 _. apply (proj2 (loops_kept e params _) None None t s2). }
  unfold wp in W. rewrite R in W. destruct W as [_ W]. apply cnt_perm. intros x. specialize (W x).
  cbn [fst snd all init_st nextid] in W. unfold all in W. cbn [fst snd] in W. rewrite cnt_nil in W. rewrite cnt_app. exact W.
Qed.

Lemma perm_split {A} (a b c : list A) l : Permutation (a ++ b ++ c) l -> NoDup l ->
  NoDup (b ++ a) /\ (forall x, In x c -> ~ In x (b ++ a)).
Proof.
  intros P N. assert (Q : NoDup ((b ++ a) ++ c)).
  { eapply Permutation_NoDup; [|exact N]. symmetry. etransitivity; [|exact P]. rewrite <- app_assoc.
    rewrite app_assoc. etransitivity; [apply Permutation_app_tail, Permutation_app_comm|]. rewrite <- app_assoc. reflexivity. }
  split; [eapply NoDup_app_remove_r, Q|]. clear P N. induction (b ++ a) as [|y z IH]; intros x I; [tauto|].
  cbn [app] in Q. apply NoDup_cons_iff in Q. destruct Q as [Q1 Q2]. intros [->|J]; [|exact (IH Q2 x I J)].
  apply Q1, in_or_app. right. exact I.
Qed.

Lemma read_freed_once e params input root s' : read_doc e params input = Ok (Some root, s') ->
  exists del lost, read_mem e params input = Ok ((Some root, (del, lost)), s') /\
    NoDup (del ++ destroy root) /\ (forall i, In i del -> 0 <= i < nextid s' /\ ~ In i (ids root)) /\
    (forall i, 0 <= i < nextid s' -> (In i (del ++ destroy root) <-> ~ In i lost)).
Proof.
  intros H. destruct (read_accounted _ _ _ _ _ H) as (del & lost & R & P). exists del, lost. split; [exact R|].
  cbn [ids_opt] in P. destruct (perm_split _ _ _ _ P (made_nodup _ _)) as [N L].
  assert (PD : Permutation (del ++ destroy root) (del ++ ids root)) by apply Permutation_app_head, destroy_ids.
  split; [eapply Permutation_NoDup; [symmetry; exact PD|exact N]|]. split.
  - intros i I. split.
    + apply made_in. eapply Permutation_in; [exact P|]. apply in_or_app. right. apply in_or_app. auto.
    + intros J. clear - N I J. induction del as [|y z IH]; [contradiction|]. cbn [app] in N. apply NoDup_cons_iff in N.
      destruct N as [N1 N2]. destruct I as [->|I]; [apply N1, in_or_app; auto|auto].
  - intros i I. split.
    + intros J K. apply (L i K). eapply Permutation_in; [exact PD|exact J].
    + intros K. apply made_in in I. eapply Permutation_in in I; [|symmetry; exact P].
      eapply Permutation_in; [symmetry; exact PD|]. rewrite !in_app_iff in *. tauto.
Qed.

Lemma read_freed_all e p w0 t v rest :
  jval (jstring kept_ctrl (if ignoreUnicode p then kept_uni else rfc_uni)) t v ->
  (strict p = true -> distinct_keys v) -> ws w0 -> boundary rest ->
  exists root del s', read_doc e (Some p) (w0 ++ t ++ rest) = Ok (Some root, s') /\
    read_mem e (Some p) (w0 ++ t ++ rest) = Ok ((Some root, (del, [])), s') /\
    Permutation (del ++ destroy root) (made 0 (nextid s')).
Proof.
  intros J D W B.
  assert (J' : jval (jstring kept_ctrl (conf_uni e p)) t v).
  { refine (proj1 (grammar_mono _ _ _) t v J). apply jstring_mono; [auto|]. intros h x. unfold conf_uni.
    destruct (ignoreUnicode p); [auto|]. intros (u & U & N & V). eauto. }
  destruct (grammar_read e p (conf_uni e p) (conf_uni_ok e p) w0 t v rest J' D W B) as (root & del & s' & R & _).
  exists root, del, s'.
  assert (RD : read_doc e (Some p) (w0 ++ t ++ rest) = Ok (Some root, s')).
  { rewrite <- read_forget. unfold forget, bind, ret. rewrite R. reflexivity. }
  split; [exact RD|]. split; [exact R|]. destruct (read_accounted _ _ _ _ _ RD) as (del' & lost & R' & P).
  rewrite R in R'. injection R' as <- <-. cbn [ids_opt] in P. rewrite app_nil_r in P.
  etransitivity; [apply Permutation_app_head, destroy_ids|]. etransitivity; [apply Permutation_app_comm|]. exact P.
Qed.

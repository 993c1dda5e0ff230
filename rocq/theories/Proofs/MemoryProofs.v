(** What the reader deletes and loses (Model/Memory.v). *)
From Verif Require Export Model.Memory Spec.MemorySpec Proofs.ParserTree Proofs.GrammarTree.
Open Scope Z_scope.

(** * Destructors *)
Lemma destroy_ids n : Permutation (destroy n) (ids n).
Proof.
  induction n as [m p|m l H|m l H] using node_ind'.
  - apply Permutation_refl.
  - rewrite ids_arr. cbn [destroy]. etransitivity; [symmetry; apply Permutation_cons_append|]. apply perm_skip.
    induction H as [|x l Hx H IH]; cbn [flat_map]; [constructor|]. apply Permutation_app; assumption.
  - rewrite ids_obj. cbn [destroy]. etransitivity; [symmetry; apply Permutation_cons_append|]. apply perm_skip.
    induction H as [|x l Hx H IH]; cbn [flat_map]; [constructor|]. apply Permutation_app; [|exact IH].
    unfold eids. etransitivity; [symmetry; apply Permutation_cons_append|]. apply perm_skip, Hx.
Qed.

Lemma destroy_entry_eids x : Permutation (destroy_entry x) (eids x).
Proof.
  unfold destroy_entry, eids. etransitivity; [symmetry; apply Permutation_cons_append|]. apply perm_skip, destroy_ids.
Qed.

Lemma erased_perm key l :
  Permutation (flat_map eids (obj_erase entry_key key l) ++ erased key l) (flat_map eids l).
Proof.
  induction l as [|x l IH]; cbn [obj_erase erased flat_map]; [constructor|].
  destruct (beqb (entry_key x) key).
  - etransitivity; [apply Permutation_app_comm|]. apply Permutation_app_tail, destroy_entry_eids.
  - cbn [flat_map]. rewrite <- app_assoc. apply Permutation_app_head, IH.
Qed.

Lemma erased_none key l : obj_contains entry_key key l = false -> erased key l = [].
Proof.
  unfold obj_contains. induction l as [|x l IH]; cbn [existsb erased]; intros H; [reflexivity|].
  apply orb_false_iff in H. destruct H as [A B]. rewrite A. apply IH, B.
Qed.

Section Memory.
  Variable e : env.
  Variable params : option cfg.

  (** * The account changes nothing else *)
  Definition forget {A} (m : M (A * account)) : M A := x <- m ;; ret (fst x).

  Lemma bind_ext {A B} (m : M A) (k k' : A -> M B) s : (forall a s1, k a s1 = k' a s1) -> bind m k s = bind m k' s.
  Proof. intros H. unfold bind. destruct (m s) as [[a s1]| | | |]; auto. Qed.

  Lemma forget_bind {A B} (m : M A) (k : A -> M (B * account)) s :
    forget (bind m k) s = bind m (fun a => forget (k a)) s.
  Proof. unfold forget, bind. destruct (m s) as [[a s1]| | | |]; reflexivity. Qed.

  Lemma bind_forget {A B} (m : M (A * account)) (k : A -> M B) s :
    bind (forget m) k s = bind m (fun a => k (fst a)) s.
  Proof. unfold forget, bind, ret. destruct (m s) as [[a s1]| | | |]; reflexivity. Qed.

  Lemma bind_same {A B} (m m' : M A) (k : A -> M B) s : m s = m' s -> bind m k s = bind m' k s.
  Proof. intros H. unfold bind. rewrite H. reflexivity. Qed.

  Lemma open_forget parent result key s :
    forget (open_object_mem params parent result key) s = open_object params parent result key s.
  Proof.
    unfold open_object_mem. rewrite forget_bind. unfold bind, forget, ret, bind. destruct (open_object _ _ _ _ s) as [[a s1]| | | |]; reflexivity.
  Qed.

  Lemma readNext_forget ro ra ro' ra' parent s :
    (forall p s, forget (ro p) s = ro' p s) -> (forall p s, forget (ra p) s = ra' p s) ->
    forget (readNext_mem e params ro ra parent) s = readNext_with e params ro' ra' parent s.
  Proof.
    intros HO HA. unfold readNext_mem, readNext_with. rewrite forget_bind. apply bind_ext. intros [n|b] s1; [reflexivity|].
    destruct (beqb b (str "{")); [|destruct (beqb b (str "["))]; [| |reflexivity].
    - rewrite forget_bind. rewrite <- (bind_same _ _ _ _ (HO parent s1)), bind_forget. apply bind_ext. reflexivity.
    - rewrite forget_bind. rewrite <- (bind_same _ _ _ _ (HA parent s1)), bind_forget. apply bind_ext. reflexivity.
  Qed.

  Lemma readArray_forget loop loop' parent s :
    (forall p t s, forget (loop p t) s = loop' p t s) ->
    forget (readArray_mem e params loop parent) s = readArray_with e params loop' parent s.
  Proof.
    intros H. unfold readArray_mem, readArray_with. rewrite forget_bind. apply bind_ext. intros [n|b] s1; [apply H|].
    destruct (beqb b (str "]")); [reflexivity|apply H].
  Qed.

  Lemma forget_if {A} (b : bool) (m m' : M (A * account)) : forget (if b then m else m') = if b then forget m else forget m'.
  Proof. destruct b; reflexivity. Qed.

  Lemma forget_add {A} (m : M (A * account)) a s : forget (x <- m ;; ret (fst x, plus a (snd x))) s = forget m s.
  Proof. unfold forget, bind, ret. destruct (m s) as [[x s1]| | | |]; reflexivity. Qed.

  Lemma loops_forget f :
    (forall parent result s, forget (object_mem e params f parent result) s = object_loop e params f parent result s) /\
    (forall parent result t s, forget (array_mem e params f parent result t) s = array_loop e params f parent result t s).
  Proof.
    induction f as [|f [IHO IHA]]; [split; reflexivity|].
    assert (RA : forall p s, forget (readArray_mem e params (fun p t => array_mem e params f p None t) p) s =
                 readArray_with e params (fun p t => array_loop e params f p None t) p s).
    { intros p s. apply readArray_forget. intros. apply IHA. }
    split.
    - intros parent result s. cbn [object_mem object_loop]. rewrite forget_bind. apply bind_ext. intros t s1.
      destruct t as [n|b].
      2:{ destruct (beqb b (str "}") && _); reflexivity. }
      destruct n as [km pr|m l|m l]; try reflexivity. destruct pr as [key| | | | |]; try reflexivity.
      rewrite forget_bind. apply bind_ext. intros t2 s2.
      destruct (match t2 with TTok b => beqb b (str ":") | TElem _ => false end); [|reflexivity].
      rewrite forget_bind. rewrite <- (bind_same _ _ _ _ (open_forget parent result key s2)), bind_forget.
      apply bind_ext. intros r s3. cbv zeta. rewrite forget_bind.
      rewrite <- (bind_same _ _ _ _ (readNext_forget (fun p => object_mem e params f p None)
        (readArray_mem e params (fun p t => array_mem e params f p None t)) _ _ (Some (mid (fst (fst r)))) s3
        (fun p s => IHO p None s) RA)), bind_forget.
      apply bind_ext. intros child s4. destruct (fst child) as [v|]; [|reflexivity].
      rewrite forget_bind. apply bind_ext. intros i s5. rewrite forget_bind. apply bind_ext. intros t3 s6.
      destruct t3 as [k|b]; [reflexivity|]. destruct (beqb b (str "}")); [reflexivity|].
      rewrite forget_add. apply IHO.
    - intros parent result t s. cbn [array_mem array_loop]. rewrite forget_bind.
      match goal with |- bind ?m ?k s = bind ?m' ?k' s => assert (C : forget m s = m' s) end.
      { destruct t as [n|b]; [reflexivity|]. destruct (beqb b (str "[")); [apply RA|]. destruct (beqb b (str "{")); [apply IHO|reflexivity]. }
      rewrite <- (bind_same _ _ _ _ C), bind_forget. apply bind_ext. intros c s1. rewrite forget_bind.
      apply bind_ext. intros r s2. cbv zeta. rewrite forget_bind. apply bind_ext. intros t2 s3.
      destruct t2 as [k|b]; [reflexivity|]. destruct (beqb b (str "]")); [reflexivity|].
      destruct (negb (beqb b (str ","))); [reflexivity|]. rewrite forget_bind. apply bind_ext. intros t3 s4.
      rewrite forget_add. apply IHA.
  Qed.

  Lemma read_forget input : forget (fun _ => read_mem e params input) (init_st input) = read_doc e params input.
  Proof.
    unfold read_doc, readNext, readObject, readArray.
    change (forget (readNext_mem e params (fun p => object_mem e params (S (S (length input))) p None)
      (readArray_mem e params (fun p t => array_mem e params (S (S (length input))) p None t)) None) (init_st input) =
      readNext_with e params (fun p => object_loop e params (S (S (length input))) p None)
        (readArray_with e params (fun p t => array_loop e params (S (S (length input))) p None t)) None (init_st input)).
    apply readNext_forget; intros p s; [apply loops_forget|]. apply readArray_forget. intros. apply loops_forget.
  Qed.

  (** * Every element made is in the tree, deleted or lost *)
  Definition cnt (l : list Z) (x : Z) : nat := count_occ Z.eq_dec l x.

  Lemma cnt_app a b x : cnt (a ++ b) x = (cnt a x + cnt b x)%nat.
  Proof. apply count_occ_app. Qed.
  Definition cnt1 (i x : Z) : nat := if Z.eq_dec i x then 1 else 0.
  Lemma cnt_cons i a x : cnt (i :: a) x = (cnt1 i x + cnt a x)%nat.
  Proof. unfold cnt, cnt1. cbn [count_occ]. destruct (Z.eq_dec i x); reflexivity. Qed.
  Lemma cnt_nil x : cnt [] x = O.
  Proof. reflexivity. Qed.
  Hint Rewrite cnt_app cnt_cons cnt_nil : cnt.
  Lemma cnt_perm a b : Permutation a b <-> forall x, cnt a x = cnt b x.
  Proof. apply Permutation_count_occ. Qed.

  Lemma made_app a b c : a <= b <= c -> made a c = made a b ++ made b c.
  Proof.
    intros L. unfold made.
    replace (Z.to_nat (c - a)) with (Z.to_nat (b - a) + Z.to_nat (c - b))%nat by lia.
    rewrite seq_app, map_app. f_equal. cbn [Nat.add].
    assert (G : forall k o, map (fun i => a + Z.of_nat i) (seq (Z.to_nat (b - a) + o) k) = map (fun i => b + Z.of_nat i) (seq o k)).
    { induction k as [|k IH]; intros o; [reflexivity|].
      cbn [seq map]. f_equal; [lia|]. rewrite <- (IH (S o)), Nat.add_succ_r. reflexivity. }
    rewrite <- (G (Z.to_nat (c - b)) O), Nat.add_0_r. reflexivity.
  Qed.
  Lemma made_same a : made a a = [].
  Proof. unfold made. rewrite Z.sub_diag. reflexivity. Qed.
  Lemma made_one a : made a (a + 1) = [a].
  Proof. unfold made. replace (a + 1 - a) with 1 by lia. change (Z.to_nat 1) with 1%nat. cbn [seq map]. f_equal. apply Z.add_0_r. Qed.

  Lemma made_nodup a b : NoDup (made a b).
  Proof.
    unfold made. apply FinFun.Injective_map_NoDup; [intros x y Q; lia|apply seq_NoDup].
  Qed.
  Lemma made_in a b i : In i (made a b) <-> a <= i < b.
  Proof.
    unfold made. rewrite in_map_iff. split.
    - intros (k & <- & H). apply in_seq in H. lia.
    - intros H. exists (Z.to_nat (i - a)). split; [lia|]. apply in_seq. lia.
  Qed.

  Definition all (a : account) : list Z := fst a ++ snd a.
  Lemma cnt_plus a b x : cnt (all (plus a b)) x = (cnt (all a) x + cnt (all b) x)%nat.
  Proof. unfold all, plus. cbn [fst snd]. rewrite !cnt_app. lia. Qed.

  (** [held]: identities the call is given. *)
  Definition kept_post {A} (get : A -> list Z) (held : list Z) (s : st) (r : A * account) (s' : st) : Prop :=
    nextid s <= nextid s' /\
    forall x, (cnt (get (fst r)) x + cnt (all (snd r)) x = cnt held x + cnt (made (nextid s) (nextid s')) x)%nat.

  Definition ids_opt (n : option node) : list Z := match n with Some n => ids n | None => [] end.
  Definition ids_tok (t : tok) : list Z := match t with TElem n => ids n | TTok _ => [] end.
  Definition obj_ids (r : objpart) : list Z := mid (fst r) :: flat_map eids (snd r).
  Definition obj_held (r : option objpart) : list Z := match r with Some r => obj_ids r | None => [] end.
  Definition arr_ids (r : meta * list node) : list Z := mid (fst r) :: flat_map ids (snd r).
  Definition arr_held (r : option (meta * list node)) : list Z := match r with Some r => arr_ids r | None => [] end.

  Ltac ccc := autorewrite with cnt in *; lia.

  Lemma tok_kept parent s : wp (consumeToken e params parent)
    (fun t s' => nextid s <= nextid s' /\ forall x, cnt (ids_tok t) x = cnt (made (nextid s) (nextid s')) x) anyfail s.
  Proof.
    eapply wp_mono; [apply consumeToken_shape| |auto]. intros t s1 L. destruct t as [n|b]; cbn [ids_tok].
    - destruct L as (p & -> & ->). split; [lia|]. intros x. rewrite made_one. reflexivity.
    - cbn [lex_post] in L. destruct L as [L _]. rewrite L. split; [lia|]. intros x. rewrite made_same. reflexivity.
  Qed.

  Lemma tok_kept1 parent s : wp (consumeToken e params parent)
    (fun t s' => nextid s <= nextid s' /\ (forall x, cnt (ids_tok t) x = cnt (made (nextid s) (nextid s')) x) /\
       forall n, t = TElem n -> ids n = [nid n]) anyfail s.
  Proof.
    pose proof (tok_kept parent s) as K. pose proof (consumeToken_shape e params parent s) as L. unfold wp in *.
    destruct (consumeToken e params parent s) as [[t s1]| | | |]; auto. destruct K as [K1 K2]. split; [exact K1|]. split; [exact K2|].
    intros n ->. destruct L as (p & -> & _). reflexivity.
  Qed.

  Lemma cnt_made a b c x : a <= b <= c -> cnt (made a c) x = (cnt (made a b) x + cnt (made b c) x)%nat.
  Proof. intros L. rewrite (made_app a b c L). apply cnt_app. Qed.

  Lemma open_kept parent result key s :
    wp (open_object_mem params parent result key) (kept_post obj_ids (obj_held result) s) anyfail s.
  Proof.
    unfold open_object_mem, open_object. apply wp_bind. destruct result as [[m l]|].
    - destruct (obj_contains entry_key key l) eqn:C.
      + destruct (strict_keys params); [exact I|]. apply wp_warn, wp_ret, wp_ret. cbn [nextid]. split; [cbn; lia|].
        intros x. cbn [nextid fst snd obj_held]. rewrite made_same. unfold obj_ids, all. cbn [fst snd].
        rewrite app_nil_r.
        pose proof (proj1 (cnt_perm _ _) (erased_perm key l) x) as EP. ccc.
      + apply wp_ret, wp_ret. split; [lia|]. intros x. rewrite (erased_none key l C), made_same. cbn [fst snd obj_held].
        unfold all. cbn [fst snd app]. ccc.
    - apply wp_bind, wp_fresh, wp_ret, wp_ret. split; cbn [nextid]; [lia|]. intros x. rewrite made_one. cbn [fst snd obj_held].
      unfold obj_ids, all, nothing. cbn [fst snd flat_map mid app].  ccc.
  Qed.

  Lemma readArray_kept loop parent s :
    (forall t s1, nextid s <= nextid s1 -> wp (loop parent t) (kept_post ids (ids_tok t) s1) anyfail s1) ->
    wp (readArray_mem e params loop parent) (kept_post ids [] s) anyfail s.
  Proof.
    intros H. unfold readArray_mem. apply wp_bind. eapply wp_mono; [apply tok_kept| |auto].
    intros t s1 [L1 T1]. cbv beta.
    assert (K : wp (loop parent t) (kept_post ids [] s) anyfail s1).
    { eapply wp_mono; [apply H, L1| |auto]. intros r s2 [L2 T2]. split; [lia|]. intros x. specialize (T1 x). specialize (T2 x).
      rewrite (cnt_made (nextid s) (nextid s1)) by lia.  ccc. }
    destruct t as [n|b]; [exact K|]. destruct (beqb b (str "]")); [|exact K].
    apply wp_bind, wp_fresh, wp_ret. split; cbn [nextid]; [lia|]. intros x. specialize (T1 x). cbn [ids_tok] in T1.
    rewrite (cnt_made (nextid s) (nextid s1)) by lia. rewrite made_one. cbn [fst snd]. rewrite ids_arr. cbn [mid flat_map].
    unfold all, nothing. cbn [fst snd app].  ccc.
  Qed.

  Lemma readNext_kept ro ra parent s :
    (forall s1, wp (ro parent) (kept_post ids [] s1) anyfail s1) ->
    (forall s1, wp (ra parent) (kept_post ids [] s1) anyfail s1) ->
    wp (readNext_mem e params ro ra parent) (kept_post ids_opt [] s) anyfail s.
  Proof.
    intros HO HA. unfold readNext_mem. apply wp_bind. eapply wp_mono; [apply tok_kept| |auto].
    intros t s1 [L1 T1]. cbv beta. destruct t as [n|b]; cbn [ids_tok] in T1.
    - apply wp_ret. split; [lia|]. intros x. specialize (T1 x). cbn [fst snd ids_opt]. unfold all, nothing. cbn [fst snd app].
       ccc.
    - assert (K : forall m : M (node * account), wp m (kept_post ids [] s1) anyfail s1 ->
                  wp (x <- m ;; ret (Some (fst x), snd x)) (kept_post ids_opt [] s) anyfail s1).
      { intros m Hm. apply wp_bind. eapply wp_mono; [exact Hm| |auto]. intros r s2 [L2 T2]. apply wp_ret. split; [lia|].
        intros x. specialize (T1 x). specialize (T2 x). cbn [fst snd ids_opt]. rewrite (cnt_made (nextid s) (nextid s1)) by lia.
         ccc. }
      destruct (beqb b (str "{")); [apply K, HO|]. destruct (beqb b (str "[")); [apply K, HA|].
      apply wp_ret. split; [lia|]. intros x. specialize (T1 x). cbn [fst snd ids_opt]. unfold all, nothing. cbn [fst snd app].
       ccc.
  Qed.

  Lemma cnt_push srt x l z : cnt (flat_map eids (obj_push entry_key srt x l)) z = (cnt (eids x) z + cnt (flat_map eids l) z)%nat.
  Proof.
    rewrite <- cnt_app. symmetry. revert z. apply cnt_perm. exact (Permutation_flat_map' eids _ _ (obj_push_perm entry_key srt x l)).
  Qed.

  Lemma loops_kept f :
    (forall parent result s, wp (object_mem e params f parent result) (kept_post ids (obj_held result) s) anyfail s) /\
    (forall parent result t s, wp (array_mem e params f parent result t)
       (kept_post ids (arr_held result ++ ids_tok t) s) anyfail s).
  Proof.
    induction f as [|f [IHO IHA]]; [split; intros; exact I|].
    assert (RA : forall parent s, wp (readArray_mem e params (fun p t => array_mem e params f p None t) parent)
                   (kept_post ids [] s) anyfail s).
    { intros parent s. apply readArray_kept. intros t s1 _. apply (IHA parent None t s1). }
    split.
    - intros parent result s. cbn [object_mem]. apply wp_bind.
      eapply wp_mono; [apply consumeToken_shape| |auto]. intros t s1 L1. cbv beta.
      destruct t as [n|b].
      + destruct L1 as (pr & -> & E1). destruct pr as [key| | | | |]; try exact I.
        apply wp_bind. eapply wp_mono; [apply consumeToken_shape| |auto]. intros t2 s2 L2. cbv beta.
        destruct t2 as [n2|b2]; [exact I|]. cbn [lex_post] in L2. destruct L2 as [L2 _]. destruct (beqb b2 (str ":")); [|exact I].
        apply wp_bind. eapply wp_mono; [apply open_kept| |auto]. intros r s3 [L3 T3]. cbv beta zeta. apply wp_bind.
        eapply wp_mono; [apply readNext_kept; [intros; apply (IHO _ None)|intros; apply RA]| |auto].
        intros child s4 [L4 T4]. cbv beta. destruct (fst child) as [v|]; [|exact I]. cbn [ids_opt] in T4.
        apply wp_bind, wp_fresh. apply wp_bind.
        eapply wp_mono; [apply tok_kept1| |auto]. cbn [nextid]. intros t5 s5 (L5 & T5 & N5). cbv beta.
        set (l := obj_push _ _ _ _). set (a := plus _ ([_], [])).
        assert (P : forall x, (cnt (ids (NObj (fst (fst r)) l)) x + cnt (all a) x =
                    cnt (obj_held result) x + cnt (made (nextid s) (nextid s4 + 1)) x)%nat).
        { intros x. specialize (T3 x). specialize (T4 x). subst l a. rewrite ids_obj, cnt_cons, cnt_push, !cnt_plus.
          unfold eids at 1. cbn [fst snd mid]. rewrite ids_set_parent.
          unfold obj_ids in T3. unfold all at 3. cbn [fst snd app mid].
          rewrite (cnt_made (nextid s) (nextid s1)), E1, made_one by lia.
          rewrite (cnt_made (nextid s + 1) (nextid s3)) by lia. rewrite (cnt_made (nextid s3) (nextid s4)) by lia.
          rewrite made_one. replace (nextid s2) with (nextid s + 1) in * by lia.
          ccc. }
        destruct t5 as [n5|b5]; cbn [ids_tok] in T5.
        * apply wp_ret. split; [lia|]. intros x. specialize (P x). specialize (T5 x). cbn [fst snd]. rewrite cnt_plus.
          unfold all at 2. cbn [fst snd app]. rewrite (cnt_made (nextid s) (nextid s4 + 1)) by lia.
          specialize (N5 n5 eq_refl). rewrite N5 in T5. ccc.
        * destruct (beqb b5 (str "}")).
          -- apply wp_ret. split; [lia|]. intros x. specialize (P x). specialize (T5 x). cbn [fst snd].
             rewrite (cnt_made (nextid s) (nextid s4 + 1)) by lia. ccc.
          -- apply wp_bind. eapply wp_mono; [apply (IHO parent (Some _) s5)| |auto]. intros q s6 [L6 T6]. apply wp_ret.
             split; [lia|]. intros x. specialize (P x). specialize (T5 x). specialize (T6 x). cbn [fst snd]. rewrite cnt_plus.
             cbn [obj_held] in T6. unfold obj_ids in T6. cbn [fst snd] in T6. rewrite ids_obj in P.
             rewrite (cnt_made (nextid s) (nextid s4 + 1)), (cnt_made (nextid s4 + 1) (nextid s5)) by lia. ccc.
      + cbn [lex_post] in L1. destruct L1 as [L1 _]. destruct (beqb b (str "}") && _) eqn:EB; [|exact I]. destruct result; [rewrite andb_false_r in EB; discriminate|].
        apply wp_bind, wp_fresh, wp_ret. split; cbn [nextid]; [lia|]. intros x. rewrite L1, made_one. cbn [fst snd obj_held].
        rewrite ids_obj. cbn [mid flat_map]. unfold all, nothing. cbn [fst snd app].  ccc.
    - intros parent result t s. cbn [array_mem]. apply wp_bind.
      match goal with |- wp ?m _ _ _ => assert (C : wp m (kept_post ids (ids_tok t) s) anyfail s) end.
      { destruct t as [n|b]; cbn [ids_tok].
        - apply wp_ret. split; [lia|]. intros x. rewrite made_same. cbn [fst snd]. unfold all, nothing. cbn [fst snd app].  ccc.
        - destruct (beqb b (str "[")); [apply RA|]. destruct (beqb b (str "{")); [apply (IHO None None)|exact I]. }
      eapply wp_mono; [exact C| |auto]. clear C. intros c s1 [L1 T1]. cbv beta. apply wp_bind.
      match goal with |- wp ?m _ _ _ =>
        assert (R : wp m (fun r s' => nextid s1 <= nextid s' /\
          forall x, cnt (arr_ids r) x = (cnt (arr_held result) x + cnt (made (nextid s1) (nextid s')) x)%nat) anyfail s1) end.
      { destruct result as [r|].
        - apply wp_ret. split; [lia|]. intros x. rewrite made_same. cbn [arr_held]. ccc.
        - apply wp_bind, wp_fresh, wp_ret. split; cbn [nextid]; [lia|]. intros x. rewrite made_one. reflexivity. }
      eapply wp_mono; [exact R| |auto]. clear R. intros r s2 [L2 T2]. cbv beta zeta. apply wp_bind.
      eapply wp_mono; [apply tok_kept| |auto]. intros t3 s3 [L3 T3]. cbv beta. destruct t3 as [n3|b3]; [exact I|].
      cbn [ids_tok] in T3.
      set (l := snd r ++ _).
      assert (P : forall x, (cnt (mid (fst r) :: flat_map ids l) x + cnt (all (snd c)) x =
                    cnt (arr_held result) x + cnt (ids_tok t) x + cnt (made (nextid s) (nextid s3)) x)%nat).
      { intros x. specialize (T1 x). specialize (T2 x). specialize (T3 x). subst l. unfold arr_ids in T2.
        rewrite flat_map_app. cbn [flat_map]. rewrite app_nil_r, ids_set_parent.
        rewrite (cnt_made (nextid s) (nextid s1)), (cnt_made (nextid s1) (nextid s2)) by lia. ccc. }
      destruct (beqb b3 (str "]")).
      { apply wp_ret. split; [lia|]. intros x. cbn [fst snd]. rewrite ids_arr, cnt_app. apply P. }
      destruct (negb (beqb b3 (str ","))); [exact I|]. apply wp_bind.
      eapply wp_mono; [apply tok_kept| |auto]. intros t4 s4 [L4 T4]. cbv beta. apply wp_bind.
      eapply wp_mono; [apply (IHA parent (Some (fst r, l)) t4 s4)| |auto]. intros q s5 [L5 T5]. apply wp_ret. split; [lia|].
      intros x. specialize (P x). specialize (T4 x). specialize (T5 x). cbn [fst snd]. rewrite cnt_plus.
      cbn [arr_held] in T5. unfold arr_ids in T5. cbn [fst snd] in T5. rewrite cnt_app in T5. rewrite cnt_app.
      rewrite (cnt_made (nextid s) (nextid s3)), (cnt_made (nextid s3) (nextid s4)) by lia. ccc.
  Qed.
End Memory.

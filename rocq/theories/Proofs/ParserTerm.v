From Verif Require Export Proofs.ParserBase.
Open Scope Z_scope.

Section Termination.
  Variable e : env.
  Variable params : option cfg.

  Lemma fresh_reach {A} (k : Z -> M A) Q E s :
    (forall s', reach s s' -> inp s' = inp s -> his s' = his s -> warns s' = warns s -> good s' = good s ->
       wp (k (nextid s)) Q E s') ->
    ready s -> wp (i <- fresh ;; k i) Q E s.
  Proof.
    intros H R. apply wp_bind, wp_fresh. apply H; try reflexivity.
    exists []. split; [reflexivity|exact R].
  Qed.

  Lemma open_object_reach parent result key s : ready s ->
    wp (open_object params parent result key) (fun _ s' => reach s s' /\ inp s' = inp s) no_fuel s.
  Proof.
    intros R. unfold open_object. destruct result as [[m l]|].
    - destruct (obj_contains entry_key key l).
      + destruct (strict_keys params); [discriminate|].
        apply wp_warn, wp_ret. split; [|reflexivity]. exists []. split; [reflexivity|exact R].
      + apply wp_ret. split; [apply reach_refl, R|reflexivity].
    - apply fresh_reach; [|exact R]. intros. apply wp_ret. auto.
  Qed.

  Definition arr_cond (f : nat) (t : tok) (s : st) : Prop :=
    (1 <= f /\ t = TTok [] \/ length (inp s) + 2 <= f)%nat.

  Lemma readArray_reach f parent s :
    (forall parent t s, ready s -> arr_cond f t s ->
       wp (array_loop e params f parent None t) (fun _ s' => reach s s') no_fuel s) ->
    ready s -> (1 <= f)%nat -> (length (inp s) + 1 <= f)%nat ->
    wp (readArray_with e params (fun p t => array_loop e params f p None t) parent)
       (fun _ s' => reach s s') no_fuel s.
  Proof.
    intros H R F1 F. unfold readArray_with. apply wp_bind.
    eapply wp_mono; [apply consumeToken_reach, R| |auto].
    intros t s1 T. cbv beta. pose proof (tok_reach_reach _ _ _ T) as T'.
    assert (K : wp (array_loop e params f parent None t) (fun _ s' => reach s s') no_fuel s1).
    { eapply wp_mono; [apply H; [apply (reach_ready _ _ T')|]| |auto].
      - unfold arr_cond. destruct t as [n|[|c b]]; [right|left; auto|right];
          apply reach1_len in T; lia.
      - intros. eapply reach_trans; eauto. }
    destruct t as [n|b]; [exact K|].
    destruct (beqb b (str "]")); [|exact K].
    apply fresh_reach; [|apply (reach_ready _ _ T')]. intros. apply wp_ret. eapply reach_trans; eauto.
  Qed.

  Lemma readNext_reach f parent s :
    (forall parent s, ready s -> (length (inp s) + 1 <= f)%nat ->
       wp (object_loop e params f parent None) (fun _ s' => reach s s') no_fuel s) ->
    (forall parent t s, ready s -> arr_cond f t s ->
       wp (array_loop e params f parent None t) (fun _ s' => reach s s') no_fuel s) ->
    ready s -> (1 <= f)%nat -> (length (inp s) <= f)%nat ->
    wp (readNext_with e params (fun p => object_loop e params f p None)
         (readArray_with e params (fun p t => array_loop e params f p None t)) parent)
      (fun r s' => reach s s' /\ (r <> None -> reach1 s s')) no_fuel s.
  Proof.
    intros HO HA R F1 F. unfold readNext_with. apply wp_bind.
    eapply wp_mono; [apply consumeToken_reach, R| |auto].
    intros t s1 T. cbv beta. pose proof (tok_reach_reach _ _ _ T) as T'.
    destruct t as [n|b]; [apply wp_ret; auto using reach1_reach|].
    destruct (beqb b (str "{")) eqn:E1.
    - apply beqb_eq in E1. subst b. simpl in T.
      apply wp_bind. eapply wp_mono; [apply HO; [apply (reach_ready _ _ T')|apply reach1_len in T; lia]| |auto].
      intros n s2 Q. apply wp_ret. split; [eapply reach_trans; eauto|intros _; eapply reach1_trans_l; eauto].
    - destruct (beqb b (str "[")) eqn:E2; [|apply wp_ret; split; [exact T'|congruence]].
      apply beqb_eq in E2. subst b. simpl in T.
      apply wp_bind. eapply wp_mono; [apply readArray_reach; [exact HA|apply (reach_ready _ _ T')|exact F1|apply reach1_len in T; lia]| |auto].
      intros n s2 Q. apply wp_ret. split; [eapply reach_trans; eauto|intros _; eapply reach1_trans_l; eauto].
  Qed.

  Lemma loops_reach f :
    (forall parent result s, ready s -> (length (inp s) + 1 <= f)%nat ->
       wp (object_loop e params f parent result) (fun _ s' => reach s s') no_fuel s) /\
    (forall parent result t s, ready s -> arr_cond f t s ->
       wp (array_loop e params f parent result t) (fun _ s' => reach s s') no_fuel s).
  Proof.
    induction f as [|f [IHO IHA]].
    { split; [intros; lia|]. unfold arr_cond. intros; lia. }
    split.
    - intros parent result s R F. cbn [object_loop]. apply wp_bind.
      eapply wp_mono; [apply consumeToken_reach, R| |auto].
      intros t s1 T. cbv beta. pose proof (tok_reach_reach _ _ _ T) as T'.
      destruct t as [[m p|m l|m l]|b]; try discriminate.
      + destruct p as [key| | | | |]; try discriminate.
        simpl in T. apply wp_bind.
        eapply wp_mono; [apply consumeToken_reach, (reach_ready _ _ T')| |auto].
        intros t2 s2 T2. cbv beta. pose proof (tok_reach_reach _ _ _ T2) as T2'.
        destruct t2 as [n|b]; [discriminate|].
        destruct (beqb b (str ":")) eqn:EC; [|discriminate].
        apply beqb_eq in EC. subst b. simpl in T2.
        assert (R12 : reach1 s s2) by (eapply reach1_trans_l; eauto).
        apply wp_bind. eapply wp_mono; [apply open_object_reach, (reach_ready _ _ T2')| |auto].
        intros r s3 [T3 I3]. cbv beta. apply wp_bind.
        assert (L3 : (length (inp s3) + 2 <= length (inp s))%nat).
        { rewrite I3. apply reach1_len in T. apply reach1_len in T2. lia. }
        eapply wp_mono; [apply readNext_reach| |auto].
        * intros p s' R' F'. apply IHO; auto.
        * intros p t' s' R' F'. apply IHA; auto.
        * apply (reach_ready _ _ T3).
        * lia.
        * lia.
        * intros child s4 [T4 T4']. cbv beta. destruct child as [v|]; [|discriminate].
          assert (R14 : reach1 s s4). { eapply reach1_trans_l; [exact R12|]. eapply reach_trans; eauto. }
          apply fresh_reach; [|apply (reach_ready _ _ T4)].
          intros s5 T5 I5 _ _ _. cbv zeta. apply wp_bind.
          eapply wp_mono; [apply consumeToken_reach, (reach_ready _ _ T5)| |auto].
          intros t3 s6 T6. cbv beta.
          assert (R16 : reach1 s s6).
          { eapply reach1_trans_l; [exact R14|]. eapply reach_trans; [exact T5|]. apply (tok_reach_reach _ _ _ T6). }
          destruct t3 as [n|b]; [apply wp_ret, reach1_reach, R16|].
          destruct (beqb b (str "}")); [apply wp_ret, reach1_reach, R16|].
          eapply wp_mono; [apply IHO; [apply (reach_ready _ _ (reach1_reach _ _ R16))|]| |auto].
          -- apply reach1_len in R16. lia.
          -- intros n s7 Q. eapply reach_trans; [apply reach1_reach, R16|exact Q].
      + destruct (beqb b (str "}") && match result with None => true | Some _ => false end); [|discriminate].
        apply fresh_reach; [|apply (reach_ready _ _ T')]. intros. apply wp_ret. eapply reach_trans; eauto.
    - intros parent result t s R F. cbn [array_loop].
      destruct t as [n|b].
      + unfold arr_cond in F.
        assert (F' : (length (inp s) + 2 <= S f)%nat) by (destruct F as [[_ F]|F]; [discriminate|exact F]).
        apply wp_bind, wp_ret.
        assert (REST : forall (r : meta * list node) s2, reach s s2 ->
          wp (let l := snd r ++ [set_parent (mid (fst r)) n] in
              t2 <- consumeToken e params (Some (mid (fst r))) ;;
              match t2 with
              | TElem _ => throw (Unexpected "]")
              | TTok b =>
                  if beqb b (str "]") then ret (NArr (fst r) l)
                  else if negb (beqb b (str ",")) then throw (Unexpected "]")
                  else t3 <- consumeToken e params (Some (mid (fst r))) ;;
                       array_loop e params f parent (Some (fst r, l)) t3
              end) (fun _ s' => reach s s') no_fuel s2).
        { intros r s2 T2. cbv zeta. apply wp_bind.
          eapply wp_mono; [apply consumeToken_reach, (reach_ready _ _ T2)| |auto].
          intros t3 s3 T3. cbv beta. pose proof (tok_reach_reach _ _ _ T3) as T3'.
          destruct t3 as [n'|b]; [discriminate|].
          destruct (beqb b (str "]")); [apply wp_ret; eapply reach_trans; eauto|].
          destruct (beqb b (str ",")) eqn:EC; cbn [negb]; [|discriminate].
          apply beqb_eq in EC. subst b. simpl in T3.
          apply wp_bind. eapply wp_mono; [apply consumeToken_reach, (reach_ready _ _ T3')| |auto].
          intros t4 s4 T4. cbv beta. pose proof (tok_reach_reach _ _ _ T4) as T4'.
          eapply wp_mono; [apply IHA; [apply (reach_ready _ _ T4')|]| |auto].
          - right. apply reach_len in T2, T4'. apply reach1_len in T3. lia.
          - intros n' s5 Q. eapply reach_trans; [exact T2|]. eapply reach_trans; [exact T3'|].
            eapply reach_trans; eauto. }
        apply wp_bind. destruct result as [r|]; [apply wp_ret, REST, reach_refl, R|].
        apply fresh_reach; [|exact R]. intros. apply wp_ret. apply REST. auto.
      + apply wp_bind.
        assert (CH : wp (if beqb b (str "[") then readArray_with e params (fun p t => array_loop e params f p None t) None
                     else if beqb b (str "{") then object_loop e params f None None
                     else throw NotJson)
                (fun _ s' => reach s s' /\ (length (inp s) + 2 <= S f)%nat) no_fuel s).
        { destruct F as [[_ F]|F].
          - injection F as ->. discriminate.
          - destruct (beqb b (str "[")).
            + eapply wp_mono; [apply readArray_reach|intros; split; eauto|auto]; auto; lia.
            + destruct (beqb b (str "{")); [|discriminate].
              eapply wp_mono; [apply IHO|intros; split; eauto|auto]; auto; lia. }
        eapply wp_mono; [exact CH| |auto]. intros n s1 [T1 F']. cbv beta.
        assert (REST : forall (r : meta * list node) s2, reach s s2 ->
          wp (let l := snd r ++ [set_parent (mid (fst r)) n] in
              t2 <- consumeToken e params (Some (mid (fst r))) ;;
              match t2 with
              | TElem _ => throw (Unexpected "]")
              | TTok b =>
                  if beqb b (str "]") then ret (NArr (fst r) l)
                  else if negb (beqb b (str ",")) then throw (Unexpected "]")
                  else t3 <- consumeToken e params (Some (mid (fst r))) ;;
                       array_loop e params f parent (Some (fst r, l)) t3
              end) (fun _ s' => reach s s') no_fuel s2).
        { intros r s2 T2. cbv zeta. apply wp_bind.
          eapply wp_mono; [apply consumeToken_reach, (reach_ready _ _ T2)| |auto].
          intros t3 s3 T3. cbv beta. pose proof (tok_reach_reach _ _ _ T3) as T3'.
          destruct t3 as [n'|b']; [discriminate|].
          destruct (beqb b' (str "]")); [apply wp_ret; eapply reach_trans; eauto|].
          destruct (beqb b' (str ",")) eqn:EC; cbn [negb]; [|discriminate].
          apply beqb_eq in EC. subst b'. simpl in T3.
          apply wp_bind. eapply wp_mono; [apply consumeToken_reach, (reach_ready _ _ T3')| |auto].
          intros t4 s4 T4. cbv beta. pose proof (tok_reach_reach _ _ _ T4) as T4'.
          eapply wp_mono; [apply IHA; [apply (reach_ready _ _ T4')|]| |auto].
          - right. apply reach_len in T2, T4'. apply reach1_len in T3. lia.
          - intros n' s5 Q. eapply reach_trans; [exact T2|]. eapply reach_trans; [exact T3'|].
            eapply reach_trans; eauto. }
        apply wp_bind. destruct result as [r|]; [apply wp_ret, REST, T1|].
        apply fresh_reach; [|apply (reach_ready _ _ T1)]. intros. apply wp_ret. apply REST.
        eapply reach_trans; eauto.
  Qed.

  Lemma readNext_term f parent s : ready s -> (length (inp s) + 2 <= f)%nat ->
    wp (readNext e params f parent) (fun r s' => reach s s' /\ (r <> None -> reach1 s s')) no_fuel s.
  Proof.
    intros R F. destruct (loops_reach f) as [HO HA].
    apply readNext_reach; auto; try lia.
  Qed.

  Lemma init_ready input : ready (init_st input).
  Proof. split; [apply hist_init_ok|left; reflexivity]. Qed.

  Lemma read_doc_wp input :
    wp (readNext e params (S (S (length input))) None)
       (fun r s' => reach (init_st input) s' /\ (r <> None -> reach1 (init_st input) s')) no_fuel (init_st input).
  Proof. apply readNext_term; [apply init_ready|cbn; lia]. Qed.

  (** C02 *)
  Lemma read_doc_terminates input : read_doc e params input <> OutOfFuel.
  Proof.
    pose proof (read_doc_wp input) as H. unfold wp in H. unfold read_doc.
    intros E. rewrite E in H. apply H. reflexivity.
  Qed.
End Termination.

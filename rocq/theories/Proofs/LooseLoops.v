(** The structure of the texts the reader takes. *)
From Verif Require Import Proofs.ParserShape Proofs.Trace Proofs.LooseProofs Spec.LooseGrammar.
Open Scope Z_scope.

Section Loops.
  Variable e : env.
  Variable params : option cfg.
  Notation val := (value any_token brace_or_scalar).
  Notation els := (elements any_token brace_or_scalar).
  Notation mems := (members any_token brace_or_scalar).

  Lemma reads_scalar l n : reads l (TElem n) -> scalar l.
  Proof. destruct n as [m [x| | | | |]|?|?]; cbn; intros H; [left|right|right|right|right|right| |]; auto; destruct H. Qed.
  Lemma reads_tok l b (c : ascii) : beqb b [c] = true -> reads l (TTok b) -> l = [c].
  Proof. intros E R. apply beqb_eq in E. subst b. destruct R as [<- _]. reflexivity. Qed.

  Definition in_array (m : M node) : Prop := forall s, okst s -> wp m (fun _ s' => exists u, took s u s' /\ val ("["%char :: u)) anyfail s.
  Definition in_object (m : M node) : Prop := forall s, okst s -> wp m (fun _ s' => exists u, took s u s' /\ val ("{"%char :: u)) anyfail s.
  Definition after_tok (lp : tok -> M node) : Prop := forall t s, okst s ->
    wp (lp t) (fun _ s' => exists u, took s u s' /\ forall g l, gap g -> reads l t -> els (g ++ l ++ u)) anyfail s.

  Lemma array_with_took lp parent : (forall q, after_tok (lp q)) -> in_array (readArray_with e params lp parent).
  Proof.
    intros H s O. unfold readArray_with. apply wp_bind. eapply wp_mono; [apply consumeToken_took, O| |auto].
    intros t s1 (g & l & T1 & Gg & R).
    assert (K : wp (lp parent t) (fun _ s' => exists u, took s u s' /\ val ("["%char :: u)) anyfail s1).
    { eapply wp_mono; [apply H, T1| |auto]. intros n s2 (u & T2 & E). exists ((g ++ l) ++ u). split; [eapply took_trans; eauto|].
      apply V_arr. rewrite <- app_assoc. apply E; auto. }
    destruct t as [n|b]; [exact K|]. destruct (beqb b (str "]")) eqn:B; [|exact K].
    apply wp_bind, wp_fresh. apply wp_ret. exists (g ++ l). split; [split; [apply T1|destruct T1 as [_ [A|A]]; [left|right]; exact A]|].
    rewrite (reads_tok l b "]" B R). apply V_arr0. exact Gg.
  Qed.
  Lemma next_took ro ra parent : (forall q, in_object (ro q)) -> (forall q, in_array (ra q)) -> forall s, okst s ->
    wp (readNext_with e params ro ra parent) (fun r s' => exists g v, took s (g ++ v) s' /\ gap g /\ (r <> None -> val v)) anyfail s.
  Proof.
    intros HO HA s O. unfold readNext_with. apply wp_bind. eapply wp_mono; [apply consumeToken_took, O| |auto].
    intros t s1 (g & l & T1 & Gg & R). destruct t as [n|b].
    - apply wp_ret. exists g, l. split; [exact T1|]. split; [exact Gg|]. intros _. apply V_scalar. exact (reads_scalar l n R).
    - destruct (beqb b (str "{")) eqn:B1.
      { apply wp_bind. eapply wp_mono; [apply HO, T1| |auto]. intros n s2 (u & T2 & V). apply wp_ret. exists g, (l ++ u).
        split; [rewrite app_assoc; eapply took_trans; eauto|]. split; [exact Gg|]. intros _. rewrite (reads_tok l b "{" B1 R). exact V. }
      destruct (beqb b (str "[")) eqn:B2.
      { apply wp_bind. eapply wp_mono; [apply HA, T1| |auto]. intros n s2 (u & T2 & V). apply wp_ret. exists g, (l ++ u).
        split; [rewrite app_assoc; eapply took_trans; eauto|]. split; [exact Gg|]. intros _. rewrite (reads_tok l b "[" B2 R). exact V. }
      apply wp_ret. exists g, l. split; [exact T1|]. split; [exact Gg|]. intros C. destruct (C eq_refl).
  Qed.

  Lemma open_same parent result key s : wp (open_object params parent result key) (fun _ s' => inp s' = inp s /\ good s' = good s) anyfail s.
  Proof.
    unfold open_object. destruct result as [[m l]|]; [|apply wp_bind, wp_fresh; apply wp_ret; split; reflexivity].
    destruct (obj_contains _ _ _); [|apply wp_ret; auto]. destruct (strict_keys params); [exact Logic.I|]. apply wp_bind. unfold wp at 1, warn. apply wp_ret. split; reflexivity.
  Qed.
  Lemma took_same s u s' s'' : took s u s' -> inp s'' = inp s' -> good s'' = good s' -> took s u s''.
  Proof. intros [A O] B C. split; [congruence|]. destruct O; [left|right]; congruence. Qed.

  Definition in_members (res : option objpart) (m : M node) : Prop := forall s, okst s ->
    wp m (fun _ s' => exists u, took s u s' /\ (mems u \/ res = None /\ exists g, gap g /\ u = g ++ ["}"%char])) anyfail s.
  Lemma members_object m : in_members None m -> in_object m.
  Proof.
    intros H s O. eapply wp_mono; [apply H, O| |auto]. intros n s' (u & T & [V|(_ & g & Gg & ->)]); eexists; (split; [exact T|]); [apply V_obj, V|apply V_obj0, Gg].
  Qed.

  Lemma loops_took f : (forall parent res, in_members res (object_loop e params f parent res)) /\
                       (forall parent res, after_tok (array_loop e params f parent res)).
  Proof.
    induction f as [|f [IHo IHa]]; [split; [intros p r s O|intros p r t s O]; exact Logic.I|]. split.
    - intros parent res s O. rewrite object_unfold. apply wp_bind. eapply wp_mono; [apply consumeToken_took, O| |auto].
      intros t s1 (g1 & l1 & T1 & Gg1 & R1). destruct t as [n|b].
      2:{ destruct (beqb b (str "}")) eqn:B; [|exact Logic.I]. destruct res as [?|]; [exact Logic.I|]. cbn [andb]. apply wp_bind, wp_fresh. apply wp_ret.
          exists (g1 ++ l1). split; [eapply took_same; [exact T1| |]; reflexivity|]. right. split; [reflexivity|]. exists g1. rewrite (reads_tok l1 b "}" B R1). auto. }
      destruct n as [m x|m l|m l]; try exact Logic.I. destruct x as [key| | | | |]; try exact Logic.I. cbn [reads] in R1.
      apply wp_bind. eapply wp_mono; [apply consumeToken_took, T1| |auto]. intros t2 s2 (g2 & l2 & T2 & Gg2 & R2).
      destruct t2 as [?|b2]; [exact Logic.I|]. destruct (beqb b2 (str ":")) eqn:B2; [|exact Logic.I].
      assert (L2 := reads_tok l2 b2 ":" B2 R2). clear R2. subst l2.
      apply wp_bind. eapply wp_mono; [apply open_same| |auto]. intros r s3 [I3 G3].
      assert (T3 : took s ((g1 ++ l1) ++ g2 ++ [":"%char]) s3) by (eapply took_same; [eapply took_trans; eauto| |]; assumption).
      apply wp_bind. eapply wp_mono; [apply next_took; [intros q; apply members_object, IHo|intros q; apply array_with_took; intros q'; apply IHa|apply T3]| |auto].
      intros child s4 (g4 & v & T4 & Gg4 & V). destruct child as [cn|]; [|exact Logic.I]. specialize (V ltac:(discriminate)).
      apply wp_bind, wp_fresh. cbv zeta. apply wp_bind.
      match goal with |- wp _ _ _ ?s5 => assert (T5 : took s (((g1 ++ l1) ++ g2 ++ [":"%char]) ++ g4 ++ v) s5) by (eapply took_same; [eapply took_trans; eauto| |]; reflexivity) end.
      assert (ME : member any_token brace_or_scalar (((g1 ++ l1) ++ g2 ++ [":"%char]) ++ g4 ++ v)).
      { rewrite <- !app_assoc. cbn [app]. apply M_member; auto. }
      eapply wp_mono; [apply consumeToken_both, T5| |auto]. intros t3 s6 [(g6 & l6 & T6 & Gg6 & R6) E6].
      assert (T7 := took_trans _ _ _ _ _ T5 T6). destruct t3 as [n3|b3].
      + apply wp_ret. eexists. split; [exact T7|]. left. apply M_last; auto. right. exact (reads_scalar _ _ R6).
      + destruct (beqb b3 (str "}")) eqn:B3.
        * apply wp_ret. eexists. split; [exact T7|]. left. apply M_last; auto. left. exact (reads_tok _ _ "}" B3 R6).
        * assert (DE : b3 = [] \/ b3 <> []) by (destruct b3; [left; reflexivity|right; discriminate]). destruct DE as [->|NE].
          { specialize (E6 eq_refl). destruct f as [|f']; [exact Logic.I|]. rewrite object_unfold. apply wp_bind. eapply wp_mono; [apply consumeToken_over, E6| |auto].
            intros t4 s8 ->. exact Logic.I. }
          eapply wp_mono; [apply IHo, T7| |auto]. intros n s8 (u8 & T8 & [M8|(C & _)]); [|discriminate C].
          eexists. split; [eapply took_trans; [exact T7|exact T8]|]. left. 
          assert (TK : exists c, l6 = [c] /\ any_token c).
          { destruct b3 as [|c [|? ?]]; cbn [reads] in R6.
            - destruct NE. reflexivity.
            - destruct R6 as [<- (c' & [= <-] & IT)]. exists c. split; [reflexivity|]. apply is_token_cases in IT. unfold any_token.
              destruct IT as [<-|[<-|[<-|[<-|[<-|[<-|[]]]]]]]; try (cbn; tauto). discriminate B3.
            - destruct R6 as [<- (c' & [=] & _)]. }
          destruct TK as (c & -> & AT). rewrite <- (app_assoc _ (g6 ++ [c]) u8), <- (app_assoc g6 [c] u8). apply (M_more _ _ _ g6 c u8); auto.
    - intros parent res t s O. rewrite array_unfold. apply wp_bind.
      eapply wp_mono with (Q := fun _ s' => exists u, took s u s' /\ forall l, reads l t -> val (l ++ u)) (E := anyfail).
      { destruct t as [n|b].
        - apply wp_ret. exists []. split; [apply took_nil; auto|]. intros l R. rewrite app_nil_r. apply V_scalar. exact (reads_scalar l n R).
        - destruct (beqb b (str "[")) eqn:B1.
          { eapply wp_mono; [apply array_with_took; [intros q; apply IHa|exact O]| |auto]. intros n s1 (u & T & V). exists u. split; [exact T|].
            intros l R. rewrite (reads_tok l b "[" B1 R). exact V. }
          destruct (beqb b (str "{")) eqn:B2; [|exact Logic.I].
          eapply wp_mono; [apply members_object; [apply IHo|exact O]| |auto]. intros n s1 (u & T & V). exists u. split; [exact T|].
          intros l R. rewrite (reads_tok l b "{" B2 R). exact V. }
      2: auto. intros child s1 (u1 & T1 & V1). apply wp_bind.
      eapply wp_mono with (Q := fun _ s' => took s u1 s') (E := anyfail); [destruct res as [r|]; [exact T1|]| |auto].
      { apply wp_bind, wp_fresh. apply wp_ret. eapply took_same; [exact T1| |]; reflexivity. }
      intros r s2 T2. cbv zeta. apply wp_bind. eapply wp_mono; [apply consumeToken_took, T2| |auto]. intros t2 s3 (g3 & l3 & T3 & Gg3 & R3).
      destruct t2 as [?|b]; [exact Logic.I|]. assert (T4 := took_trans _ _ _ _ _ T2 T3). destruct (beqb b (str "]")) eqn:B.
      + apply wp_ret. eexists. split; [exact T4|]. intros g l Gg R. rewrite (reads_tok l3 b "]" B R3).
        rewrite (app_assoc l u1). apply E_last; auto.
      + destruct (beqb b (str ",")) eqn:B4; cbn [negb]; [|exact Logic.I]. apply wp_bind. eapply wp_mono; [apply consumeToken_took, T4| |auto].
        intros t5 s5 (g5 & l5 & T5 & Gg5 & R5). eapply wp_mono; [apply IHa, T5| |auto]. intros n s6 (u6 & T6 & V6).
        eexists. split; [eapply took_trans; [eapply took_trans; [exact T4|exact T5]|exact T6]|]. intros g l Gg R.
        rewrite (reads_tok l3 b "," B4 R3). specialize (V6 g5 l5 Gg5 R5).
        replace (g ++ l ++ ((u1 ++ g3 ++ [","%char]) ++ g5 ++ l5) ++ u6) with (g ++ (l ++ u1) ++ g3 ++ ","%char :: (g5 ++ l5 ++ u6)) by (rewrite <- !app_assoc; reflexivity).
        apply E_more; auto.
  Qed.
End Loops.

Theorem read_structure e params input root s' : read_doc e params input = Ok (Some root, s') ->
  exists g l, input = g ++ l ++ inp s' /\ gap g /\ value any_token brace_or_scalar l.
Proof.
  intros H.
  assert (W : wp (readNext e params (S (S (length input))) None) (fun r s' => exists g v, took (init_st input) (g ++ v) s' /\ gap g /\ (r <> None -> value any_token brace_or_scalar v)) anyfail (init_st input)).
  { unfold readNext. apply next_took; [intros q; apply members_object; exact (proj1 (loops_took e params _) q None)
      |intros q; apply array_with_took; intros q'; exact (proj2 (loops_took e params _) q' None)|left; reflexivity]. }
  unfold wp in W. unfold read_doc in H.
  rewrite H in W. destruct W as (g & l & [T _] & Gg & V). exists g, l. split; [rewrite app_assoc; exact T|]. split; [exact Gg|]. apply V. discriminate.
Qed.

Scheme value_mind := Induction for value Sort Prop
  with elements_mind := Induction for elements Sort Prop
  with members_mind := Induction for members Sort Prop
  with member_mind := Induction for member Sort Prop.

(** Without objects there is nothing loose. *)
Lemma value_json l : value any_token brace_or_scalar l -> ~ In "{"%char l -> value comma brace l.
Proof.
  intros V. induction V using value_mind with
    (P0 := fun l _ => ~ In "{"%char l -> elements comma brace l) (P1 := fun _ _ => True) (P2 := fun _ _ => True); auto; intros N.
  - apply V_scalar. assumption.
  - apply V_arr0. assumption.
  - apply V_arr. apply IHV. intros I. apply N. right. exact I.
  - destruct N. left. reflexivity.
  - destruct N. left. reflexivity.
  - apply E_last; auto. apply IHV. intros I. apply N. rewrite !in_app_iff. tauto.
  - apply E_more; auto; [apply IHV|apply IHV0]; intros I; apply N; rewrite !in_app_iff; cbn; tauto.
Qed.

(** Every object of JSON has its closing brace. *)
Lemma members_brace l : members comma brace l -> In "}"%char l.
Proof.
  intros M. induction M using members_mind with (P := fun _ _ => True) (P0 := fun _ _ => True) (P2 := fun _ _ => True); auto.
  - match goal with B : brace _ |- _ => rewrite B end. rewrite !in_app_iff. cbn. tauto.
  - rewrite !in_app_iff. cbn. tauto.
Qed.
Lemma object_brace l : value comma brace ("{"%char :: l) -> In "}"%char l.
Proof.
  intros V. inversion V as [l' S|g Gg|l' E|g Gg E|l' M]; subst.
  - exfalso. destruct S as [(b & _ & E)|W]; [discriminate E|]. inversion W as [l' I|c l' N|c l1 l2 N]; subst.
    + cbn in I. destruct I as [I|[I|[I|[]]]]; discriminate I.
    + destruct N as [N|[N|N]]; [vm_compute in N; intuition congruence|discriminate N|discriminate N].
    + destruct N as [N|[N|N]]; [vm_compute in N; intuition congruence|discriminate N|discriminate N].
  - apply in_app_iff. right. left. reflexivity.
  - apply members_brace, M.
Qed.

(** Every row can be reached with Up, Down, Right and PageDown. *)
From Verif Require Import Model.SimpleText Spec.ViewSpec Spec.RowsSpec.
From Verif Require Import Proofs.RowProofs Proofs.ShownProofs Proofs.DrawProofs Proofs.ViewProofs Proofs.LoopProofs Proofs.PageProofs Proofs.PressProofs Proofs.ReachProofs Proofs.RowReach.
From Coq Require Import Lia ZifyBool.
Open Scope Z_scope.

Section Exec.
  Variable rx : bytes -> bool -> bytes -> bool.
  Variable root : node.
  Variable sc : screen.
  Hypothesis M : in_memory root.
  Hypothesis RO : roomy root sc.
  Hypothesis HH : 2 <= sh sc < 2 ^ 32.

  Definition reached (v : view) (r : Z) : Prop :=
    exists keys v', Forall moving keys /\ wait rx root sc v false keys = Waiting sc v' false /\ at_rest root sc v' /\ vcoll v' = vcoll v /\ vsel v' = Some r.

  Lemma moving_keys keys : Forall moving keys -> forall e, In e keys -> exists k p, e = EvKey k p.
  Proof. intros F e I. rewrite Forall_forall in F. destruct (F e I) as (k & -> & _). eauto. Qed.
  Lemma further v keys v1 keys2 v2 r : Forall moving keys -> Forall moving keys2 -> wait rx root sc v false keys = Waiting sc v1 false -> vcoll v1 = vcoll v ->
    wait rx root sc v1 false keys2 = Waiting sc v2 false -> at_rest root sc v2 -> vcoll v2 = vcoll v1 -> vsel v2 = Some r -> reached v r.
  Proof.
    intros F1 F2 W1 C1 W2 A2 C2 S2. exists (keys ++ keys2), v2. split; [apply Forall_app; auto|]. split; [|split; [exact A2|split; [congruence|exact S2]]].
    rewrite (wait_more rx root sc _ _ _ _ W1 (moving_keys _ F1)). exact W2.
  Qed.
  Lemma moving_rep k n : In k ["KEY_UP"; "KEY_DOWN"; "KEY_RIGHT"; "KEY_NPAGE"]%string -> Forall moving (repeat (EvKey (str k) None) n).
  Proof. intros I. apply Forall_forall. intros e J. apply repeat_spec in J. subst e. exists k. auto. Qed.
  Lemma moving_one k : In k ["KEY_UP"; "KEY_DOWN"; "KEY_RIGHT"; "KEY_NPAGE"]%string -> Forall moving [EvKey (str k) None].
  Proof. intros I. exact (moving_rep k 1 I). Qed.

  Lemma rest_stands v : at_rest root sc v -> exists pre i post, stands root v pre i post.
  Proof.
    intros A. assert (X : exists i, vsel v = Some i) by (destruct A as (v0 & RD & (i & S & _) & _); destruct (redraw_same root _ _ _ _ RD) as (E1 & _); exists i; congruence). destruct X as (i & S).
    assert (V := rest_visible root sc M v i A S). apply in_split in V. destruct V as (pre & post & V). exists pre, i, post. split; assumption.
  Qed.

  Lemma reach_top v : at_rest root sc v -> reached v (nid root).
  Proof.
    intros A. destruct (rest_stands v A) as (pre & i & post & SN). destruct pre as [|r l].
    - exists [], v. split; [constructor|]. split; [reflexivity|]. split; [exact A|]. split; [reflexivity|]. destruct SN as (S & E). unfold rows in E. cbn [app] in E. injection E as E _. congruence.
    - destruct (ups_reach rx root sc M RO l v [] i post r A SN) as (v' & W & A1 & C1 & S1). exists (ups (S (length l))), v'.
      split; [apply moving_rep; left; reflexivity|]. split; [exact W|]. split; [exact A1|]. split; [exact C1|]. destruct SN as (_ & E). unfold rows in E. cbn [app] in E. injection E as E _. congruence.
  Qed.

  Lemma first_after coll i n c l : In (i, n) (shown (nid root) root) -> members n = c :: l -> ~ In (nid n) coll -> In i (rows coll root) ->
    exists pre post, rows coll root = pre ++ i :: c :: post.
  Proof.
    intros SH ME NC V. destruct (shown_visible root M _ _ _ SH V) as (k & pre & e & post & P & <- & <-). rewrite members_eid in ME.
    destruct (children (value_of e)) as [|ce cl] eqn:CH; [discriminate ME|]. cbn [map] in ME. injection ME as ME _.
    assert (Q := place_rows root _ _ _ _ _ P). apply mem_not in NC. unfold rows_elem in Q. rewrite inside_children, NC, CH, rowsL_cons in Q. unfold rows_elem in Q. rewrite ME in Q.
    cbn [app] in Q. eauto.
  Qed.

  Lemma level_NoDup t : In t (root :: entry_values root) -> NoDup (inside [] t).
  Proof.
    intros T. assert (I : In (ENode t) (elems root)).
    { destruct T as [<-|T]; [apply root_in|]. destruct (entry_values_in root t T root (root_in root)) as (mm & k & J). exact (value_in root _ J). }
    assert (N := NoDup_ids_sub root t (proj2 M) I). rewrite ids_children in N. inversion_clear N as [|? ? _ N1]. eapply sublist_NoDup; [apply inside_sub|exact N1].
  Qed.

  Theorem reach_row v r : at_rest root sc v -> brief sc (vcoll v) root -> In r (rows (vcoll v) root) -> reached v r.
  Proof.
    intros A B I. assert (Q : reached v r \/ False); [|tauto]. apply (any_row root (vcoll v) (reached v) False M); [|apply reach_top; exact A| | | |exact I].
    - intros i (keys & v1 & _ & _ & A1 & C1 & S1). rewrite <- C1. exact (rest_visible root sc M v1 i A1 S1).
    - intros pre q l b post E (keys & v1 & K & W & A1 & C1 & S1).
      destruct (ups_reach rx root sc M RO l v1 pre b post q A1) as (v2 & W2 & A2 & C2 & S2); [split; [exact S1|rewrite C1, E, <- app_assoc; reflexivity]|].
      eapply (further v keys v1 (ups (S (length l)))); eauto. apply moving_rep. cbn [In]. auto.
    - intros i n c l SH ME NC POS (keys & v1 & K & W & A1 & C1 & S1). left. assert (V := rest_visible root sc M v1 i A1 S1).
      destruct (Z.eq_dec i (nid n)) as [EI|NI].
      + destruct (press_right rx root sc M RO "KEY_RIGHT" v1 i n c l A1 S1 SH ME ltac:(rewrite C1; exact NC) (or_intror eq_refl)) as (v2 & (W2 & A2 & _) & C2 & [S2|[N2 _]]); [|contradiction].
        eapply (further v keys v1 [EvKey (str "KEY_RIGHT") None]); eauto. apply moving_one. cbn [In]. auto.
      + destruct POS as [POS|POS]; [contradiction|].
        rewrite C1 in V. destruct (first_after (vcoll v) i n c l SH ME NC V) as (pre & post & E). destruct (rows_apart root M sc RO (vcoll v) _ _ _ _ E) as (h & AP).
        destruct (downs_next rx root sc M RO HH v1 pre i c post h A1) as (k & v2 & W2 & A2 & C2 & S2);
          [split; [exact S1|rewrite C1; exact E]|rewrite C1; exact AP|apply (B i n c h); [|exact AP]; split; [exact SH|split; [exact NI|split; [exact NC|split; [rewrite ME; reflexivity|exact POS]]]]|].
        eapply (further v keys v1 (downs k)); eauto. apply moving_rep. cbn [In]. auto.
    - intros t a n pre b post T L E (keys & v1 & K & W & A1 & C1 & S1).
      destruct (press_page_down rx root sc M RO v1 t a n A1 S1 T L) as (pre' & post' & v2 & E' & (W2 & A2 & _) & C2 & X).
      assert (post' = b :: post).
      { assert (N := level_NoDup t T). rewrite E' in N, E. destruct (NoDup_split _ _ _ _ _ N E) as (_ & Q). exact (app_inv_head _ _ _ Q). }
      subst post'. eapply (further v keys v1 [EvKey (str "KEY_NPAGE") None]); eauto. apply moving_one. cbn [In]. auto.
  Qed.
End Exec.

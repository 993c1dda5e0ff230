(** Drawing again what is on screen. *)
From Verif Require Import Proofs.RowProofs Proofs.DrawProofs Proofs.ViewProofs Proofs.ReachProofs.
From Coq Require Import Lia ZifyBool.
Open Scope Z_scope.

Definition at_scroll (t : Z) (s : dst) : dst := mkD (dy s) t (dup s) (ddown s) (dfound s) (dlines s).
Lemma at_same s : at_scroll (dscroll s) s = s.
Proof. destruct s; reflexivity. Qed.

Section Again.
  Variable (root : node) (sc : screen).
  Hypothesis HS : 2 <= sh sc < 2 ^ 32.
  Notation h := (elems root).

  Lemma step_dy c s b s' : step h sc c s = Some (b, s') -> dy s <= dy s'.
  Proof. intros E. destruct (step_spec root sc _ _ _ _ E) as (_ & _ & [(_ & -> & _)|(_ & (k & K & ->) & _)] & _); [lia|]. apply nb_nonneg in K. lia. Qed.

  (** A drawing that lowers scrollTop has not passed the new one yet. *)
  Lemma exec_low l : forall s b s', exec h sc l s = Some (b, s') -> dscroll s' < dscroll s -> 0 <= dy s -> dy s <= dscroll s' + 1.
  Proof.
    induction l as [|c l IH]; intros s b s' E L Y; cbn [exec] in E; [injection E as <- <-; lia|].
    destruct (step h sc c s) as [[b1 s1]|] eqn:S; [|discriminate]. cbn [obind] in E. assert (D := step_dy _ _ _ _ S). destruct (step_spec root sc _ _ _ _ S) as (O & SC & _).
    destruct (chk_scroll root c s) as [Q|(_ & F & Q1 & Q)].
    - rewrite Q in SC. destruct b1; [|injection E as <- <-; lia]. assert (X := IH _ _ _ E ltac:(lia) ltac:(lia)). lia.
    - assert (F1 : dfound s1 = true) by (unfold ob in O; congruence).
      assert (K : dscroll s' = dscroll s1). { destruct b1; [|injection E as <- <-; reflexivity]. destruct (exec_kept root sc l s1 b s' F1 E). assumption. }
      rewrite K, SC, Q. destruct (dy s =? 0) eqn:Z; lia.
  Qed.

  Lemma exec_down l : forall s b s', exec h sc l s = Some (b, s') -> dscroll s' <= dscroll s.
  Proof.
    induction l as [|c l IH]; intros s b s' E; cbn [exec] in E; [injection E as <- <-; lia|].
    destruct (step h sc c s) as [[b1 s1]|] eqn:S; [|discriminate]. cbn [obind] in E. destruct (step_spec root sc _ _ _ _ S) as (O & SC & _).
    assert (L : dscroll s1 <= dscroll s \/ dy s = 0 /\ dscroll s1 = 0 /\ 0 <= dscroll s) by (rewrite SC; destruct (chk_scroll root c s) as [->|(_ & _ & Q1 & ->)]; [lia|destruct (dy s =? 0) eqn:Z; lia]).
    destruct b1; [apply IH in E; lia|]. injection E as <- <-. lia.
  Qed.

  (** checkSelection started from a lower scrollTop. *)
  Lemma chk_at c s F : F < dscroll s -> 1 <= dy s ->
    (chk h c (at_scroll F s) = at_scroll F (chk h c s) /\ dscroll (chk h c s) = dscroll s) \/
    (dscroll (chk h c s) = dy s - 1 /\ dfound (chk h c s) = true /\ dy s <= dscroll s /\
     (F = dy s - 1 -> chk h c (at_scroll F s) = chk h c s)) \/
    (dfound (chk h c s) = true /\ dscroll (chk h c s) = dscroll s).
  Proof.
    intros L Y. unfold chk, checkSelection. destruct (celem c) as [e|]; [|left; auto]. cbn [at_scroll dy dscroll dup ddown dfound dlines].
    destruct (dfound s) eqn:FO; cbn [negb].
    - left. destruct (ddown s); [auto|]. destruct (negb (parent_is_entry h e)); auto.
    - destruct (sel_is (csel c) (eid e)).
      + destruct (dy s <=? dscroll s) eqn:Q; cbn [dscroll dfound].
        * right; left. assert (Z : dy s =? 0 = false) by lia. rewrite Z. repeat split; try lia. intros ->. assert (Z' : dy s <=? dy s - 1 = false) by lia. rewrite Z'. reflexivity.
        * right; right. auto.
      + left. destruct (negb (parent_is_entry h e)); auto.
  Qed.

  (** The same drawing from the scrollTop it ended with. *)
  Lemma exec_again l : forall s b s', 1 <= dy s -> exec h sc l s = Some (b, s') -> exec h sc l (at_scroll (dscroll s') s) = Some (b, s').
  Proof.
    induction l as [|c l IH]; intros s b s' Y E.
    - cbn [exec] in *. injection E as <- <-. rewrite at_same. reflexivity.
    - destruct (Z.eq_dec (dscroll s') (dscroll s)) as [Q|N]; [rewrite Q, at_same; exact E|].
      assert (F := exec_down _ _ _ _ E). assert (L : dscroll s' < dscroll s) by lia. clear N F.
      cbn [exec] in *. destruct (step h sc c s) as [[b1 s1]|] eqn:S; [|discriminate]. cbn [obind] in E.
      assert (D := step_dy _ _ _ _ S). destruct (step_spec root sc _ _ _ _ S) as (O & SC & ST & B0 & B1).
      assert (KE : dfound (chk h c s) = true -> dscroll s' = dscroll (chk h c s)).
      { intros FO. assert (F1 : dfound s1 = true) by (unfold ob in O; congruence). rewrite <- SC. destruct b1; [|injection E as <- <-; reflexivity]. destruct (exec_kept root sc l s1 b s' F1 E). assumption. }
      destruct (chk_at c s (dscroll s') L Y) as [(C & CS)|[(CS & FO & _ & C)|(FO & CS)]].
      + destruct b1; [|injection E as <- <-; lia]. assert (X := exec_low _ _ _ _ E ltac:(lia) ltac:(lia)).
        assert (T : step h sc c (at_scroll (dscroll s') s) = Some (true, at_scroll (dscroll s') s1)).
        { destruct ST as [(_ & Y1 & L1)|(Q & _)]; [|lia]. assert (CY := chk_dy root c s). assert (CL := chk_lines root c s).
          assert (P : at_scroll (dscroll s') s1 = mkD (dy s + 1) (dscroll s') (dup (chk h c s)) (ddown (chk h c s)) (dfound (chk h c s)) (dlines (chk h c s))).
          { unfold at_scroll. unfold ob in O. injection O as -> -> ->. rewrite Y1, L1, CL. reflexivity. }
          unfold step. rewrite C, P. unfold at_scroll. cbn [dy dscroll dup ddown dfound dlines]. rewrite CY. assert (Z : dy s <=? dscroll s' = true) by lia. rewrite Z.
          destruct (clazy c); cbn [andb]; [reflexivity|]. unfold write. cbn [dy dscroll dup ddown dfound dlines]. rewrite ?CY, Z. cbn [obind].
          unfold at_bottom, hasReachedBottom, usub. cbn [dy dscroll]. rewrite (Z.mod_small (sh sc - 1)) by lia.
          assert (G : sh sc - 1 <? dy s + 1 - dscroll s' = false) by lia. rewrite G, Bool.andb_false_r. reflexivity. }
        rewrite T. cbn [obind]. apply IH; [lia|exact E].
      + assert (Q := KE FO). unfold step in S |- *. rewrite C by lia. rewrite S. cbn [obind]. exact E.
      + assert (Q := KE FO). lia.
  Qed.

  (** What is on screen, drawn again. *)
  Lemma redraw_again v0 v : redraw root sc v0 = Some (true, v) -> redraw root sc v = Some (true, v).
  Proof.
    intros RD. assert (RD' := RD). unfold redraw in RD. rewrite (draw_exec h sc (vcoll v0) root) in RD.
    destruct (exec h sc _ (mkD 1 (vscroll v0) None None false [])) as [[r s]|] eqn:D; [|discriminate]. cbn [obind] in RD.
    destruct (redraw_same _ _ _ _ _ RD') as (SE & CO & RE). destruct (negb r && negb (dfound s)) eqn:B; [discriminate RD|].
    apply exec_again in D; [|cbn [dy]; lia]. cbn [at_scroll dy dup ddown dfound dlines] in D. unfold at_scroll in D. cbn [dy dup ddown dfound dlines] in D.
    assert (SV : vscroll v = dscroll s). { destruct (match ddown s with Some d => _ | None => _ end) as [down|]; [|discriminate RD]. cbn [obind] in RD. injection RD as <-. reflexivity. }
    unfold redraw. rewrite (draw_exec h sc (vcoll v) root), SE, CO, RE, SV, D. cbn [obind]. rewrite B. exact RD.
  Qed.
End Again.

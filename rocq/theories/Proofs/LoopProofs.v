(** Redrawing until it succeeds. *)
From Verif Require Export Spec.ViewerSpec Proofs.ViewProofs.
From Verif Require Import Proofs.NbLinesProofs.
From Coq Require Import Lia ZifyBool.
Open Scope Z_scope.

Lemma nb_total n w : 0 <= n < 2 ^ 32 - 1 -> 1 <= w < 2 ^ 32 -> getNbLines n w <> None.
Proof.
  intros N W. assert (E := Z.div_mod (n + w - 1) w ltac:(lia)). assert (B := Z.mod_pos_bound (n + w - 1) w ltac:(lia)).
  rewrite (nb_lines_ceil n w ltac:(lia) W ((n + w - 1) / w)); [discriminate|revert E B; generalize ((n + w - 1) / w) as q, ((n + w - 1) mod w) as r; intros; lia|].
  assert ((n + w - 1) / w <= n + 1); [|lia]. apply Z.div_le_upper_bound; [lia|]. nia.
Qed.

Lemma nesting_child n e : In e (children n) -> (nesting (value_of e) < nesting n)%nat.
Proof.
  assert (Q : forall A (f : A -> nat) l x, In x l -> (f x <= fold_right (fun x d => Nat.max (f x) d) O l)%nat).
  { induction l as [|y l IH]; intros x I; [destruct I|]. destruct I as [<-|I]; cbn [fold_right]; [lia|]. specialize (IH x I). lia. }
  destruct n as [m p|m l|m l]; cbn [children]; [intros []| |]; intros I; apply in_map_iff in I; destruct I as (x & <- & I); cbn [nesting value_of];
    apply Nat.lt_succ_r.
  - exact (Q _ nesting l x I).
  - exact (Q _ (fun x => nesting (snd x)) l x I).
Qed.

Section Total.
  Variable root : node.
  Hypothesis M : in_memory root.
  Notation h := (elems root).

  Lemma prog_cmd sc coll n : roomy root sc -> forall x sel c, 0 <= x -> In c (prog sc coll x sel n) ->
    0 <= cx c <= x + 6 * Z.of_nat (nesting n) /\ 0 <= clen c <= 2 ^ 31 + 2 /\ 1 <= cw c <= sw sc.
  Proof.
    intros (W & L & _). induction n as [n IH] using node_kids_ind. intros x sel c X I. rewrite prog_children in I.
    assert (LN := nesting_child n).
    assert (Q : In c (flat_map (prog_elem sc coll (x + INDENT_LEVEL) sel) (children n)) ->
      0 <= cx c <= x + 6 * Z.of_nat (nesting n) /\ 0 <= clen c <= 2 ^ 31 + 2 /\ 1 <= cw c <= sw sc).
    { intros J. apply in_flat_map in J. destruct J as (e & J & K). assert (LE := LN e J). specialize (IH e J). unfold INDENT_LEVEL in *.
      assert (X4 : 0 <= x + 4) by lia. assert (X6 : 0 <= x + 4 + 2) by lia.
      destruct e as [v|m k v]; cbn [prog_elem value_of] in *.
      - destruct (IH _ _ _ X4 K) as (A & B & D). lia.
      - assert (One : forall len, 0 <= len <= 2 ^ 30 -> In c [key_cmd sc sel (x + 4) m k v len] ->
          0 <= cx c <= x + 6 * Z.of_nat (nesting n) /\ 0 <= clen c <= 2 ^ 31 + 2 /\ 1 <= cw c <= sw sc).
        { intros len LL [<-|[]]. unfold key_cmd. cbn [cx clen cw]. assert (B := L (EEntry m k v)). lia. }
        assert (B := L (ENode v)). assert (B2 := L (EEntry m k v)).
        destruct (is_container v && _); [apply (One 7); [lia|exact K]|]. destruct (negb _); [apply (One (slen sc (ENode v))); [lia|exact K]|].
        destruct (children v); [apply (One 3); [lia|exact K]|]. destruct K as [<-|K]; [cbn [cx clen cw]; unfold usub; rewrite Z.mod_small by lia; lia|].
        change (INDENT_LEVEL / 2) with 2 in K. destruct (IH _ _ _ X6 K) as (A & B3 & D). lia. }
    assert (Bx : In c (box sc coll sel (ENode n) (nid n) x (flat_map (prog_elem sc coll (x + INDENT_LEVEL) sel) (children n))) ->
      0 <= cx c <= x + 6 * Z.of_nat (nesting n) /\ 0 <= clen c <= 2 ^ 31 + 2 /\ 1 <= cw c <= sw sc).
    { unfold box. destruct (mem _ _); [intros [<-|[]]; cbn [cx clen cw]; lia|]. intros [<-|J]; [cbn [cx clen cw]; lia|].
      apply in_app_or in J. destruct J as [J|[<-|[]]]; [exact (Q J)|cbn [cx clen cw]; lia]. }
    destruct n as [m p|m l|m l]; [|exact (Bx I)|exact (Bx I)]. destruct I as [<-|[]]. cbn [cx clen cw]. assert (B := L (ENode (NPrim m p))). lia.
  Qed.

  Lemma exec_total sc l : (forall c, In c l -> 0 <= cx c < 2 ^ 30 /\ 0 <= clen c <= 2 ^ 31 + 2 /\ 1 <= cw c < 2 ^ 32) ->
    forall s, exec h sc l s <> None.
  Proof.
    induction l as [|c l IH]; intros B s; cbn [exec]; [discriminate|].
    assert (ST : step h sc c s <> None).
    { unfold step. destruct (B c (or_introl eq_refl)) as (B1 & B2 & B3). unfold write.
      destruct (clazy c); repeat match goal with |- context [if ?b then _ else _] => destruct b end; cbn [obind]; try discriminate;
      match goal with |- context [getNbLines ?a ?b] => assert (N := nb_total a b ltac:(lia) ltac:(lia)); destruct (getNbLines a b); [|contradiction] end; cbn [obind]; discriminate. }
    destruct (step h sc c s) as [[b s1]|]; [|contradiction]. cbn [obind]. destruct b; [|discriminate]. apply IH. intros c' I. apply B. right. exact I.
  Qed.

  (** Every element is a row of the unfolded document or the value of one. *)
  Lemma elem_place e : In e h -> exists k pre p post, place root [] k pre p post /\ (p = e \/ ENode (value_of p) = e).
  Proof.
    assert (Q : forall n, forall k pre p post, place root [] k pre p post -> value_of p = n -> forall e, In e (elems n) ->
      exists k pre p post, place root [] k pre p post /\ (p = e \/ ENode (value_of p) = e)).
    { induction n as [n IH] using node_kids_ind. intros k pre p post P E e' I. rewrite elems_children in I. destruct I as [<-|I].
      - exists k, pre, p, post. split; [exact P|]. right. rewrite E. reflexivity.
      - apply in_flat_map in I. destruct I as (x & J & K). assert (J' := J). apply in_split in J'. destruct J' as (l1 & l2 & C).
        assert (PC := PL_child root [] k pre p post l1 x l2 P eq_refl ltac:(rewrite E; exact C)).
        destruct x as [v|m kk v]; cbn [eelems] in K.
        + exact (IH _ J _ _ _ _ PC eq_refl e' K).
        + destruct K as [<-|K]; [eexists _, _, _, _; split; [exact PC|left; reflexivity]|]. exact (IH _ J _ _ _ _ PC eq_refl e' K). }
    intros I. exact (Q root _ _ _ _ (PL_root root []) eq_refl e I).
  Qed.

  Lemma findNext_total i : In i (ids root) -> exists o, findNext (deep root) h i = Some o.
  Proof.
    intros I. destruct (lookup_ids root M i I) as (e & E). destruct (lookup_some root _ _ E) as (J & <-).
    destruct (elem_place e J) as (k & pre & p & post & P & [->|Q]).
    - destruct (findNext_place root M _ _ _ _ _ P _ (place_deep root _ _ _ _ _ P)) as (o & O & _). eauto.
    - destruct p as [n|m kk v]; cbn [value_of] in Q; subst e.
      + destruct (findNext_place root M _ _ _ _ _ P _ (place_deep root _ _ _ _ _ P)) as (o & O & _). eauto.
      + exists None. apply (findNext_value root M _ m kk v). eapply place_in, P.
  Qed.

  Lemma drawing_total sc v : roomy root sc -> drawing root sc v <> None.
  Proof.
    intros R. apply exec_total. intros c I. destruct (prog_cmd sc (vcoll v) root R 0 (vsel v) c ltac:(lia) I) as (A & B & D).
    destruct R as (R1 & _ & R3). lia.
  Qed.

  Lemma redraw_total sc v i : roomy root sc -> vsel v = Some i -> In i (ids root) -> exists b v', redraw root sc v = Some (b, v').
  Proof.
    intros R S I. unfold redraw. rewrite (draw_exec (mem_of root) sc (vcoll v) root). change (mem_of root) with h. fold (drawing root sc v).
    assert (T := drawing_total sc v R). destruct (drawing root sc v) as [[r s]|]; [|contradiction]. cbn [obind].
    destruct (negb r && negb (dfound s)); [eauto|]. destruct (ddown s); [cbn [obind]; eauto|]. rewrite S.
    destruct (lookup_ids root M i I) as (e & ->). cbn [obind]. destruct (match e with ENode n => _ | EEntry _ _ _ => [] end); cbn [obind]; [|eauto].
    destruct (findNext_total i I) as (o & ->). cbn [obind]. eauto.
  Qed.

  Lemma loop_total sc i : roomy root sc -> In i (ids root) -> forall f v, vsel v = Some i -> 0 <= vscroll v ->
    (2 + 2 * length h <= f + Z.to_nat (vscroll v))%nat -> (0 < f)%nat -> exists v', redraw_loop root f sc v = Some v'.
  Proof.
    intros R I. induction f as [|f IH]; intros v S T F F0; [lia|]. cbn [redraw_loop].
    destruct (redraw_total sc v i R S I) as (b & v' & E). rewrite E. cbn [obind]. destruct b; [eauto|].
    destruct (redraw_same root _ _ _ _ E) as (E1 & _). destruct (redraw_false root _ _ _ E) as (E2 & E3 & _).
    assert (PL := prog_length sc (vcoll v) root 0 (vsel v)).
    apply IH; [congruence|lia|lia|lia].
  Qed.

  Lemma loop_result f sc : forall v v', redraw_loop root f sc v = Some v' -> 0 <= vscroll v ->
    exists v0, redraw root sc v0 = Some (true, v') /\ vsel v0 = vsel v /\ vcoll v0 = vcoll v /\ vres v0 = vres v /\ 0 <= vscroll v0.
  Proof.
    induction f as [|f IH]; intros v v' E T; [discriminate|]. cbn [redraw_loop] in E. destruct (redraw root sc v) as [[b v1]|] eqn:RD; [|discriminate].
    cbn [obind] in E. destruct b.
    - injection E as <-. exists v. auto.
    - destruct (redraw_same root _ _ _ _ RD) as (E1 & E2 & E3). destruct (IH v1 v' E (redraw_pos root _ _ _ _ RD T)) as (v0 & A & B & C & D & F).
      exists v0. repeat split; congruence.
  Qed.

  (** The selection is on screen after a successful redraw. *)
  Lemma redraw_shown sc v v' i : 2 <= sh sc < 2 ^ 32 -> 0 <= vscroll v -> redraw root sc v = Some (true, v') -> vsel v = Some i ->
    In i (rows (vcoll v) root) -> exists line, In (i, line, true) (vlines v') /\ 1 <= line <= sh sc - 1.
  Proof.
    intros HS T RD SE VI. assert (RS := visible_row_sel root M _ _ VI). assert (W := root_wf root M sc (vcoll v) (Some i) RS).
    unfold redraw in RD. rewrite (draw_exec (mem_of root) sc (vcoll v) root) in RD. change (mem_of root) with h in RD. fold (drawing root sc v) in RD.
    destruct (drawing root sc v) as [[r s]|] eqn:D; [|discriminate]. cbn [obind] in RD. unfold drawing in D. rewrite SE in D.
    destruct (negb r && negb (dfound s)) eqn:B; [discriminate RD|].
    assert (FO : dfound s = true).
    { destruct (dfound s) eqn:F; [reflexivity|]. exfalso. destruct r; [|discriminate B].
      destruct (exec_prefix root sc (Some i) _ (mkD 1 (vscroll v) None None false []) _ _ W D) as (done & rest & EP & OB & TR & _).
      rewrite (TR eq_refl), app_nil_r in EP. rewrite <- EP, (root_prog_rows root M) in OB. apply in_split in VI. destruct VI as (a & b & Q).
      assert (N := rows_NoDup root M (vcoll v)). rewrite Q in OB, N.
      change (ob (mkD 1 (vscroll v) None None false [])) with (None : option Z, None : option Z, false) in OB.
      rewrite (scan_at i a b) in OB; [unfold ob in OB; congruence|]. intros J. apply NoDup_remove_2 in N. apply N, in_or_app. auto. }
    assert (G : geo sc (mkD 1 (vscroll v) None None false [])).
    { unfold geo, at_bottom, hasReachedBottom, usub. cbn [dy dscroll]. rewrite Z.mod_small by lia. split; [lia|]. split; [lia|].
      destruct (vscroll v <=? 1) eqn:Q; lia. }
    destruct (exec_found root sc i _ HS (mkD 1 (vscroll v) None None false []) _ _ W G eq_refl D FO) as (line & L1 & L2).
    exists line. split; [|exact L2]. destruct (match ddown s with Some d => _ | None => _ end) as [down|]; [|discriminate RD]. cbn [obind] in RD.
      injection RD as <-. exact L1.
  Qed.
End Total.

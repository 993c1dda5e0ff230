(** Redraws and keys of the view of one document. *)
From Verif Require Export Proofs.DrawProofs.
From Verif Require Import Proofs.NbLinesProofs.
From Coq Require Import Lia ZifyBool.
Open Scope Z_scope.

Lemma mem_In i l : mem i l = true <-> In i l.
Proof. unfold mem. rewrite existsb_exists. split; [intros (x & I & E); apply Z.eqb_eq in E; subst; exact I|intros I; exists i; rewrite Z.eqb_refl; auto]. Qed.
Lemma mem_not i l : mem i l = false <-> ~ In i l.
Proof. rewrite <- mem_In. destruct (mem i l); split; intros; congruence. Qed.
Lemma remove_In i j l : In j (Navigation.remove i l) <-> In j l /\ j <> i.
Proof. unfold Navigation.remove. rewrite filter_In. split; intros [A B]; split; auto; destruct (j =? i) eqn:E; cbn in *; [discriminate|apply Z.eqb_neq, E|apply Z.eqb_eq in E; contradiction|reflexivity]. Qed.
Lemma insert_In i j l : In j (insert i l) <-> j = i \/ In j l.
Proof. unfold insert. destruct (mem i l) eqn:E; [apply mem_In in E; split; [auto|intros [->|]; auto]|]. cbn [In]. split; intros [A|A]; auto. Qed.

(** * Commands *)
Section Closed.
  Variable (sc : screen) (coll : list Z).

  (** A closing bracket is that of something opened before. *)
  Fixpoint closed (K : list Z) (l : list cmd) : Prop :=
    match l with
    | [] => True
    | c :: t => (celem c = None -> In (cid c) K) /\ closed (cid c :: K) t
    end.
  Lemma closed_mono l : forall K K', incl K K' -> closed K l -> closed K' l.
  Proof.
    induction l as [|c l IH]; intros K K' S; [auto|]. cbn [closed]. intros [A B]. split; [auto|]. apply (IH (cid c :: K)); [|exact B].
    intros x [<-|I]; [left; reflexivity|right; auto].
  Qed.
  Lemma closed_prefix a b K : closed K (a ++ b) -> closed K a.
  Proof. revert K. induction a as [|c a IH]; intros K; [constructor|]. cbn [app closed]. intros [A B]. auto. Qed.
  Lemma closed_opened l : forall K, closed K l -> (forall c e, In c l -> celem c = Some e -> cid c = eid e) ->
    forall c, In c l -> In (cid c) K \/ exists c' e, In c' l /\ celem c' = Some e /\ eid e = cid c.
  Proof.
    induction l as [|c0 l IH]; intros K C E c I; [destruct I|]. cbn [closed] in C. destruct C as [C1 C2]. destruct I as [<-|I].
    - destruct (celem c0) as [e|] eqn:Q; [|left; auto]. right. exists c0, e. split; [left; reflexivity|]. split; [exact Q|].
      symmetry. apply E; [left; reflexivity|exact Q].
    - destruct (IH _ C2 (fun c e J => E c e (or_intror J)) c I) as [[Q|Q]|(c' & e & P & Q & R)]; [|left; exact Q|right; exists c', e; split; [right; exact P|auto]].
      destruct (celem c0) as [e|] eqn:Q0.
      + right. exists c0, e. split; [left; reflexivity|]. split; [exact Q0|]. rewrite <- Q. symmetry. apply E; [left; reflexivity|exact Q0].
      + left. rewrite <- Q. apply C1. reflexivity.
  Qed.

  Lemma prog_closed n : forall x sel K t, closed K t -> closed K (prog sc coll x sel n ++ t).
  Proof.
    induction n as [n IH] using node_kids_ind. intros x sel K t C. rewrite prog_children.
    assert (W : forall c K, closed K t -> celem c <> None -> closed K (c :: t)).
    { intros c K0 C0 N. cbn [closed]. split; [intros Q; contradiction|]. eapply closed_mono; [|exact C0]. intros y J. right. exact J. }
    assert (Q : forall l K t, (forall e, In e l -> In e (children n)) -> closed K t ->
      closed K (flat_map (prog_elem sc coll (x + INDENT_LEVEL) sel) l ++ t)).
    { induction l as [|e l IHl]; intros K0 t0 S C0; [exact C0|]. cbn [flat_map]. rewrite <- app_assoc.
      assert (C1 := IHl K0 t0 (fun y Hy => S y (or_intror Hy)) C0). assert (J := S e (or_introl eq_refl)).
      assert (W1 : forall c, celem c <> None -> closed K0 (c :: flat_map (prog_elem sc coll (x + INDENT_LEVEL) sel) l ++ t0)).
      { intros c N. cbn [closed]. split; [intros Q; contradiction|]. eapply closed_mono; [|exact C1]. intros y Hy. right. exact Hy. }
      destruct e as [v|m k v]; cbn [prog_elem]; [apply (IH _ J), C1|].
      destruct (is_container v && _); [apply W1; discriminate|]. destruct (negb _); [apply W1; discriminate|].
      destruct (children v) eqn:E; [apply W1; discriminate|]. cbn [app closed celem]. split; [discriminate|].
      apply (IH _ J). eapply closed_mono; [|exact C1]. intros y Hy. right. exact Hy. }
    assert (B : forall m : meta, closed K (box sc coll sel (ENode n) (nid n) x (flat_map (prog_elem sc coll (x + INDENT_LEVEL) sel) (children n)) ++ t)).
    { intros _. unfold box. destruct (mem (nid n) coll); [apply W; [exact C|discriminate]|]. cbn [app closed celem cid]. split; [discriminate|].
      rewrite <- app_assoc. apply Q; [auto|]. cbn [app closed celem cid]. split; [left; reflexivity|].
      eapply closed_mono; [|exact C]. intros y J. right. right. exact J. }
    destruct n as [m p|m l|m l]; [apply W; [exact C|discriminate]|apply B, m|apply B, m].
  Qed.
End Closed.

Section View.
  Variable root : node.
  Hypothesis M : in_memory root.
  Notation h := (elems root).

  Lemma wf_ids sel f l : wf root sel f l -> forall c e, In c l -> celem c = Some e -> cid c = eid e.
  Proof. induction 1 as [|f c t A B W IH]; intros c' e I E; [destruct I|]. destruct I as [<-|I]; eauto. Qed.

  (** What a run has done. *)
  Lemma exec_prefix sc sel l : forall s b s', wf root sel (dfound s) l -> exec h sc l s = Some (b, s') ->
    exists done rest, l = done ++ rest /\ ob s' = scan sel (ob s) (prows root done) /\ (b = true -> rest = []) /\
      (forall x, In x (dlines s') -> In x (dlines s) \/ exists c, In c done /\ fst (fst x) = cid c) /\ (l = [] \/ done <> []).
  Proof.
    induction l as [|c l IH]; intros s b s' W E; cbn [exec] in E.
    - injection E as <- <-. exists [], []. cbn. auto 8.
    - destruct (step h sc c s) as [[b1 s1]|] eqn:S; [|discriminate]. cbn [obind] in E.
      destruct (step_spec _ _ _ _ _ _ S) as (O & _ & L & _). destruct (chk_ob _ _ _ _ _ W) as (CO & CF).
      assert (L1 : forall x, In x (dlines s1) -> In x (dlines s) \/ fst (fst x) = cid c).
      { intros x I. destruct L as [(_ & _ & L)|(_ & _ & L)]; rewrite L in I; [auto|]. destruct I as [<-|I]; auto. }
      destruct b1.
      + inversion W as [|f c' t' A B W1]; subst.
        assert (F1 : dfound s1 = dfound s || hit sel c). { rewrite <- CF. unfold ob in O. congruence. }
        rewrite <- F1 in W1. destruct (IH s1 b s' W1 E) as (done & rest & -> & Q & D & LL & _). exists (c :: done), rest.
        split; [reflexivity|]. split; [|split; [exact D|split; [|right; discriminate]]].
        * rewrite Q, O, CO. change (prows root (c :: done)) with (crow root c ++ prows root done). unfold scan. rewrite fold_left_app. reflexivity.
        * intros x I. destruct (LL x I) as [J|(c' & J & J')]; [destruct (L1 x J) as [K|K]; [auto|right; exists c; split; [left; reflexivity|exact K]]|].
          right. exists c'. split; [right; exact J|exact J'].
      + injection E as <- <-. exists [c], l. split; [reflexivity|]. split; [|split; [discriminate|split; [|right; discriminate]]].
        * rewrite O, CO. change (prows root [c]) with (crow root c ++ []). rewrite app_nil_r. reflexivity.
        * intros x I. destruct (L1 x I) as [K|K]; [auto|]. right. exists c. split; [left; reflexivity|exact K].
  Qed.

  Lemma visible_row_sel coll i : In i (rows coll root) -> row_sel root (Some i).
  Proof.
    intros I m k v J. cbn [sel_is]. apply Z.eqb_neq. intros ->. destruct (place_of root coll _ I) as (kk & pre & e & post & P & E).
    assert (e = ENode v). { apply (eid_inj root M); [eapply place_in, P|exact (value_in root _ J)|exact E]. }
    subst e. assert (Q := place_row root M _ _ _ _ _ P). rewrite (value_not_row root M m k v J) in Q. discriminate Q.
  Qed.

  (** * One redraw *)
  Lemma exec_pos sc l : forall s b s', exec h sc l s = Some (b, s') -> 1 <= dy s -> 0 <= dscroll s -> 0 <= dscroll s'.
  Proof.
    induction l as [|c l IH]; intros s b s' E Y T; cbn [exec] in E.
    - injection E as <- <-. exact T.
    - destruct (step h sc c s) as [[b1 s1]|] eqn:S; [|discriminate]. cbn [obind] in E.
      destruct (step_spec _ _ _ _ _ _ S) as (O & SC & L & _).
      assert (T1 : 0 <= dscroll s1). { rewrite SC. destruct (chk_scroll root c s) as [->|(_ & _ & _ & ->)]; [exact T|]. destruct (dy s =? 0); lia. }
      assert (Y1 : 1 <= dy s1). { destruct L as [(_ & -> & _)|(_ & (k & K & ->) & _)]; [lia|]. apply nb_nonneg in K. lia. }
      destruct b1; [eauto|]. injection E as <- <-. exact T1.
  Qed.

  Definition drawing (sc : screen) (v : view) : option (bool * dst) :=
    exec h sc (prog sc (vcoll v) 0 (vsel v) root) (mkD 1 (vscroll v) None None false []).

  Lemma redraw_same sc v b v' : redraw root sc v = Some (b, v') ->
    vsel v' = vsel v /\ vcoll v' = vcoll v /\ vres v' = vres v.
  Proof.
    unfold redraw. destruct (draw _ _ _ _ _ _ _) as [[r s]|]; [|discriminate]. cbn [obind].
    destruct (negb r && negb (dfound s)); [intros [= <- <-]; auto|].
    destruct (match ddown s with Some d => _ | None => _ end) as [down|]; [|discriminate]. cbn [obind]. intros [= <- <-]. auto.
  Qed.

  Lemma redraw_false sc v v' : redraw root sc v = Some (false, v') ->
    vscroll v' = vscroll v + 1 /\ vscroll v < 1 + Z.of_nat (length (prog sc (vcoll v) 0 (vsel v) root)) /\ vdown v' = None.
  Proof.
    unfold redraw. rewrite (draw_exec (mem_of root) sc (vcoll v) root). change (mem_of root) with h. fold (drawing sc v).
    destruct (drawing sc v) as [[r s]|] eqn:D; [|discriminate]. cbn [obind].
    destruct (negb r && negb (dfound s)) eqn:B.
    - intros [= <-]. cbn [vscroll vdown]. apply Bool.andb_true_iff in B. destruct B as [B1 B2]. apply Bool.negb_true_iff in B1, B2. subst r.
      unfold drawing in D. destruct (exec_scroll _ _ _ _ _ _ D B2) as [-> _]. cbn [dscroll]. split; [reflexivity|]. split.
      + destruct (Z_lt_le_dec (vscroll v) (1 + Z.of_nat (length (prog sc (vcoll v) 0 (vsel v) root)))) as [|G]; [assumption|].
        assert (Q := fun g => exec_room root sc (prog sc (vcoll v) 0 (vsel v) root) _ _ _ g D). cbn [dy dscroll] in Q. destruct (Q G); congruence.
      + assert (X : forall l s b s', exec h sc l s = Some (b, s') -> dfound s' = false -> ddown s' = ddown s).
        { clear. induction l as [|c l IH]; intros s b s' E F; cbn [exec] in E; [injection E as <- <-; reflexivity|].
          destruct (step h sc c s) as [[b1 s1]|] eqn:S; [|discriminate]. cbn [obind] in E.
          destruct (step_spec _ _ _ _ _ _ S) as (O & SC & _).
          assert (X1 : dfound s1 = false -> ddown s1 = ddown s).
          { intros F1. unfold ob in O. injection O as _ O2 O3. rewrite O2. rewrite O3 in F1. revert F1. unfold chk, checkSelection. destruct (celem c) as [e|]; [|reflexivity].
            destruct (dfound s) eqn:F0; cbn [negb].
            - destruct (ddown s) eqn:DD; [intros _; exact DD|]. destruct (negb _); cbn [dfound]; [congruence|intros Q; congruence].
            - destruct (sel_is _ _); [cbn [dfound]; congruence|]. destruct (negb _); reflexivity. }
          destruct b1.
          - rewrite (IH _ _ _ E F). apply X1. destruct (exec_scroll _ _ _ _ _ _ E F); assumption.
          - injection E as <- <-. auto. }
        rewrite (X _ _ _ _ D B2). reflexivity.
    - destruct (match ddown s with Some d => _ | None => _ end) as [down|]; [|discriminate]. cbn [obind]. intros [=].
  Qed.

  Lemma redraw_pos sc v b v' : redraw root sc v = Some (b, v') -> 0 <= vscroll v -> 0 <= vscroll v'.
  Proof.
    unfold redraw. rewrite (draw_exec (mem_of root) sc (vcoll v) root). change (mem_of root) with h. fold (drawing sc v).
    destruct (drawing sc v) as [[r s]|] eqn:D; [|discriminate]. cbn [obind]. intros E T.
    assert (0 <= dscroll s) by (apply (exec_pos _ _ _ _ _ D); cbn [dy dscroll]; lia).
    destruct (negb r && negb (dfound s)); [injection E as <- <-; cbn [vscroll]; lia|].
    destruct (match ddown s with Some d => _ | None => _ end) as [down|]; [|discriminate E]. cbn [obind] in E. injection E as <- <-. exact H.
  Qed.

  Lemma prows_prefix done rest : forall i, In i (prows root done) -> In i (prows root (done ++ rest)).
  Proof. intros i I. rewrite prows_app. apply in_or_app. auto. Qed.

  (** Adjacent rows after a successful redraw. *)
  Lemma redraw_rows sc v v' i pre post : redraw root sc v = Some (true, v') -> vsel v = Some i ->
    rows (vcoll v) root = pre ++ i :: post ->
    vup v' = Some (match rev pre with u :: _ => u | [] => i end) /\
    (vlast v' = false -> vdown v' = Some (match post with d :: _ => d | [] => i end)) /\
    (vlast v' = true -> (exists d, vdown v' = Some d /\ In d (i :: post)) /\
       forall r line b, In (r, line, b) (vlines v') -> ~ In r post).
  Proof.
    intros RD SE RO. assert (VI : In i (rows (vcoll v) root)) by (rewrite RO; apply in_elt).
    assert (NP : NoDup (pre ++ i :: post)) by (rewrite <- RO; apply (rows_NoDup root M)).
    assert (NPre : ~ In i pre). { intros I. apply NoDup_remove_2 in NP. apply NP, in_or_app. auto. }
    assert (RS := visible_row_sel _ _ VI).
    unfold redraw in RD. rewrite (draw_exec (mem_of root) sc (vcoll v) root) in RD. change (mem_of root) with h in RD. fold (drawing sc v) in RD.
    destruct (drawing sc v) as [[r s]|] eqn:D; [|discriminate]. cbn [obind] in RD.
    unfold drawing in D. rewrite SE in D.
    assert (W := root_wf root M sc (vcoll v) (Some i) RS).
    destruct (exec_prefix sc (Some i) _ (mkD 1 (vscroll v) None None false []) _ _ W D) as (done & rest & EP & OB & TR & LI & _).
    assert (PR : prows root done ++ prows root rest = pre ++ i :: post).
    { rewrite <- prows_app, <- EP, (root_prog_rows root M). exact RO. }
    change (ob (mkD 1 (vscroll v) None None false [])) with (None : option Z, None : option Z, false) in OB.
    destruct (negb r && negb (dfound s)) eqn:B; [discriminate RD|].
    (* the selection was reached *)
    assert (FO : dfound s = true).
    { destruct (dfound s) eqn:F; [reflexivity|]. exfalso. destruct r; [|discriminate B]. rewrite (TR eq_refl) in PR. cbn [prows flat_map] in PR. rewrite app_nil_r in PR.
      rewrite PR, (scan_at i pre post NPre) in OB. unfold ob in OB. congruence. }
    assert (SP : exists seen2, prows root done = pre ++ i :: seen2 /\ post = seen2 ++ prows root rest).
    { assert (ID : In i (prows root done)).
      { destruct (in_dec Z.eq_dec i (prows root done)) as [|N]; [assumption|]. exfalso.
        rewrite (scan_before (Some i) (prows root done) None None) in OB.
        - unfold ob in OB. congruence.
        - intros x I. cbn [sel_is]. apply Z.eqb_neq. intros ->. contradiction. }
      apply in_split in ID. destruct ID as (a & b & EQ). rewrite EQ, <- app_assoc in PR. cbn [app] in PR.
      assert (NP' := NP). rewrite <- PR in NP'. destruct (NoDup_split _ _ _ _ _ NP' PR) as [-> <-]. eauto. }
    destruct SP as (seen2 & SD & SP). rewrite SD, (scan_at i pre seen2 NPre) in OB. unfold ob in OB. injection OB as OU OD _.
    destruct (match ddown s with Some d => _ | None => _ end) as [down|] eqn:DW; [|discriminate RD]. cbn [obind] in RD.
    injection RD as <-. cbn [vup vdown vlast vlines]. split; [|split].
    - rewrite OU. destruct (rev pre); cbn [hd_error]; [exact SE|reflexivity].
    - intros LA. destruct (ddown s) as [d|] eqn:DD.
      + injection DW as <-. destruct seen2 as [|d' seen2]; [discriminate OD|]. cbn [hd_error] in OD. injection OD as ->. rewrite SP. reflexivity.
      + destruct r; [|discriminate LA]. rewrite (TR eq_refl) in SP. cbn [prows flat_map] in SP. rewrite app_nil_r in SP. destruct seen2; [|discriminate OD].
        subst post. rewrite SE in DW. destruct (place_of root (vcoll v) i VI) as (k & pr & e & po & P & E).
        assert (IN := place_in root _ _ _ _ _ P). destruct (place_split root M _ _ _ _ _ _ _ P ltac:(rewrite E; exact RO)) as [-> PS].
        apply app_eq_nil in PS. destruct PS as [PS1 PS2]. subst po. rewrite <- E in DW. change (mem_of root) with h in DW. rewrite (lookup_in root M e IN) in DW. cbn [obind] in DW.
        assert (CH : match e with ENode n => if mem (nid n) (vcoll v) then [] else children n | EEntry _ _ _ => [] end = []).
        { destruct e as [n|]; [|reflexivity]. cbn [value_of] in PS1. rewrite inside_children in PS1. destruct (mem (nid n) (vcoll v)); [reflexivity|].
          destruct (children n); [reflexivity|discriminate PS1]. }
        rewrite CH in DW. destruct (findNext_place root M _ _ _ _ _ P _ (place_deep root _ _ _ _ _ P)) as (o & FN & OO).
        change (mem_of root) with h in FN. rewrite FN in DW. cbn [obind] in DW. destruct OO as [->|(x & y & _ & Q)]; [|discriminate Q]. congruence.
    - intros LA. apply Bool.andb_true_iff in LA. destruct LA as [LR LD]. destruct (ddown s) as [d|] eqn:DD; [discriminate LD|].
      destruct seen2; [|discriminate OD]. cbn [app] in SP. split.
      + rewrite SE in DW. destruct (place_of root (vcoll v) i VI) as (k & pr & e & po & P & E).
        assert (IN := place_in root _ _ _ _ _ P). destruct (place_split root M _ _ _ _ _ _ _ P ltac:(rewrite E; exact RO)) as [-> PS].
        rewrite <- E in DW. change (mem_of root) with h in DW. rewrite (lookup_in root M e IN) in DW. cbn [obind] in DW.
        destruct (match e with ENode n => if mem (nid n) (vcoll v) then [] else children n | EEntry _ _ _ => [] end) as [|c ch] eqn:CH.
        * destruct (findNext_place root M _ _ _ _ _ P _ (place_deep root _ _ _ _ _ P)) as (o & FN & OO).
          rewrite FN in DW. cbn [obind] in DW. injection DW as <-. destruct OO as [->|(x & y & -> & Q)]; [exists (eid e); split; [reflexivity|left; symmetry; exact E]|].
          exists x. split; [reflexivity|]. right. rewrite <- PS, Q. apply in_elt.
        * injection DW as <-. exists (eid c). split; [reflexivity|]. right. rewrite <- PS. destruct e as [n|]; [|discriminate CH]. cbn [value_of].
          rewrite inside_children. destruct (mem (nid n) (vcoll v)); [discriminate CH|]. rewrite CH, rowsL_cons. left. reflexivity.
      + intros x line b I J. destruct (LI _ I) as [[]|(c & IC & EC)]. cbn [fst] in EC.
        assert (CL := prog_closed sc (vcoll v) root 0 (Some i) [] [] Logic.I). rewrite app_nil_r in CL. rewrite EP in CL, W. apply closed_prefix in CL.
        assert (WI := wf_ids _ _ _ W).
        destruct (closed_opened _ _ CL (fun c e Hc => WI c e (in_or_app _ _ _ (or_introl Hc))) c IC) as [[]|(c' & e & IC' & CE & EE)].
        assert (RX : In x (rows (vcoll v) root)) by (rewrite RO; apply in_or_app; right; right; exact J).
        destruct (place_of root (vcoll v) x RX) as (k & pr & e2 & po & P & E2).
        assert (IN : In e h).
        { clear - IC' CE EP. assert (Q : In c' (prog sc (vcoll v) 0 (Some i) root)) by (rewrite EP; apply in_or_app; auto).
          revert Q CE. generalize 0. generalize (Some i). assert (R := root_in root). revert R. generalize root at 1 3 as n.
          induction n as [n IH] using node_kids_ind. intros R sel x Q CE. rewrite prog_children in Q.
          assert (X : forall l, (forall y, In y l -> In y (children n)) -> forall x0, In c' (flat_map (prog_elem sc (vcoll v) x0 sel) l) -> In e h).
          { intros l S x0 J. apply in_flat_map in J. destruct J as (y & J1 & J2). specialize (S y J1). assert (KI := kid_in root n y R S).
            destruct y as [w|m kk w]; cbn [prog_elem] in J2; [exact (IH _ S KI _ _ J2 CE)|].
            assert (One : forall len, In c' [key_cmd sc sel x0 m kk w len] -> In e h).
            { intros len [<-|[]]. unfold key_cmd in CE. cbn [celem] in CE. injection CE as <-. exact KI. }
            destruct (is_container w && _); [eauto|]. destruct (negb _); [eauto|]. destruct (children w); [eauto|].
            destruct J2 as [<-|J2]; [cbn [celem] in CE; injection CE as <-; exact KI|].
            exact (IH _ S (value_in root _ KI) _ _ J2 CE). }
          assert (Bx : In c' (box sc (vcoll v) sel (ENode n) (nid n) x (flat_map (prog_elem sc (vcoll v) (x + INDENT_LEVEL) sel) (children n))) -> In e h).
          { unfold box. destruct (mem _ _).
            - intros [<-|[]]. cbn [celem] in CE. injection CE as <-. exact R.
            - intros [<-|J]; [cbn [celem] in CE; injection CE as <-; exact R|]. apply in_app_or in J. destruct J as [J|[<-|[]]]; [|discriminate CE].
              apply (X _ (fun y Hy => Hy) _ J). }
          destruct n as [m p|m l|m l]; [|exact (Bx Q)|exact (Bx Q)]. destruct Q as [<-|[]]. cbn [celem] in CE. injection CE as <-. exact R. }
        assert (e = e2). { apply (eid_inj root M); [exact IN|eapply place_in, P|congruence]. } subst e2.
        assert (In x (prows root done)).
        { unfold prows. apply in_flat_map. exists c'. split; [exact IC'|]. unfold crow. rewrite CE, (place_row root M _ _ _ _ _ P). left. exact E2. }
        rewrite SD in H. apply in_app_or in H. destruct H as [H|[H|[]]].
        * apply in_split in H. destruct H as (p1 & p2 & ->). rewrite <- app_assoc in NP. cbn [app] in NP. apply NoDup_remove_2 in NP. apply NP.
          apply in_or_app. right. apply in_or_app. right. right. exact J.
        * apply NoDup_remove_2 in NP. apply NP, in_or_app. right. rewrite H. exact J.
  Qed.
End View.

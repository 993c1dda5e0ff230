(** Rows and nodes, siblings, folding, successive documents, signals. *)
From Verif Require Export Proofs.WaitProofs.
From Coq Require Import Lia ZifyBool.
Open Scope Z_scope.

Section Shown.
  Variable root : node.
  Hypothesis M : in_memory root.
  Notation h := (elems root).

  Lemma shown_children r n : shown r n = (r, n) :: flat_map (fun e => shown (eid e) (value_of e)) (children n).
  Proof. destruct n as [m p|m l|m l]; cbn [shown children flat_map]; [reflexivity| |]; rewrite flat_map_map; reflexivity. Qed.

  Lemma shown_place i n : In (i, n) (shown (nid root) root) -> exists k pre e post, place root [] k pre e post /\ eid e = i /\ value_of e = n.
  Proof.
    assert (Q : forall t, forall k pre p post, place root [] k pre p post -> value_of p = t -> In (i, n) (shown (eid p) t) ->
      exists k pre e post, place root [] k pre e post /\ eid e = i /\ value_of e = n).
    { induction t as [t IH] using node_kids_ind. intros k pre p post P E I. rewrite shown_children in I. destruct I as [[= <- <-]|I]; [eauto 8|].
      apply in_flat_map in I. destruct I as (e & J & I). assert (J' := J). apply in_split in J'. destruct J' as (l1 & l2 & C).
      refine (IH e J _ _ _ _ (PL_child root [] k pre p post l1 e l2 P eq_refl _) eq_refl I). rewrite E. exact C. }
    intros I. exact (Q root _ _ _ _ (PL_root root []) eq_refl I).
  Qed.

  Lemma shown_visible coll i n : In (i, n) (shown (nid root) root) -> In i (rows coll root) ->
    exists k pre e post, place root coll k pre e post /\ eid e = i /\ value_of e = n.
  Proof.
    intros S V. destruct (shown_place i n S) as (k & pre & e & post & P & E1 & E2). destruct (place_of root coll i V) as (k' & pre' & e' & post' & P' & E').
    assert (e' = e) by (apply (eid_inj root M); [eapply place_in, P'|eapply place_in, P|congruence]). subst e'. eauto 8.
  Qed.

  (** * Siblings *)
  Inductive lplace (t : node) : list Z -> elem -> list Z -> Prop :=
  | LP_top l1 e l2 : children t = l1 ++ e :: l2 -> lplace t (rowsL [] l1) e (rowsL [] l2)
  | LP_in pre c post l1 e l2 : lplace t pre (ENode c) post -> children c = l1 ++ e :: l2 ->
      lplace t (pre ++ nid c :: rowsL [] l1) e (rowsL [] l2 ++ post).

  Lemma lplace_rows t pre e post : lplace t pre e post -> inside [] t = pre ++ eid e :: inside [] (value_of e) ++ post.
  Proof.
    induction 1 as [l1 e l2 K|pre c post l1 e l2 P IH K].
    - rewrite inside_children. cbn [mem existsb]. rewrite K, rowsL_app, rowsL_cons. unfold rows_elem. reflexivity.
    - rewrite IH. cbn [eid value_of]. rewrite (inside_children [] c). cbn [mem existsb]. rewrite K, rowsL_app, rowsL_cons. unfold rows_elem. repeat (rewrite <- !app_assoc; cbn [app]). reflexivity.
  Qed.
  Lemma lplace_in t pre e post : In (ENode t) h -> lplace t pre e post -> In e h.
  Proof.
    intros T. induction 1 as [l1 e l2 K|pre c post l1 e l2 P IH K]; [apply (kid_in root t); [exact T|rewrite K; apply in_elt]|].
    apply (kid_in root c); [exact IH|rewrite K; apply in_elt].
  Qed.
  Lemma lplace_next t pre e post : In (ENode t) h -> (forall f, findNext (S f) h (nid t) = Some None) -> lplace t pre e post ->
    forall f, (length (elems t) < f + length (eelems e))%nat -> (length (eelems e) < length (elems t))%nat /\ findNext f h (eid e) = Some (hd_error post).
  Proof.
    intros T E. induction 1 as [l1 e l2 K|pre c post l1 e l2 P IH K]; intros f F.
    - assert (SZ : (length (eelems e) < length (elems t))%nat). { assert (Q := eelems_child (ENode t) e ltac:(cbn [value_of]; rewrite K; apply in_elt)). cbn [eelems] in Q. lia. }
      split; [exact SZ|]. destruct f as [|f]; [lia|]. rewrite (findNext_child root M f t l1 e l2 T K). destruct l2 as [|x l2]; [|reflexivity].
      destruct f as [|f]; [lia|]. apply E.
    - assert (I := lplace_in _ _ _ _ T P). assert (SZ : (length (eelems e) + 1 <= length (elems c))%nat). { assert (Q := eelems_child (ENode c) e ltac:(cbn [value_of]; rewrite K; apply in_elt)). cbn [eelems] in Q. lia. }
      assert (SC : (length (elems c) < length (elems t))%nat). { apply (IH (S (length (elems t)))). lia. }
      split; [lia|]. destruct f as [|f]; [lia|]. rewrite (findNext_child root M f c l1 e l2 I K). destruct l2 as [|x l2]; [|reflexivity].
      apply (IH f). cbn [eelems]. lia.
  Qed.
  Lemma level_lplace t i n : In (i, n) (level t) -> exists pre e post, lplace t pre e post /\ eid e = i /\ value_of e = n.
  Proof.
    assert (KID : forall c, (c = t \/ exists pre post, lplace t pre (ENode c) post) -> In (i, n) (level c) -> exists pre e post, lplace t pre e post /\ eid e = i /\ value_of e = n).
    { induction c as [c IH] using node_kids_ind. intros P I.
      assert (CH : forall x, In x (children c) -> exists pre post, lplace t pre x post).
      { intros x J. apply in_split in J. destruct J as (l1 & l2 & C). destruct P as [->|(pre & post & P)]; eexists _, _; [apply (LP_top t l1 x l2 C)|apply (LP_in t pre c post l1 x l2 P C)]. }
      destruct c as [m p|m l|m l]; cbn [level] in I; [destruct I| |].
      - apply in_flat_map in I. destruct I as (x & J & I). assert (J' : In (ENode x) (children (NArr m l))) by (apply in_map, J).
        destruct (CH _ J') as (pre & post & PX). destruct I as [[= <- <-]|I]; [exists pre, (ENode x), post; auto|]. apply (IH _ J'); [|exact I]. right. cbn [value_of]. eauto.
      - apply in_map_iff in I. destruct I as (x & [= <- <-] & J).
        assert (J' : In (EEntry (fst (fst x)) (snd (fst x)) (snd x)) (children (NObj m l))) by (cbn [children]; apply in_map_iff; exists x; auto).
        destruct (CH _ J') as (pre & post & PX). eexists pre, _, post. split; [exact PX|]. auto. }
    apply KID. left. reflexivity.
  Qed.

  Lemma entry_values_in n v : In v (entry_values n) -> forall m, In (ENode n) (elems m) -> exists mm k, In (EEntry mm k v) (elems m).
  Proof.
    induction n as [n IH] using node_kids_ind. intros I m J.
    assert (KI : forall e, In e (children n) -> In e (elems m)) by (intros e H; exact (kid_in m n e J H)).
    destruct n as [mm p|mm l|mm l]; cbn [entry_values] in I; [destruct I| |]; apply in_flat_map in I; destruct I as (x & K & I).
    - assert (K' : In (ENode x) (children (NArr mm l))) by (apply in_map, K). apply (IH _ K' I m). exact (KI _ K').
    - assert (K' : In (EEntry (fst (fst x)) (snd (fst x)) (snd x)) (children (NObj mm l))) by (cbn [children]; apply in_map_iff; exists x; auto).
      destruct I as [<-|I]; [eexists _, _; exact (KI _ K')|]. apply (IH _ K' I m). exact (value_in m _ (KI _ K')).
  Qed.

  Lemma findNext_level t i n : In t (root :: entry_values root) -> In (i, n) (level t) ->
    exists pre post, inside [] t = pre ++ i :: inside [] n ++ post /\ findNext (deep root) h i = Some (hd_error post).
  Proof.
    intros T I. destruct (level_lplace t i n I) as (pre & e & post & P & E1 & E2). exists pre, post. split; [rewrite (lplace_rows _ _ _ _ P), E1, E2; reflexivity|].
    rewrite <- E1.
    assert (X : In (ENode t) h /\ forall f, findNext (S f) h (nid t) = Some None).
    { destruct T as [<-|T]; [split; [apply root_in|apply findNext_root, M]|]. destruct (entry_values_in root t T root (root_in root)) as (mm & k & J).
      split; [exact (value_in root _ J)|]. intros f. exact (findNext_value root M f mm k t J). }
    destruct X as [X1 X2]. apply (lplace_next t pre e post X1 X2 P). unfold deep, mem_of.
    assert (S : (length (elems t) <= length h)%nat).
    { destruct (elem_place root (ENode t) X1) as (k & pr & p & po & PP & Q). assert (Z := place_size root _ _ _ _ _ PP). destruct Q as [->|Q]; [cbn [eelems] in Z; lia|].
      injection Q as Q. rewrite <- Q. destruct p; cbn [eelems value_of length] in *; lia. }
    assert ((0 < length (eelems e))%nat) by (destruct e; cbn [eelems]; [rewrite elems_children|]; cbn [length]; lia). lia.
  Qed.

  Lemma findPrev_first c i n : In (i, n) (shown (nid root) root) -> i <> nid root ->
    In (ENode c) h -> In i (map eid (children c)) -> exists l1 l2, map eid (children c) = l1 ++ i :: l2 /\ findPrev h i = Some (hd_error (rev l1)).
  Proof.
    intros _ _ C I. apply in_map_iff in I. destruct I as (e & <- & J). apply in_split in J. destruct J as (l1 & l2 & K).
    exists (map eid l1), (map eid l2). split; [rewrite K, map_app; reflexivity|]. exact (findPrev_child root M c l1 e l2 C K).
  Qed.

  (** * Folding *)
  Lemma fold_row v i n : vsel v = Some i -> In i (rows (vcoll v) root) -> In (i, n) (shown (nid root) root) ->
    inside (vcoll v) n <> [] ->
    exists v1, collapseSelection root v = Some (Redraw, v1) /\ vsel v1 = Some i /\ vcoll v1 = nid n :: vcoll v /\
      (exists pre post, rows (vcoll v) root = pre ++ i :: inside (vcoll v) n ++ post /\ rows (vcoll v1) root = pre ++ i :: post) /\
      forall w, vsel w = Some i -> vcoll w = vcoll v1 ->
        exists w1, expandSelection root w = Some (Redraw, w1) /\ vsel w1 = Some i /\ vcoll w1 = vcoll v.
  Proof.
    intros S V SH NE. destruct (shown_visible _ _ _ SH V) as (k & pre & e & post & P & <- & <-).
    assert (IN := place_in root _ _ _ _ _ P). rewrite inside_children in NE.
    destruct (mem (nid (value_of e)) (vcoll v)) eqn:ME; [contradiction|]. destruct (children (value_of e)) as [|c ch] eqn:CH; [contradiction|].
    assert (IC : is_container (value_of e) = true) by (apply (container_child _ c); rewrite CH; left; reflexivity).
    unfold collapseSelection. rewrite S. cbn [obind]. change (mem_of root) with h. rewrite (lookup_in root M _ IN). cbn [obind]. cbn zeta. rewrite IC, ME, CH. cbn [negb orb].
    rewrite andb_false_r. eexists. split; [reflexivity|]. unfold set_coll. cbn [vsel vcoll]. split; [exact S|].
    assert (IE : insert (nid (value_of e)) (vcoll v) = nid (value_of e) :: vcoll v) by (unfold insert; rewrite ME; reflexivity).
    rewrite IE. split; [reflexivity|]. split.
    - exists pre, post. split; [apply (place_rows root _ _ _ _ _ P)|].
      assert (P' : place root (nid (value_of e) :: vcoll v) k pre e post).
      { rewrite <- IE. apply (place_agree root M (nid (value_of e)) (vcoll v)); [intros j; apply mem_insert|exact P|apply own_id]. }
      rewrite (place_rows root _ _ _ _ _ P'). unfold rows_elem. rewrite inside_children. cbn [mem existsb]. rewrite Z.eqb_refl. reflexivity.
    - intros w SW CW. unfold expandSelection. rewrite SW. change (mem_of root) with h. rewrite (lookup_in root M _ IN). cbn [obind]. cbn zeta. rewrite IC, CW. cbn [negb mem existsb]. rewrite Z.eqb_refl. cbn [orb].
      eexists. split; [reflexivity|]. unfold set_coll. cbn [vsel vcoll]. split; [exact SW|]. unfold Navigation.remove. cbn [filter]. rewrite Z.eqb_refl. cbn [negb].
      apply mem_not in ME. clear - ME. induction (vcoll v) as [|x l IH]; [reflexivity|]. cbn [filter]. destruct (x =? nid (value_of e)) eqn:E.
      + apply Z.eqb_eq in E. exfalso. apply ME. left. exact E.
      + cbn [negb]. rewrite IH; [reflexivity|]. intros I. apply ME. right. exact I.
  Qed.
End Shown.

(** * What is left of a previous document *)
Section Same.
  Variable (rx : bytes -> bool -> bytes -> bool) (root : node).
  Notation h := (elems root).

  Definition agree (c c' : list Z) : Prop := forall j, In j (ids root) -> mem j c = mem j c'.
  Lemma agree_spec c c' : agree c c' <-> ViewerSpec.agree root c c'.
  Proof.
    split; intros A j J; specialize (A j J).
    - rewrite <- !mem_In, A. tauto.
    - rewrite <- !mem_In in A. destruct (mem j c), (mem j c'); try reflexivity; destruct A as [A1 A2]; [specialize (A1 eq_refl)|specialize (A2 eq_refl)]; discriminate.
  Qed.
  Definition base (v w : view) : Prop := vsel v = vsel w /\ vscroll v = vscroll w /\ vres v = vres w /\ agree (vcoll v) (vcoll w).
  Definition same (v w : view) : Prop := base v w /\ vup v = vup w /\ vdown v = vdown w /\ vlast v = vlast w /\ vlines v = vlines w.

  Lemma node_id n : In (ENode n) h -> In (nid n) (ids root).
  Proof. intros I. rewrite <- elems_eid. exact (in_map eid _ _ I). Qed.
  Lemma agree_node c c' n : agree c c' -> In (ENode n) h -> mem (nid n) c = mem (nid n) c'.
  Proof. intros A I. apply A, node_id, I. Qed.
  Lemma agree_insert c c' i : agree c c' -> agree (insert i c) (insert i c').
  Proof.
    intros A j J. destruct (Z.eq_dec j i) as [->|N]; [|rewrite !mem_insert by exact N; apply A, J].
    transitivity true; [|symmetry]; apply mem_In, insert_In; auto.
  Qed.
  Lemma agree_remove c c' i : agree c c' -> agree (Navigation.remove i c) (Navigation.remove i c').
  Proof.
    intros A j J. destruct (Z.eq_dec j i) as [->|N]; [|rewrite !mem_remove by exact N; apply A, J].
    transitivity false; [|symmetry]; apply mem_not; intros Q; apply remove_In in Q; tauto.
  Qed.

  Lemma prog_agree sc c c' n : agree c c' -> In (ENode n) h -> forall x sel, prog sc c x sel n = prog sc c' x sel n.
  Proof.
    intros A. induction n as [n IH] using node_kids_ind. intros I x sel. rewrite !prog_children.
    assert (Q : forall l, (forall e, In e l -> In e (children n)) -> forall x, flat_map (prog_elem sc c x sel) l = flat_map (prog_elem sc c' x sel) l).
    { induction l as [|e l IHl]; intros S x0; [reflexivity|]. cbn [flat_map]. rewrite IHl by (intros; apply S; right; assumption). f_equal.
      assert (J := S e (or_introl eq_refl)). assert (K := kid_in root n e I J). assert (IHe := IH e J (value_in root _ K)).
      destruct e as [v|m k v]; cbn [prog_elem value_of] in *; [apply IHe|]. rewrite (agree_node _ _ v A (value_in root _ K)).
      destruct (is_container v && _); [reflexivity|]. destruct (negb _); [reflexivity|]. destruct (children v); [reflexivity|]. f_equal. apply IHe. }
    unfold box. rewrite (agree_node _ _ _ A I), (Q (children n) (fun _ X => X)). reflexivity.
  Qed.

  Definition rel2 {A} (R : view -> view -> Prop) (a b : option (A * view)) : Prop :=
    match a, b with Some (x, v), Some (y, w) => x = y /\ R v w | None, None => True | _, _ => False end.

  Lemma redraw_base sc v w : base v w -> rel2 same (redraw root sc v) (redraw root sc w).
  Proof.
    intros (S & T & R & A). unfold redraw. rewrite !(draw_exec (mem_of root) sc _ root), <- S, <- T, (prog_agree sc _ _ root A (root_in root)).
    destruct (exec _ _ _ _) as [[r s]|]; [|exact Logic.I]. cbn [obind]. destruct (negb r && negb (dfound s)).
    - cbn. split; [reflexivity|]. unfold same, base. cbn. auto 10.
    - assert (E : (match vsel v with
                   | None => None
                   | Some i =>
                       obind (lookup (mem_of root) i) (fun e =>
                         match match e with ENode n => if mem (nid n) (vcoll v) then [] else children n | _ => [] end with
                         | c :: _ => Some (Some (eid c))
                         | [] => obind (findNext (deep root) (mem_of root) i) (fun next => Some (match next with Some r => Some r | None => Some i end))
                         end)
                   end) = (match vsel v with
                   | None => None
                   | Some i =>
                       obind (lookup (mem_of root) i) (fun e =>
                         match match e with ENode n => if mem (nid n) (vcoll w) then [] else children n | _ => [] end with
                         | c :: _ => Some (Some (eid c))
                         | [] => obind (findNext (deep root) (mem_of root) i) (fun next => Some (match next with Some r => Some r | None => Some i end))
                         end)
                   end)).
      { destruct (vsel v) as [i|]; [|reflexivity]. destruct (lookup (mem_of root) i) as [e|] eqn:L; [|reflexivity]. cbn [obind]. apply lookup_some in L. destruct L as [L _].
        destruct e as [n|]; [|reflexivity]. rewrite (agree_node _ _ _ A L). reflexivity. }
      rewrite E. destruct (match ddown s with Some d => _ | None => _ end) as [down|]; [|exact Logic.I]. cbn [obind rel2]. split; [reflexivity|].
      unfold same, base. cbn. auto 10.
  Qed.

  Lemma loop_base f sc : forall v w, base v w ->
    match redraw_loop root f sc v, redraw_loop root f sc w with Some v, Some w => same v w | None, None => True | _, _ => False end.
  Proof.
    induction f as [|f IH]; intros v w B; cbn [redraw_loop]; [exact Logic.I|]. assert (Q := redraw_base sc v w B). unfold rel2 in Q.
    destruct (redraw root sc v) as [[b v1]|], (redraw root sc w) as [[b' w1]|]; try contradiction; cbn [obind]; [|exact Logic.I]. destruct Q as [<- Q]. destruct b; [exact Q|].
    apply IH. apply Q.
  Qed.

  Lemma unfold_agree f : forall c c' i, agree c c' ->
    match unfold f h c i, unfold f h c' i with Some a, Some b => agree a b | None, None => True | _, _ => False end.
  Proof.
    induction f as [|f IH]; intros c c' i A; cbn [unfold]; [exact Logic.I|]. destruct (lookup h i) as [e|]; [|exact Logic.I]. cbn [obind].
    destruct (epar e); [|exact A]. apply IH, agree_remove, A.
  Qed.

  Lemma same_sel v w s : same v w -> same (set_sel v s) (set_sel w s).
  Proof. intros ((A & B & C & D) & E). unfold same, base, set_sel. cbn. auto. Qed.
  Lemma same_coll v w c c' : same v w -> agree c c' -> same (set_coll v c) (set_coll w c').
  Proof. intros ((A & B & C & D) & E) G. unfold same, base, set_coll. cbn. auto. Qed.
  Lemma same_res v w r : same v w -> same (set_res v r) (set_res w r).
  Proof. intros ((A & B & C & D) & E). unfold same, base, set_res. cbn. auto. Qed.
  Lemma rel_some {A} (a : A) v w : same v w -> rel2 same (Some (a, v)) (Some (a, w)).
  Proof. split; auto. Qed.

  Lemma next_same sc v w : same v w -> rel2 same (nextResult root sc v) (nextResult root sc w).
  Proof.
    intros Q. unfold nextResult. assert (Q' := Q). destruct Q' as ((S & T & R & A) & _). rewrite <- R, <- S. destruct (vres v) as [|first rest].
    - assert (X := redraw_base sc v w (proj1 Q)). unfold rel2 in X. destruct (redraw root sc v) as [[b v1]|], (redraw root sc w) as [[b' w1]|]; try contradiction; [|exact Logic.I].
      cbn [obind]. apply rel_some. apply X.
    - destruct (snd _) as [r|].
      + assert (U := unfold_agree (deep root) (vcoll v) (vcoll w) r A). change (mem_of root) with h. destruct (unfold (deep root) h (vcoll v) r), (unfold (deep root) h (vcoll w) r); try contradiction; [|exact Logic.I].
        cbn [obind]. apply rel_some, same_sel, same_coll; assumption.
      + assert (U := unfold_agree (deep root) (vcoll v) (vcoll w) first A). change (mem_of root) with h. destruct (unfold (deep root) h (vcoll v) first) as [a|], (unfold (deep root) h (vcoll w) first) as [b|]; try contradiction; [|exact Logic.I].
        cbn [obind]. assert (X := redraw_base sc _ _ (proj1 (same_sel _ _ (Some first) (same_coll v w a b Q U)))). unfold rel2 in X.
        destruct (redraw root sc _) as [[b1 v1]|], (redraw root sc (set_sel (set_coll w b) _)) as [[b' w1]|]; try contradiction; [|exact Logic.I].
        cbn [obind]. apply rel_some. apply X.
  Qed.

  Lemma evalKey_same sc k p v w : same v w -> rel2 same (evalKey root rx sc k p v) (evalKey root rx sc k p w).
  Proof.
    intros Q. assert (Q' := Q). destruct Q' as ((S & T & R & A) & U & D & L & _). unfold evalKey.
    destruct (beqb k (str "Q")); [apply rel_some, Q|].
    destruct (_ || _). { unfold selectUp. rewrite U. apply rel_some, same_sel, Q. }
    destruct (_ || _). { unfold selectDown. rewrite L, S, D, T. destruct (vlast w); [|destruct (negb _); apply rel_some; [apply same_sel|]; exact Q].
      apply rel_some. destruct Q as ((? & ? & ? & ?) & E). unfold same, base, set_scroll. cbn. auto. }
    destruct (beqb k (str "KEY_PPAGE")).
    { unfold selectPUp. rewrite S. destruct (vsel w) as [i|]; [|exact Logic.I]. cbn [obind]. destruct (findPrev _ i) as [[b|]|]; cbn [obind]; [apply rel_some, same_sel, Q| |exact Logic.I].
      destruct (lookup _ i) as [e|]; [|exact Logic.I]. cbn [obind]. destruct (epar e) as [q|]; [|apply rel_some, Q]. destruct (container_at root q) as [[c|]|]; [| |exact Logic.I]; cbn [obind].
      - destruct (row_of root q); [|exact Logic.I]. cbn [obind]. apply rel_some, same_sel, Q.
      - apply rel_some, Q. }
    destruct (beqb k (str "KEY_NPAGE")).
    { unfold selectPDown. rewrite S. destruct (vsel w) as [i|]; [|exact Logic.I]. cbn [obind]. destruct (findNext _ _ i) as [[r|]|]; cbn [obind]; [apply rel_some, same_sel, Q|apply rel_some, Q|exact Logic.I]. }
    destruct (_ || _).
    { unfold expandSelection. rewrite S, D. destruct (vsel w) as [i|]; [|apply rel_some, Q]. destruct (lookup (mem_of root) i) as [e|] eqn:LO; [|exact Logic.I]. cbn [obind]. cbn zeta.
      apply lookup_some in LO. destruct LO as [LO _]. rewrite (agree_node _ _ _ A (value_in root _ LO)).
      destruct (negb _); [apply rel_some, Q|]. destruct (mem _ _); [apply rel_some, same_coll; [exact Q|apply agree_remove, A]|].
      destruct (children _); apply rel_some; [exact Q|apply same_sel, Q]. }
    destruct (_ || _).
    { unfold collapseSelection. rewrite S. destruct (vsel w) as [i|]; [|exact Logic.I]. cbn [obind]. destruct (lookup (mem_of root) i) as [e|] eqn:LO; [|exact Logic.I]. cbn [obind]. cbn zeta.
      apply lookup_some in LO. destruct LO as [LO _]. rewrite (agree_node _ _ _ A (value_in root _ LO)). destruct (_ && _).
      - destruct (epar e); [|exact Logic.I]. cbn [obind]. destruct (row_of _ _); [|exact Logic.I]. cbn [obind]. apply rel_some, same_sel, Q.
      - apply rel_some, same_coll; [exact Q|apply agree_insert, A]. }
    destruct (beqb k (str "/")).
    { unfold initSearch. destruct p as [p|]; [|apply rel_some, Q]. destruct (isEmpty p); [apply rel_some, same_res, Q|]. apply next_same, same_res, Q. }
    destruct (beqb k (str "N")); [apply next_same, Q|apply rel_some, Q].
  Qed.

  Definition same_final (a b : final) : Prop :=
    match a, b with
    | Waiting sc v s, Waiting sc' w s' => sc = sc' /\ s = s' /\ same v w
    | Ended sc v r, Ended sc' w r' => sc = sc' /\ r = r' /\ same v w
    | Undefined, Undefined => True
    | _, _ => False
    end.

  Lemma wait_same evs : forall sc v w stop, same v w -> same_final (wait rx root sc v stop evs) (wait rx root sc w stop evs).
  Proof.
    induction evs as [|ev evs IH]; intros sc v w stop Q; [cbn; auto|]. destruct ev as [k p|ww hh|]; cbn [wait].
    - assert (E := evalKey_same sc k p v w Q). unfold rel2 in E. destruct (evalKey root rx sc k p v) as [[o v1]|], (evalKey root rx sc k p w) as [[o' w1]|]; try contradiction; [|exact Logic.I].
      destruct E as [<- E]. assert (LB := loop_base (fuel_of root) sc v1 w1 (proj1 E)).
      destruct o; [| |cbn; auto|destruct stop; [cbn; auto|apply IH, E]];
        (destruct (redraw_loop root (fuel_of root) sc v1), (redraw_loop root (fuel_of root) sc w1); try contradiction; [|exact Logic.I]; destruct stop; [cbn; auto|apply IH, LB]).
    - cbn zeta. assert (LB := loop_base (fuel_of root) (mkScreen ww hh (slen sc)) v w (proj1 Q)).
      destruct (redraw_loop root _ _ v), (redraw_loop root _ _ w); try contradiction; [|exact Logic.I]. apply IH, LB.
    - apply IH, Q.
  Qed.

  Lemma run_same sc v w evs : agree (vcoll v) (vcoll w) -> vres v = vres w -> same_final (run rx root sc v evs) (run rx root sc w evs).
  Proof.
    intros A R. unfold run.
    assert (LB := loop_base (fuel_of root) sc (mkView (Some (nid root)) 0 (vcoll v) (vres v) (vup v) (vdown v) (vlast v) (vlines v))
      (mkView (Some (nid root)) 0 (vcoll w) (vres w) (vup w) (vdown w) (vlast w) (vlines w))).
    assert (B : base (mkView (Some (nid root)) 0 (vcoll v) (vres v) (vup v) (vdown v) (vlast v) (vlines v))
      (mkView (Some (nid root)) 0 (vcoll w) (vres w) (vup w) (vdown w) (vlast w) (vlines w))) by (unfold base; cbn; auto).
    specialize (LB B).
    destruct (redraw_loop root (fuel_of root) sc (mkView _ _ (vcoll v) _ _ _ _ _)), (redraw_loop root (fuel_of root) sc (mkView _ _ (vcoll w) _ _ _ _ _));
      try contradiction; [|exact Logic.I].
    apply wait_same, LB.
  Qed.

  Lemma same_spec v w : same v w -> same_view root v w.
  Proof. intros ((A & B & C & D) & E). apply agree_spec in D. unfold same_view. tauto. Qed.
  Lemma run_same_spec sc v w evs : ViewerSpec.agree root (vcoll v) (vcoll w) -> vres v = vres w ->
    ViewerSpec.same_final root (run rx root sc v evs) (run rx root sc w evs).
  Proof.
    intros A R. apply agree_spec in A. assert (Q := run_same sc v w evs A R). unfold same_final, ViewerSpec.same_final in *.
    destruct (run rx root sc v evs), (run rx root sc w evs); try contradiction; auto; (split; [apply Q|split; [apply Q|apply same_spec, Q]]).
  Qed.
End Same.

(** * Signals *)
Lemma stop_one rx root a : (forall k p, ~ In (EvKey k p) a) -> forall sc v k p t,
  wait rx root sc v true (a ++ EvKey k p :: t) = Undefined \/ exists sc' v', wait rx root sc v true (a ++ EvKey k p :: t) = Ended sc' v' t.
Proof.
  induction a as [|ev a IH]; intros N sc v k p t; cbn [app wait].
  - destruct (evalKey root rx sc k p v) as [[o v1]|]; [|auto]. destruct o; try (right; eauto; fail); destruct (redraw_loop root (fuel_of root) sc v1); eauto.
  - assert (N' : forall k p, ~ In (EvKey k p) a) by (intros k' p' I; apply (N k' p'); right; exact I).
    destruct ev as [k' p'|w hh|]; [exfalso; apply (N k' p'); left; reflexivity| |apply (IH N')].
    cbn zeta. destruct (redraw_loop root (fuel_of root) _ v); [apply (IH N')|auto].
Qed.
Lemma stop_run rx root evs : forall sc v stop b k p t, (forall k p, ~ In (EvKey k p) b) ->
  wait rx root sc v stop (evs ++ EvStop :: b ++ EvKey k p :: t) = Undefined \/
  exists sc' v' c, wait rx root sc v stop (evs ++ EvStop :: b ++ EvKey k p :: t) = Ended sc' v' (c ++ t).
Proof.
  induction evs as [|ev evs IH]; intros sc v stop b k p t N; cbn [app].
  - cbn [wait]. destruct (stop_one rx root b N sc v k p t) as [H|(sc' & v' & H)]; [auto|]. right. exists sc', v', []. exact H.
  - destruct ev as [k' p'|w hh|]; cbn [wait].
    + set (rest := evs ++ EvStop :: b ++ EvKey k p :: t) in *. assert (E : exists c, rest = c ++ t).
      { exists (evs ++ EvStop :: b ++ [EvKey k p]). unfold rest. rewrite <- !app_assoc. cbn [app]. rewrite <- app_assoc. reflexivity. }
      destruct E as (c & E).
      destruct (evalKey root rx sc k' p' v) as [[o v1]|]; [|auto]. destruct o; try (right; rewrite E; eauto; fail);
        try (destruct (redraw_loop root (fuel_of root) sc v1); [|auto]); (destruct stop; [right; rewrite E; eauto|]; apply IH; exact N).
    + cbn zeta. destruct (redraw_loop root (fuel_of root) _ v); [apply IH; exact N|auto].
    + apply IH; exact N.
Qed.

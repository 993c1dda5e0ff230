(** What the windows of the comparison show. *)
From Verif Require Import Spec.SplitPage Spec.SplitLay Proofs.PageProofs Proofs.NbLinesProofs.
From Verif Require Import Proofs.RowProofs Proofs.ViewProofs Proofs.SplitMem Proofs.SplitDraw Proofs.SplitSim Proofs.SplitTerm Proofs.SplitRows Proofs.SplitLevel Proofs.SplitPress.
From Verif Require Import Model.SplitView.
From Coq Require Import Lia ZifyBool.
Open Scope Z_scope.

(** * The page *)
Section Page.
  Variable (len : elem -> Z) (coll : list Z).
  Definition half_elem (x : Z) (e : elem) : list strip :=
    match e with
    | ENode n => half_page len coll (nid n) x n
    | EEntry m k v =>
        let strip t w margin := mkStrip (mid m) (mid m) x ([(Name, before_nul k); mark ": "] ++ t) w margin in
        if is_container v && hidden coll v then [strip [(Mark, folded v)] (len e + 2 + 7) 0]
        else match v with
             | NPrim _ p => [strip [scalar_text p] (len e + 2 + len (ENode v)) 0]
             | _ => match children v with
                    | [] => [strip [(Mark, hollow v)] (len e + 2 + 3) 0]
                    | _ => strip [] (len e) 2 :: half_page len coll (mid m) x v
                    end
             end
    end.
  Lemma half_children r x n : half_page len coll r x n =
    match n with
    | NPrim _ p => [mkStrip (nid n) r x [scalar_text p] (len (ENode n)) 0]
    | _ => if hidden coll n then [mkStrip (nid n) r x [(Mark, folded n)] 7 0]
           else mkStrip (nid n) r x [(Mark, opening n)] 1 0 :: flat_map (half_elem (x + 4)) (children n) ++ [mkStrip (nid n) r x [(Mark, closing n)] 1 0]
    end.
  Proof.
    destruct n as [m p|m l|m l]; cbn [half_page children]; [reflexivity| |]; destruct (hidden coll _); [reflexivity| |reflexivity|];
      rewrite flat_map_map; cbn [app]; f_equal; f_equal; apply flat_map_ext_F.
    intros [[em k] v] I. cbn [fst snd half_elem]. destruct v as [m' p|m' l'|m' l']; cbn [is_container andb children]; [reflexivity| |];
        destruct (hidden coll _); try reflexivity; destruct l'; reflexivity.
  Qed.
End Page.

(** * Lines *)
Lemma spaced_snoc w top l : forall y p, spaced w top y l -> Forall (fun q => ends_at w top q <= fst p) l -> y <= fst p -> spaced w top y (l ++ [p]).
Proof.
  induction l as [|q l IH]; intros y p S F Y; cbn [app spaced] in *; [auto|]. destruct S as [S1 S2]. inversion F; subst. split; [exact S1|]. apply IH; assumption.
Qed.
Lemma spaced_top w top top' l : forall y, Forall (fun q => fst q <= top /\ fst q <= top') l -> spaced w top y l -> spaced w top' y l.
Proof.
  induction l as [|q l IH]; intros y F S; cbn [spaced] in *; [exact Logic.I|]. inversion F as [|? ? [F1 F2] F3]; subst. destruct S as [S1 S2]. split; [exact S1|].
  unfold ends_at in *. destruct (fst q <=? top) eqn:E1; [|lia]. destruct (fst q <=? top') eqn:E2; [|lia]. apply IH; assumption.
Qed.

Lemma from_to_top W top top' l : forall y z, Forall (fun q => fst q <= top /\ fst q <= top') l -> from_to W top y l z -> from_to W top' y l z.
  Proof.
    induction l as [|q l IH]; intros y z F S; cbn [from_to] in *; [exact S|]. inversion F as [|? ? [F1 F2] F3]; subst. destruct S as [S1 S2]. split; [exact S1|].
    unfold ends_at in *. destruct (fst q <=? top) eqn:E1; [|lia]. destruct (fst q <=? top') eqn:E2; [|lia]. apply IH; assumption.
  Qed.
Section Show.
  Variable (r : node) (h : list elem) (sc : screen) (coll : list Z) (dm : mat).
  Hypothesis M : in_memory r.
  Hypothesis LK : forall i, In i (ids r) -> lookup h i = lookup (elems r) i.
  Hypothesis SW : 5 <= sw sc < 2 ^ 32.
  Hypothesis SH : 2 <= sh sc < 2 ^ 32.
  Hypothesis SL : forall e, 0 <= slen sc e.
  Notation W := (sw sc - 2).
  Variable page : list strip.

  (** The row that shows an element. *)
  Definition row_of (e : elem) : Z := match epar e with Some p => if is_entry h p then p else eid e | None => eid e end.
  Lemma row_self e : In e (elems r) -> parent_is_entry (elems r) e = false -> row_of e = eid e.
  Proof. intros I P. rewrite <- (parent_h r h M LK e I) in P. unfold row_of, parent_is_entry in *. destruct (epar e); [rewrite P|]; reflexivity. Qed.
  Lemma row_value m k v : In (EEntry m k v) (elems r) -> row_of (ENode v) = mid m.
  Proof.
    intros I. assert (P := value_not_row r M m k v I). rewrite <- (parent_h r h M LK (ENode v) (value_in r _ I)) in P. unfold row_of, parent_is_entry in *.
    rewrite (value_parent r M m k v I) in *. rewrite P. reflexivity.
  Qed.

  Definition writes (top : Z) (c : writing) (p : Z * strip) : Prop :=
    cellx c = column (snd p) /\ celly c = fst p - top /\ eid (celem c) = holder (snd p) /\ row (snd p) = row_of (celem c) /\ In (celem c) (elems r) /\
    texts (snd p) = map (fun t => (kind_of (fst t), snd t)) (ctexts c).
  Definition on_screen (top : Z) (p : Z * strip) : bool := top <? fst p.
  Definition inv (w : win) (done : list (Z * strip)) : Prop :=
    1 <= wy w /\ map (fun x => (fst (fst x), snd x)) (wlog w) = rev (map (fun p => (holder (snd p), fst p)) done) /\
    Forall2 (writes (wscroll w)) (wcells w) (rev (filter (on_screen (wscroll w)) done)) /\
    spaced W (wscroll w) 1 done /\ Forall (fun p => fst p + 1 <= ends_at W (wscroll w) p <= wy w) done.

  Lemma inv_line w done y : inv w done -> wy w <= y -> inv (set_wy w y) done.
  Proof. intros (I1 & I2 & I3 & I4 & I5) Y. unfold inv. cbn. parts; auto; [lia|]. eapply Forall_impl; [|exact I5]. cbn. intros p. lia. Qed.
  Definition short (w : win) (done : list (Z * strip)) : Prop := Forall (fun p => ends_at W (wscroll w) p - wscroll w < sh sc) done.
  Lemma inv_check e w done : inv w done -> short w done -> inv (check h e w) done /\ short (check h e w) done /\ wstack (check h e w) = wstack w /\ wx (check h e w) = wx w /\ wy (check h e w) = wy w.
  Proof.
    intros I O. unfold check. destruct (wfound w); cbn [negb].
    - destruct (wdown w); [auto|]. cbv zeta. match goal with |- context [lookup h ?i] => destruct (lookup h i) as [x|]; [|auto] end. destruct (negb _); auto.
    - destruct (sel_is _ _); [|destruct (negb _); auto]. destruct (wy w <=? wscroll w) eqn:Y; [|auto].
      destruct I as (I1 & I2 & I3 & I4 & I5). assert (Z0 : (wy w =? 0) = false) by lia. rewrite Z0.
      assert (T : Forall (fun q => fst q <= wscroll w /\ fst q <= wy w - 1) done) by (eapply Forall_impl; [|exact I5]; cbn; intros p Q; lia).
      split; [|split; [|auto]].
      2: { unfold short. cbn [wscroll set_wfound set_wscroll]. clear - T I5 SH. induction I5 as [|q l Q _ IH]; constructor; inversion T as [|? ? [T1 T2] T3]; subst; [|auto]. unfold ends_at in *. destruct (fst q <=? wscroll w) eqn:E; [|lia]. destruct (fst q <=? wy w - 1) eqn:E'; lia. }
      unfold inv. cbn [wy wlog wcells wscroll set_wfound set_wscroll].
      assert (N : forall top, (top = wscroll w \/ top = wy w - 1) -> filter (on_screen top) done = []).
      { intros top E. clear - T E. induction T as [|q l [Q1 Q2] T IH]; [reflexivity|]. cbn [filter]. unfold on_screen at 1. destruct (top <? fst q) eqn:L; [lia|exact IH]. }
      rewrite N in I3 |- * by auto. split; [exact I1|]. split; [exact I2|]. split; [inversion I3; constructor|]. split; [exact (spaced_top _ _ _ _ _ T I4)|].
      clear - T I5. induction I5 as [|q l Q _ IH]; constructor; inversion T as [|? ? [T1 T2] T3]; subst; [|auto]. unfold ends_at in *. destruct (fst q <=? wscroll w) eqn:E; [|lia]. destruct (fst q <=? wy w - 1) eqn:E'; lia.
  Qed.

  (** One writing. *)
  Definition wrote (w : win) (done : list (Z * strip)) (s : strip) (w' : win) : Prop :=
    inv w' (done ++ [(wy w, s)]) /\ wstack w' = wstack w /\ wx w' = wx w /\ wscroll w' = wscroll w /\ wy w' = ends_at W (wscroll w) (wy w, s).
  Lemma put_inv e t ss i c len maxw w done s : inv w done -> In e (elems r) -> eid e = i ->
    1 <= len + wx w < 2 ^ 32 -> maxw = W - margin s -> 1 <= maxw < 2 ^ 32 ->
    holder s = i -> row s = row_of e -> column s = wx w -> extent s = len -> texts s = map (fun t => (kind_of (fst t), snd t)) t ->
    ok any (wrote w done s) (put dm ss i c len maxw (prints e t w)).
  Proof.
    intros (I1 & I2 & I3 & I4 & I5) IE EI L MW MB S1 S2 S3 S4 S5.
    set (u := prints e t w). unfold put. cbv zeta. change (wy u) with (wy w). change (wscroll u) with (wscroll w). change (wx u) with (wx w).
    assert (K : exists k, getNbLines (len + wx w) maxw = Some k /\ 1 <= k /\ k = PageSpec.lines_of W s).
    { set (c0 := (len + wx w + maxw - 1) / maxw). assert (C : (c0 - 1) * maxw < len + wx w <= c0 * maxw) by (unfold c0; assert (D := Z.div_mod (len + wx w + maxw - 1) maxw ltac:(lia)); assert (B := Z.mod_pos_bound (len + wx w + maxw - 1) maxw ltac:(lia)); nia).
      assert (P : 1 <= c0) by nia. assert (U : c0 < 2 ^ 32) by nia. exists c0. split; [apply nb_lines_ceil; [lia|lia|exact C|exact U]|]. split; [exact P|].
      unfold PageSpec.lines_of. rewrite S3, S4, <- MW. unfold c0. f_equal. lia. }
    destruct K as (k & -> & KP & KE).
    assert (F : Forall (fun q => ends_at W (wscroll w) q <= fst (wy w, s)) done) by (eapply Forall_impl; [|exact I5]; cbn; intros; lia).
    assert (G : forall v, wy v = ends_at W (wscroll w) (wy w, s) -> wlog v = (i, c, wy w) :: wlog w -> wcells v = wcells u -> wscroll v = wscroll w -> wstack v = wstack w -> wx v = wx w -> wrote w done s v).
    { intros v V1 V2 V3 V4 V5 V6. unfold wrote. parts; auto. unfold inv. rewrite V1, V2, V3, V4.
      assert (E1 : wy w + 1 <= ends_at W (wscroll w) (wy w, s)) by (unfold ends_at; cbn [fst snd]; destruct (_ <=? _); lia).
      parts; [lia| | | |].
      - rewrite map_app, rev_app_distr. cbn [map rev app fst snd]. rewrite S1, I2. reflexivity.
      - rewrite filter_app, rev_app_distr. cbn [filter]. unfold on_screen at 1. cbn [fst]. unfold u, prints. cbn [wcells]. destruct (wy w <=? wscroll w) eqn:Y.
        + destruct (wscroll w <? wy w) eqn:Y'; [lia|]. cbn [rev app]. exact I3.
        + destruct (wscroll w <? wy w) eqn:Y'; [|lia]. cbn [rev app]. constructor; [|exact I3]. unfold writes. cbn [fst snd cellx celly celem ctexts]. parts; auto; congruence.
      - apply spaced_snoc; [exact I4|exact F|exact I1].
      - apply Forall_app. split; [|constructor; [cbn [fst]; lia|constructor]]. eapply Forall_impl; [|exact I5]. cbn. intros; lia. }
    destruct (wy w <=? wscroll w) eqn:Y.
    - cbn [ok]. apply G; try reflexivity. unfold ends_at. cbn [fst snd wy set_wy]. rewrite Y. reflexivity.
    - cbn [lift SplitView.bind ok]. apply G; try (unfold displayDiffOp; destruct (shown_op _ _); reflexivity). unfold ends_at. cbn [fst snd wy set_wy]. rewrite Y, KE. reflexivity.
  Qed.

  (** What is left to draw. *)
  Definition close_strip (st : list (Z * node)) (c : node) : strip := mkStrip (nid c) (row_of (ENode c)) (2 + 4 * Z.of_nat (length st)) [(kind_of (node_type c), closing c)] 1 0.
  Fixpoint todo (st : list (Z * node)) : list strip :=
    match st with
    | [] => []
    | (i, c) :: t => flat_map (half_elem (slen sc) coll (2 + 4 * Z.of_nat (length st))) (skipn (Z.to_nat (i + 1)) (children c)) ++ close_strip t c :: todo t
    end.
  Definition full (w : win) (done : list (Z * strip)) : Prop := exists pre p, done = pre ++ [p] /\ short w pre /\ sh sc <= ends_at W (wscroll w) p - wscroll w.
  (** [new] was drawn from line [y] on. *)
  Definition drew (done : list (Z * strip)) (y : Z) (P : list (Z * strip) -> Prop) (x : bool * win) : Prop :=
    exists new rest, inv (snd x) (done ++ new) /\ page = map snd (done ++ new) ++ rest /\
      (fst x = true -> rest = todo (wstack (snd x)) /\ short (snd x) (done ++ new)) /\ (fst x = false -> full (snd x) (done ++ new)) /\
      from_to W (wscroll (snd x)) y new (wy (snd x)) /\ P new.
  Definition single (i q : Z) (l : list (Z * strip)) : Prop := exists p, l = [p] /\ holder (snd p) = i /\ row (snd p) = q.
  Definition strips_of (i : Z) (l : list (Z * strip)) : Prop := exists p t, l = p :: t /\ holder (snd p) = i /\ (t = [] \/ exists q, t = [q] /\ row (snd q) = i).
  Lemma drew_mono done y (P Q : list (Z * strip) -> Prop) x : (forall l, P l -> Q l) -> drew done y P x -> drew done y Q x.
  Proof. intros PQ (new & rest & D1 & D2 & D3 & D4 & D5 & D6). exists new, rest. auto 8. Qed.
  Lemma single_strips i q l : single i q l -> strips_of i l.
  Proof. intros (p & -> & H & _). exists p, []. auto. Qed.

  Lemma bottom_full w done s w' : wrote w done s w' -> short w done -> bottom sc w' = true -> full w' (done ++ [(wy w, s)]).
  Proof. intros (I & _ & _ & S & Y) O B. rewrite (bottom_at sc SH) in B. exists done, (wy w, s). split; [reflexivity|]. unfold short. rewrite S in *. split; [exact O|lia]. Qed.
  Lemma bottom_short w done s w' : wrote w done s w' -> short w done -> bottom sc w' = false -> short w' (done ++ [(wy w, s)]).
  Proof. intros (I & _ & _ & S & Y) O B. rewrite (bottom_at sc SH) in B. unfold short. rewrite S in *. apply Forall_app. split; [exact O|]. constructor; [lia|constructor]. Qed.
  Lemma wrote_drew w done s w' rest : wrote w done s w' -> short w done -> page = map snd done ++ s :: rest -> rest = todo (wstack w) -> drew done (wy w) (single (holder s) (row s)) (negb (bottom sc w'), w').
  Proof.
    intros R O E T. exists [(wy w, s)], rest. cbn [fst snd]. assert (R' := R). destruct R' as (I & S & _ & SC & Y). split; [exact I|]. split; [rewrite map_app, <- app_assoc; exact E|].
    split; [intros B; rewrite S; split; [exact T|]; apply (bottom_short w done s w' R O); destruct (bottom sc w'); [discriminate B|reflexivity]|]. split; [intros B; apply (bottom_full w done s w' R O); destruct (bottom sc w'); [reflexivity|discriminate B]|].
    split; [cbn [from_to fst]; rewrite SC; auto|]. exists (wy w, s). auto.
  Qed.
  Lemma inner_W : inner sc = W.
  Proof. unfold inner, usub. rewrite Z.mod_small by lia. reflexivity. Qed.

  Lemma open_drew n w done : inv w done -> short w done -> In (ENode n) (elems r) -> is_container n = true -> wx w = 2 + 4 * Z.of_nat (length (wstack w)) -> 7 + wx w < 2 ^ 32 ->
    page = map snd done ++ half_page (slen sc) coll (row_of (ENode n)) (wx w) n ++ todo (wstack w) ->
    ok any (fun x => drew done (wy w) (single (nid n) (row_of (ENode n))) x /\ fst x = negb (bottom sc (snd x)) /\ wscroll (snd x) = wscroll w) (open_container sc coll dm n w).
  Proof.
    intros I O IN C X B E. rewrite half_children in E. unfold open_container. rewrite inner_W.
    assert (MT := mark_type n C).
    replace (match n with NPrim _ p => [mkStrip (nid n) (row_of (ENode n)) (wx w) [scalar_text p] (slen sc (ENode n)) 0] | _ => if hidden coll n then [mkStrip (nid n) (row_of (ENode n)) (wx w) [(Mark, folded n)] 7 0]
           else mkStrip (nid n) (row_of (ENode n)) (wx w) [(Mark, opening n)] 1 0 :: flat_map (half_elem (slen sc) coll (wx w + 4)) (children n) ++ [mkStrip (nid n) (row_of (ENode n)) (wx w) [(Mark, closing n)] 1 0] end)
      with (if hidden coll n then [mkStrip (nid n) (row_of (ENode n)) (wx w) [(Mark, folded n)] 7 0]
           else mkStrip (nid n) (row_of (ENode n)) (wx w) [(Mark, opening n)] 1 0 :: flat_map (half_elem (slen sc) coll (wx w + 4)) (children n) ++ [mkStrip (nid n) (row_of (ENode n)) (wx w) [(Mark, closing n)] 1 0]) in E
      by (destruct n; [discriminate C|reflexivity|reflexivity]).
    change (hidden coll n) with (mem (nid n) coll) in E. destruct (mem (nid n) coll).
    - eapply ok_bind; [apply (put_inv (ENode n) _ _ _ _ _ _ _ done (mkStrip (nid n) (row_of (ENode n)) (wx w) [(Mark, folded n)] 7 0) I IN eq_refl); cbn [margin holder row column extent texts map fst snd]; try reflexivity; try lia; rewrite ?MT; reflexivity|].
      intros w' R. split; [|split; [reflexivity|apply R]]. apply (wrote_drew _ _ _ _ _ R O E eq_refl).
    - eapply ok_bind; [apply (put_inv (ENode n) _ _ _ _ _ _ _ done (mkStrip (nid n) (row_of (ENode n)) (wx w) [(Mark, opening n)] 1 0) I IN eq_refl); cbn [margin holder row column extent texts map fst snd]; try reflexivity; try lia; rewrite ?MT; reflexivity|].
      intros w' R. destruct (bottom sc w') eqn:BO.
      + split; [|cbn; rewrite BO; split; [reflexivity|apply R]]. exists [(wy w, mkStrip (nid n) (row_of (ENode n)) (wx w) [(Mark, opening n)] 1 0)]. eexists. cbn [fst snd]. split; [apply R|]. split; [rewrite map_app, <- app_assoc; exact E|]. split; [discriminate|]. split; [intros _; exact (bottom_full _ _ _ _ R O BO)|].
        destruct R as (_ & _ & _ & R3 & R4). split; [cbn [from_to fst]; rewrite R3; auto|]. eexists. split; [reflexivity|]. split; reflexivity.
      + split; [|split; [change (true = negb (bottom sc w')); rewrite BO; reflexivity|apply R]]. assert (O' := bottom_short _ _ _ _ R O BO). destruct R as (I' & R1 & R2 & R3 & R4). exists [(wy w, mkStrip (nid n) (row_of (ENode n)) (wx w) [(Mark, opening n)] 1 0)], (todo ((-1, n) :: wstack w')).
        cbn [fst snd wstack wscroll wy set_wx set_wstack]. split; [exact I'|]. split; [|split; [intros _; split; [reflexivity|exact O']|split; [discriminate|split; [cbn [from_to fst]; rewrite R3; auto|eexists; split; [reflexivity|split; reflexivity]]]]]. rewrite map_app, <- app_assoc, E. cbn [map snd app]. do 2 f_equal. rewrite <- app_assoc. cbn [todo]. change (Z.to_nat (-1 + 1)) with 0%nat. cbn [skipn].
        rewrite R1. f_equal; [f_equal; f_equal; rewrite X; cbn [length]; lia|]. cbn [app]. f_equal. unfold close_strip. rewrite X, MT. reflexivity.
  Qed.

  Lemma elem_drew e w done : inv w done -> short w done -> In e (elems r) -> parent_is_entry (elems r) e = false -> wx w = 2 + 4 * Z.of_nat (length (wstack w)) -> text_of sc e + 16 + wx w < 2 ^ 32 ->
    page = map snd done ++ half_elem (slen sc) coll (wx w) e ++ todo (wstack w) -> ok any (drew done (wy w) (strips_of (eid e))) (draw_elem h sc coll dm e w).
  Proof.
    intros I O IN PE X TB E. unfold draw_elem. cbv zeta. destruct (inv_check e w done I O) as (I' & O' & C1 & C2 & C3). rewrite <- C1, <- C2, <- C3 in *. set (w1 := check h e w) in *. clearbody w1. clear I O w C1 C2 C3. rename w1 into w. rename I' into I. rename O' into O.
    assert (RS := row_self e IN PE). destruct e as [n|m k v]; cbn [text_of] in TB.
    - cbn [half_elem eid] in *. rewrite <- RS in E. destruct (is_container n) eqn:C.
      + eapply ok_mono; [apply (open_drew n w done I O IN C X); [assert (Q := SL (ENode n)); lia|exact E]|]. intros x [D _]. exact (drew_mono _ _ _ _ x (fun l => single_strips _ _ l) D).
      + rewrite inner_W. rewrite half_children in E. destruct n as [m p|m l|m l]; try discriminate C. assert (SP := scalar_piece m p). assert (Q := SL (ENode (NPrim m p))).
        eapply ok_bind; [apply (put_inv (ENode (NPrim m p)) _ _ _ _ _ _ _ done (mkStrip (nid (NPrim m p)) (row_of (ENode (NPrim m p))) (wx w) [scalar_text p] (slen sc (ENode (NPrim m p))) 0) I IN eq_refl);
          cbn [margin holder row column extent texts map fst snd]; try reflexivity; try lia; symmetry; exact SP|]. intros w' R. apply (drew_mono _ _ _ _ _ (fun l => single_strips _ _ l) (wrote_drew _ _ _ _ _ R O E eq_refl)).
    - assert (L1 := SL (EEntry m k v)). assert (L2 := SL (ENode v)). unfold draw_entry. cbv zeta. cbn [half_elem eid] in *. change (hidden coll v) with (mem (nid v) coll) in E.
      assert (W2 : usub (usub (sw sc) 2) 2 = W - 2) by (unfold usub; rewrite (Z.mod_small (sw sc - 2)) by lia; apply Z.mod_small; lia).
      assert (KA : forall tx len t, 0 <= len <= slen sc (ENode v) + 7 -> (kind_of (node_type v), c_str tx) = t ->
        page = map snd done ++ mkStrip (mid m) (mid m) (wx w) ([(Name, before_nul k); mark ": "] ++ [t]) (slen sc (EEntry m k v) + 2 + len) 0 :: todo (wstack w) ->
        ok any (drew done (wy w) (strips_of (mid m))) (r <~ key_after sc dm (EEntry m k v) tx len w ; let '(b, w) := r in Done (b && negb (bottom sc w), w))).
      { intros tx len t LE TE PE'. set (s := mkStrip (mid m) (mid m) (wx w) ([(Name, before_nul k); mark ": "] ++ [t]) (slen sc (EEntry m k v) + 2 + len) 0) in *.
        set (tt := (key_texts (EEntry m k v) ++ [(node_type v, c_str tx)])%list).
        assert (PI := put_inv (EEntry m k v) tt false (mid m) false (slen sc (EEntry m k v) + 2 + len) W w done s I IN eq_refl ltac:(lia) ltac:(unfold s; cbn [margin]; lia) ltac:(lia) eq_refl (eq_sym RS) eq_refl eq_refl).
        assert (TX : texts s = map (fun t => (kind_of (fst t), snd t)) tt). { unfold s, tt, key_texts. cbn [texts map app fst snd]. rewrite <- TE, (c_str_nul k). reflexivity. }
        specialize (PI TX). unfold key_after. rewrite inner_W. fold tt. destruct (wy w <=? wscroll w) eqn:Y.
        - unfold put in PI. cbv zeta in PI. change (wy (prints (EEntry m k v) tt w)) with (wy w) in PI. change (wscroll (prints (EEntry m k v) tt w)) with (wscroll w) in PI. rewrite Y in PI. cbn [ok] in PI.
          assert (PI' : wrote w done s (set_wy (add_log w (mid m, false, wy w)) (wy w + 1))) by (unfold prints in PI; rewrite Y in PI; exact PI).
          cbn [SplitView.bind ok andb]. apply (drew_mono _ _ _ _ _ (fun l => single_strips _ _ l) (wrote_drew _ _ _ _ _ PI' O PE' eq_refl)).
        - change (value_of (EEntry m k v)) with v. fold tt. change (eid (EEntry m k v)) with (mid m). destruct (put dm false (mid m) false (slen sc (EEntry m k v) + 2 + len) W (prints (EEntry m k v) tt w)) as [w'|]; [|exact Logic.I].
          cbn [SplitView.bind ok] in *. rewrite andb_diag. apply (drew_mono _ _ _ _ _ (fun l => single_strips _ _ l) (wrote_drew _ _ _ _ _ PI O PE' eq_refl)). }
      destruct (is_container v) eqn:C; cbn [andb negb] in *.
      + destruct (mem (nid v) coll) eqn:F; [apply (KA _ _ (Mark, folded v)); [lia|rewrite (mark_type v C); destruct v; [discriminate C|reflexivity|reflexivity]|exact E]|].
        assert (E' : page = map snd done ++ match children v with
                    | [] => [mkStrip (mid m) (mid m) (wx w) ([(Name, before_nul k); mark ": "] ++ [(Mark, hollow v)]) (slen sc (EEntry m k v) + 2 + 3) 0]
                    | _ => mkStrip (mid m) (mid m) (wx w) ([(Name, before_nul k); mark ": "] ++ []) (slen sc (EEntry m k v)) 2 :: half_page (slen sc) coll (mid m) (wx w) v end ++ todo (wstack w))
          by (destruct v; [discriminate C|exact E|exact E]). clear E.
        destruct (children v) as [|x xs] eqn:CH; [apply (KA _ _ (Mark, hollow v)); [lia|rewrite (mark_type v C); destruct v; [discriminate C|reflexivity|reflexivity]|exact E']|]. clear KA.
        set (s := mkStrip (mid m) (mid m) (wx w) ([(Name, before_nul k); mark ": "] ++ []) (slen sc (EEntry m k v)) 2) in *.
        eapply ok_bind with (P := fun x => wrote w done s (snd x) /\ bottom sc (snd x) = negb (fst x)).
        * assert (PI := put_inv (EEntry m k v) (key_texts (EEntry m k v)) false (mid m) false (slen sc (EEntry m k v)) (W - 2) w done s I IN eq_refl ltac:(lia) ltac:(unfold s; cbn [margin]; lia) ltac:(lia) eq_refl (eq_sym RS) eq_refl eq_refl).
          assert (TX : texts s = map (fun t => (kind_of (fst t), snd t)) (key_texts (EEntry m k v))). { unfold s, key_texts. cbn [texts map app fst snd]. rewrite c_str_nul. reflexivity. }
          specialize (PI TX). unfold key_alone. rewrite W2. destruct (wy w <=? wscroll w) eqn:Y.
          -- unfold put in PI. cbv zeta in PI. change (wy (prints (EEntry m k v) (key_texts (EEntry m k v)) w)) with (wy w) in PI. change (wscroll (prints (EEntry m k v) (key_texts (EEntry m k v)) w)) with (wscroll w) in PI. rewrite Y in PI. cbn [ok] in PI.
             split; [unfold prints in PI; rewrite Y in PI; exact PI|]. cbn [fst snd negb]. rewrite (bottom_at sc SH). cbn. lia.
          -- change (eid (EEntry m k v)) with (mid m). eapply ok_bind; [exact PI|]. intros w' R. split; [exact R|]. cbn [fst snd]. symmetry. apply negb_involutive.
        * intros [b w'] [R BO]. cbn [fst snd] in *. destruct b.
          -- assert (R' := R). destruct R' as (I' & R1 & R2 & R3 & R4). eapply ok_bind; [apply (open_drew v w' (done ++ [(wy w, s)]) I' (bottom_short _ _ _ _ R O BO) (value_in r _ IN) C)|].
             ++ rewrite R1, R2. exact X.
             ++ rewrite R2. lia.
             ++ rewrite (row_value m k v IN), R1, R2, map_app, <- app_assoc. exact E'.
             ++ intros [b w''] (D & BB & SS). cbn [fst snd] in *. subst b. destruct D as (new & rest & D1 & D2 & D3 & D4 & D5 & (q & -> & D6 & D7)). exists [(wy w, s); q], rest. cbn [fst snd] in *.
                assert (AQ : done ++ [(wy w, s); q] = (done ++ [(wy w, s)]) ++ [q]) by (rewrite <- app_assoc; reflexivity). rewrite AQ.
                split; [exact D1|]. split; [exact D2|]. split; [exact D3|]. split; [exact D4|]. cbn [from_to fst] in *. destruct D5 as [D5 D8]. rewrite R4, <- R3, <- SS in D5. split; [auto|].
                exists (wy w, s), [q]. split; [reflexivity|]. split; [reflexivity|]. right. exists q. split; [reflexivity|]. rewrite D7. apply (row_value m k v IN).
          -- exists [(wy w, s)], (half_page (slen sc) coll (mid m) (wx w) v ++ todo (wstack w)). cbn [fst snd]. split; [apply R|]. split; [rewrite map_app, <- app_assoc; exact E'|]. split; [discriminate|]. split; [intros _; exact (bottom_full _ _ _ _ R O BO)|].
             destruct R as (_ & _ & _ & R3 & R4). split; [cbn [from_to fst]; rewrite R3; auto|]. exists (wy w, s), []. auto.
      + destruct v as [m' p|m' l|m' l]; try discriminate C. assert (SP := scalar_piece m' p). apply (KA _ _ (scalar_text p)); [lia|exact (f_equal (hd (Mark, [])) SP)|exact E].
  Qed.
End Show.

(** * Both windows *)
(** What two windows have drawn, next line, whether they have more to draw. *)
Section Laid.
  Variable m : mat.
  Notation matched := (matched m).
  Inductive laid : Z -> bool -> bool -> list slot -> list slot -> Prop :=
  | laid_start : laid 1 true true [] []
  | laid_left y b c l r s : laid y true b l r -> matched s = false -> sfrom s = y -> y < sto s -> laid (sto s) c b (l ++ [s]) r
  | laid_right y b c l r s : laid y b true l r -> matched s = false -> sfrom s = y -> y < sto s -> laid (sto s) b c l (r ++ [s])
  | laid_both y b c l r s t : laid y true true l r -> matched s = true -> matched t = true -> sfrom s = y -> sfrom t = y -> y < sto s -> y < sto t ->
      laid (Z.max (sto s) (sto t)) b c (l ++ [s]) (r ++ [t])
  | laid_more_left y c l r s : laid y true false l r -> matched s = true -> sfrom s = y -> y < sto s -> laid (sto s) c false (l ++ [s]) r
  | laid_more_right y c l r s : laid y false true l r -> matched s = true -> sfrom s = y -> y < sto s -> laid (sto s) false c l (r ++ [s]).

  Lemma laid_inside y b c l r : laid y b c l r -> 1 <= y /\ forall s, In s (l ++ r) -> sfrom s < sto s <= y.
  Proof.
    induction 1 as [|y b c l r s L [IY IH] M F T|y b c l r s L [IY IH] M F T|y b c l r s t L [IY IH] M M' F F' T T'|y c l r s L [IY IH] M F T|y c l r s L [IY IH] M F T];
      (split; [lia|]); [intros s []|..]; intros x I.
    - rewrite <- app_assoc in I. apply in_app_or in I. destruct I as [I|[<-|I]]; [|lia|]; [assert (Q := IH x (in_or_app _ _ _ (or_introl I)))|assert (Q := IH x (in_or_app _ _ _ (or_intror I)))]; lia.
    - rewrite app_assoc in I. apply in_app_or in I. destruct I as [I|[<-|[]]]; [assert (Q := IH x I)|]; lia.
    - rewrite <- app_assoc in I. apply in_app_or in I. destruct I as [I|[<-|I]]; [assert (Q := IH x (in_or_app _ _ _ (or_introl I))); lia|lia|]. cbn [app] in I. apply in_app_or in I. destruct I as [I|[<-|[]]]; [assert (Q := IH x (in_or_app _ _ _ (or_intror I)))|]; lia.
    - rewrite <- app_assoc in I. apply in_app_or in I. destruct I as [I|[<-|I]]; [|lia|]; [assert (Q := IH x (in_or_app _ _ _ (or_introl I)))|assert (Q := IH x (in_or_app _ _ _ (or_intror I)))]; lia.
    - rewrite app_assoc in I. apply in_app_or in I. destruct I as [I|[<-|[]]]; [assert (Q := IH x I)|]; lia.
  Qed.
  Lemma laid_apart y b c l r : laid y b c l r -> apart m l r.
  Proof.
    induction 1 as [|y b c l r s L IH M F T|y b c l r s L IH M F T|y b c l r s t L IH M M' F F' T T'|y c l r s L IH M F T|y c l r s L IH M F T]; [intros p q []|..];
      destruct (laid_inside _ _ _ _ _ L) as [_ IN]; intros p q IP IQ.
    - apply in_app_or in IP. destruct IP as [IP|[<-|[]]]; [apply IH; assumption|]. right. left. assert (Q := IN q (in_or_app _ _ _ (or_intror IQ))). lia.
    - apply in_app_or in IQ. destruct IQ as [IQ|[<-|[]]]; [apply IH; assumption|]. left. assert (Q := IN p (in_or_app _ _ _ (or_introl IP))). lia.
    - apply in_app_or in IP. apply in_app_or in IQ. destruct IP as [IP|[<-|[]]], IQ as [IQ|[<-|[]]]; [apply IH; assumption| | |].
      + left. assert (Q := IN p (in_or_app _ _ _ (or_introl IP))). lia.
      + right. left. assert (Q := IN q (in_or_app _ _ _ (or_intror IQ))). lia.
      + right. right. split; [exact M|]. split; [exact M'|congruence].
    - apply in_app_or in IP. destruct IP as [IP|[<-|[]]]; [apply IH; assumption|]. right. left. assert (Q := IN q (in_or_app _ _ _ (or_intror IQ))). lia.
    - apply in_app_or in IQ. destruct IQ as [IQ|[<-|[]]]; [apply IH; assumption|]. left. assert (Q := IN p (in_or_app _ _ _ (or_introl IP))). lia.
  Qed.
  Lemma laid_full y b c l r : laid y b c l r -> forall z, 1 <= z < y -> exists t, In t (l ++ r) /\ sfrom t <= z < sto t.
  Proof.
    assert (G : forall (s : slot) l l' z, (forall t, In t l -> In t l') -> In s l' -> (sfrom s <= z < sto s \/ exists t, In t l /\ sfrom t <= z < sto t) -> exists t, In t l' /\ sfrom t <= z < sto t).
    { intros s l0 l' z S I [Q|(t & I' & Q)]; [exists s|exists t]; auto. }
    induction 1 as [|y b c l r s L IH M F T|y b c l r s L IH M F T|y b c l r s t L IH M M' F F' T T'|y c l r s L IH M F T|y c l r s L IH M F T]; intros z Z; [lia|..].
    1, 4: apply (G s (l ++ r)); [intros t I; rewrite <- app_assoc; apply in_app_or in I; apply in_or_app; cbn; tauto|rewrite <- app_assoc; apply in_or_app; cbn; tauto|].
    1, 2: destruct (Z.ltb_spec z y); [right; apply IH; lia|left; lia].
    1, 3: apply (G s (l ++ r)); [intros t I; rewrite app_assoc; apply in_or_app; cbn; tauto|rewrite app_assoc; apply in_or_app; cbn; tauto|].
    1, 2: destruct (Z.ltb_spec z y); [right; apply IH; lia|left; lia].
    assert (SUB : forall x, In x (l ++ r) -> In x ((l ++ [s]) ++ r ++ [t])) by (intros x I; rewrite <- app_assoc; apply in_app_or in I; apply in_or_app; destruct I as [I|I]; [left; exact I|right; cbn [app]; right; apply in_or_app; left; exact I]).
    destruct (Z.ltb_spec z y); [destruct (IH z ltac:(lia)) as (x & I & Q); exists x; auto|].
    destruct (Z.ltb_spec z (sto s)); [exists s; split; [rewrite <- app_assoc; apply in_or_app; right; left; reflexivity|lia]|].
    exists t. split; [apply in_or_app; right; apply in_or_app; right; left; reflexivity|lia].
  Qed.
  Lemma nth_snoc {A} (l : list A) x k p : nth_error (l ++ [x]) k = Some p -> nth_error l k = Some p \/ k = length l /\ p = x.
  Proof.
    intros E. destruct (Nat.lt_ge_cases k (length l)) as [L|L]; [rewrite nth_error_app1 in E by exact L; auto|]. rewrite nth_error_app2 in E by exact L.
    destruct (k - length l)%nat as [|[|]] eqn:K; [injection E as <-; right; split; [lia|reflexivity]|discriminate E|discriminate E].
  Qed.
  Lemma nth_len {A} (l : list A) k p : nth_error l k = Some p -> (k < length l)%nat.
  Proof. intros E. apply nth_error_Some. congruence. Qed.
  Lemma laid_abreast y b c l r : laid y b c l r -> abreast m l r /\
    (b = c -> b = true -> length (filter matched l) = length (filter matched r)) /\ (c = false -> b = true -> (length (filter matched r) <= length (filter matched l))%nat) /\
    (b = false -> c = true -> (length (filter matched l) <= length (filter matched r))%nat).
  Proof.
    induction 1 as [|y b c l r s L (IH & N1 & N2 & N3) M F T|y b c l r s L (IH & N1 & N2 & N3) M F T|y b c l r s t L (IH & N1 & N2 & N3) M M' F F' T T'|y c l r s L (IH & N1 & N2 & N3) M F T|y c l r s L (IH & N1 & N2 & N3) M F T].
    - split; [intros [|k] p q E; discriminate E|]. repeat split; intros; cbn; lia.
    - unfold abreast. rewrite filter_app. cbn [filter]. rewrite M, app_nil_r. split; [exact IH|]. destruct b, c; repeat split; intros; try discriminate; try (rewrite N1 by reflexivity); try (apply N2; reflexivity); lia.
    - unfold abreast. rewrite filter_app. cbn [filter]. rewrite M, app_nil_r. split; [exact IH|]. destruct b, c; repeat split; intros; try discriminate; try (rewrite N1 by reflexivity); try (apply N3; reflexivity); lia.
    - unfold abreast. rewrite !filter_app. cbn [filter]. rewrite M, M'. specialize (N1 eq_refl eq_refl). split; [|rewrite !app_length; cbn [length]; repeat split; intros; lia].
      intros k p q E1 E2. apply nth_snoc in E1. apply nth_snoc in E2. destruct E1 as [E1|[K1 ->]], E2 as [E2|[K2 ->]]; [exact (IH k p q E1 E2)| | |congruence].
      + exfalso. apply nth_len in E1. lia.
      + exfalso. apply nth_len in E2. lia.
    - unfold abreast. rewrite filter_app. cbn [filter]. rewrite M. specialize (N2 eq_refl eq_refl). split; [|rewrite app_length; cbn [length]; repeat split; intros; destruct c; try discriminate; lia].
      intros k p q E1 E2. apply nth_snoc in E1. destruct E1 as [E1|[K1 ->]]; [exact (IH k p q E1 E2)|]. exfalso. apply nth_len in E2. lia.
    - unfold abreast. rewrite filter_app. cbn [filter]. rewrite M. specialize (N3 eq_refl eq_refl). split; [|rewrite app_length; cbn [length]; repeat split; intros; destruct c; try discriminate; lia].
      intros k p q E1 E2. apply nth_snoc in E2. destruct E2 as [E2|[K2 ->]]; [exact (IH k p q E1 E2)|]. exfalso. apply nth_len in E1. lia.
  Qed.
End Laid.

Section Pair.
  Variable (h : list elem) (sc : screen) (coll : list Z) (dm : mat) (busyP doneP : bool -> win -> list slot -> Prop) (lines_ahead : bool -> win -> Z).
  Definition sideP (x : bool) (p : part) (ss : list slot) : Prop := (if snd p then busyP else doneP) x (fst p) ss.
  Definition pair_item (x : bool) (w : win) (ss : list slot) (r : option bool * win) : Prop :=
    match fst r with
    | None => True
    | Some fin => exists i c, next_added dm w = Done (isAdded dm i) /\ sideP x (snd r, negb fin) (ss ++ [mkSlot i c (wy w) (wy (snd r))]) /\
        wy w < wy (snd r) <= wy w + lines_ahead x w /\ (fin = false -> wy (snd r) + lines_ahead x (snd r) <= wy w + lines_ahead x w)
    end.
  Hypothesis ONE : forall x w ss, busyP x w ss -> ok any (pair_item x w ss) (one_item h sc coll dm w).
  Hypothesis LEFT : forall x w ss, busyP x w ss -> 0 <= lines_ahead x w < 2 ^ 32.
  Hypothesis LINE_B : forall x w ss y, busyP x w ss -> wy w <= y -> busyP x (set_wy w y) ss.
  Hypothesis LINE_D : forall x w ss y, doneP x w ss -> wy w <= y -> doneP x (set_wy w y) ss.
  Hypothesis MARK_B : forall x w ss r, busyP x w ss -> busyP x (add_mark w r) ss.
  Hypothesis MARK_D : forall x w ss r, doneP x w ss -> doneP x (add_mark w r) ss.

  Lemma side_y x w b ss y : sideP x (w, b) ss -> wy w <= y -> sideP x (set_wy w y, b) ss.
  Proof. unfold sideP. cbn. destruct b; auto. Qed.
  Lemma gap_y k : forall w, wy (gap_lines k w) = wy w + Z.of_nat k.
  Proof. induction k as [|k IH]; intros w; [cbn; lia|]. cbn [gap_lines]. rewrite IH. cbn [wy set_wy]. lia. Qed.
  Lemma side_gap x b ss k : forall w, sideP x (w, b) ss -> sideP x (gap_lines k w, b) ss.
  Proof.
    induction k as [|k IH]; intros w H; [exact H|]. cbn [gap_lines]. apply IH. apply side_y; [|cbn; lia]. unfold displayDiffOp, sideP in *. cbn [fst snd] in *. destruct b; auto.
  Qed.
  Lemma added_matched i c y z b : isAdded dm i = b -> matched dm (mkSlot i c y z) = negb b.
  Proof. unfold isAdded, matched. cbn [sid]. destruct (getEquivalence dm i); intros <-; reflexivity. Qed.

  (** A relation that appends what has no counterpart. *)
  Lemma pair_added x f (Q : Z -> bool -> list slot -> Prop) :
    (forall y ss s b, Q y true ss -> matched dm s = false -> sfrom s = y -> y < sto s -> Q (sto s) b (ss ++ [s])) ->
    forall w ss, busyP x w ss -> next_added dm w = Done true -> Q (wy w) true ss ->
    ok any (fun r => match fst r with None => True | Some fin => exists ss', sideP x (snd r, negb fin) ss' /\ Q (wy (snd r)) (negb fin) ss' /\ wy w <= wy (snd r) <= wy w + lines_ahead x w end) (added_items h sc coll dm f w).
  Proof.
    intros STEP. induction f as [|f IH]; intros w ss B NA QW; [exact Logic.I|]. cbn [added_items]. eapply ok_bind; [apply (ONE x w ss B)|]. intros [[fin|] w'] K; [|exact Logic.I].
    unfold pair_item in K. cbn [fst snd] in K. destruct K as (i & c & N & S & Y & LA). assert (IA : isAdded dm i = true) by congruence.
    assert (Q' := STEP _ _ (mkSlot i c (wy w) (wy w')) (negb fin) QW (added_matched i c _ _ true IA) eq_refl ltac:(cbn; lia)). cbn [sto] in Q'.
    destruct fin; [cbn [ok fst snd negb] in *; exists (ss ++ [mkSlot i c (wy w) (wy w')]); split; [exact S|]; split; [exact Q'|lia]|]. specialize (LA eq_refl). cbn [negb] in *.
    destruct (next_added dm w') as [a|] eqn:NA'; [|exact Logic.I]. cbn [SplitView.bind]. assert (LA' := LEFT _ _ _ S). destruct a.
    - eapply ok_mono; [apply (IH w' _ S NA' Q')|]. intros [[fin|] w''] K; [|exact Logic.I]. cbn [fst snd] in *. destruct K as (ss' & K1 & K2 & K3). exists ss'. split; [exact K1|]. split; [exact K2|lia].
    - cbn [ok fst snd negb]. exists (ss ++ [mkSlot i c (wy w) (wy w')]). split; [exact S|]. split; [exact Q'|lia].
  Qed.

  Definition both (p q : part) : Prop := wy (fst p) = wy (fst q) /\ exists l r, sideP true p l /\ sideP false q r /\ laid dm (wy (fst p)) (snd p) (snd q) l r.

  Lemma pair_items f : forall p q, both p q ->
    ok any (fun x => fst x = true -> exists v u l r y, snd x = [v; u] /\ doneP true v l /\ doneP false u r /\ laid dm y false false l r) (redraw_items h sc coll dm f [p; q]).
  Proof.
    induction f as [|f IH]; intros [w b] [v c] (EY & l & r & SW & SV & L); [exact Logic.I|]. cbn [redraw_items existsb map fst snd] in *. rewrite orb_false_r.
    destruct (b || c) eqn:BC; [|apply orb_false_iff in BC; destruct BC; subst b c; cbn; intros _; exists w, v, l, r, (wy w); auto 6].
    assert (NB : forall x w b, (a <~ (if b : bool then next_added dm w else Done false) ; Done a) = x -> (if b then next_added dm w else Done false) = x) by (intros x w0 b0 <-; destruct (if b0 then _ else _); reflexivity).
    clear NB. cbn [display_gap app].
    destruct (if b then next_added dm w else Done false) as [a|] eqn:NW; [|exact Logic.I]. cbn [SplitView.bind]. destruct a.
    { (* the left one has more *)
      destruct b; [|discriminate NW]. unfold sideP in SW. cbn [fst snd] in SW. cbn [map].
      assert (AD := pair_added true (S f) (fun y b' ss => laid dm y b' c ss r) (fun y ss s b' L0 M F T => laid_left dm y c b' ss r s L0 M F T) w l SW NW L).
      destruct (added_items h sc coll dm (S f) w) as [[[fin|] w']|]; [|cbn; discriminate|exact Logic.I]. cbn [SplitView.bind ok fst snd] in *. destruct AD as (l' & S' & L' & Y).
      assert (LW := LEFT _ _ _ SW). apply IH. split; cbn [fst snd].
      - rewrite gap_y, <- EY. unfold usub. rewrite Z.mod_small by lia. lia.
      - exists l', r. split; [exact S'|]. split; [apply side_gap, SV|exact L']. }
    destruct (if c then next_added dm v else Done false) as [a|] eqn:NV; [|exact Logic.I]. cbn [SplitView.bind]. destruct a.
    { destruct c; [|discriminate NV]. unfold sideP in SV. cbn [fst snd] in SV. cbn [map].
      assert (AD := pair_added false (S f) (fun y b' ss => laid dm y b b' l ss) (fun y ss s b' L0 M F T => laid_right dm y b b' l ss s L0 M F T) v r SV NV). rewrite <- EY in AD. specialize (AD L).
      destruct (added_items h sc coll dm (S f) v) as [[[fin|] v']|]; [|cbn; discriminate|exact Logic.I]. cbn [SplitView.bind ok fst snd] in *. destruct AD as (r' & S' & L' & Y).
      assert (LV := LEFT _ _ _ SV). apply IH. split; cbn [fst snd].
      - rewrite gap_y. unfold usub. rewrite Z.mod_small by lia. lia.
      - exists l, r'. split; [apply side_gap, SW|]. split; [exact S'|]. rewrite gap_y. unfold usub. rewrite Z.mod_small by lia. replace (wy w + Z.of_nat (Z.to_nat (wy v' - wy v))) with (wy v') by lia. exact L'. }
    (* one item of each *)
    cbn [SplitView.bind display].
    assert (GO : forall w1 b1 v1 c1 mx l1 r1, sideP true (w1, b1) l1 -> sideP false (v1, c1) r1 -> laid dm (wy w + mx) b1 c1 l1 r1 -> wy w1 <= wy w + mx -> wy v1 <= wy v + mx ->
      both (set_wy w1 (wy w + mx), b1) (set_wy v1 (wy v + mx), c1)).
    { intros w1 b1 v1 c1 mx l1 r1 S1 S2 LL Y1 Y2. split; [cbn; lia|]. exists l1, r1. split; [apply side_y; assumption|]. split; [apply side_y; assumption|exact LL]. }
    destruct b, c; try discriminate BC; unfold sideP in SW, SV; cbn [fst snd] in SW, SV; assert (LW := LEFT true w l); assert (LV := LEFT false v r).
    - specialize (LW SW). specialize (LV SV). assert (OW := ONE true w l SW). assert (OV := ONE false v r SV).
      destruct (one_item h sc coll dm w) as [[[fin|] w']|]; [|cbn; discriminate|exact Logic.I]. cbn [SplitView.bind ok] in *.
      destruct (one_item h sc coll dm v) as [[[fin'|] v']|]; [|cbn; discriminate|exact Logic.I]. cbn [SplitView.bind ok map fst snd] in *.
      destruct OW as (i & k & N & S & Y & _), OV as (i' & k' & N' & S' & Y' & _). cbn [fst snd] in *. unfold usub. rewrite !Z.mod_small by lia.
      apply IH. apply (GO w' (negb fin) v' (negb fin') _ _ _ S S'); [|lia|lia].
      replace (wy w + Z.max (Z.max 0 (wy w' - wy w)) (wy v' - wy v)) with (Z.max (sto (mkSlot i k (wy w) (wy w'))) (sto (mkSlot i' k' (wy v) (wy v')))) by (cbn [sto]; lia).
      apply laid_both with (y := wy w); [exact L|rewrite (added_matched i k _ _ false); [reflexivity|congruence]|rewrite (added_matched i' k' _ _ false); [reflexivity|congruence]| | | |]; cbn [sfrom sto]; auto; lia.
    - specialize (LW SW). assert (OW := ONE true w l SW).
      destruct (one_item h sc coll dm w) as [[[fin|] w']|]; [|cbn; discriminate|exact Logic.I]. cbn [SplitView.bind ok map fst snd] in *.
      destruct OW as (i & k & N & S & Y & _). cbn [fst snd] in *. unfold usub. rewrite !Z.mod_small by lia.
      apply IH. apply (GO w' (negb fin) v false _ _ r S SV); [|lia|lia].
      replace (wy w + Z.max 0 (wy w' - wy w)) with (sto (mkSlot i k (wy w) (wy w'))) by (cbn [sto]; lia).
      apply laid_more_left with (y := wy w); [exact L|rewrite (added_matched i k _ _ false); [reflexivity|congruence]| |]; cbn [sfrom sto]; auto; lia.
    - specialize (LV SV). assert (OV := ONE false v r SV).
      destruct (one_item h sc coll dm v) as [[[fin|] v']|]; [|cbn; discriminate|exact Logic.I]. cbn [SplitView.bind ok map fst snd] in *.
      destruct OV as (i & k & N & S & Y & _). cbn [fst snd] in *. unfold usub. rewrite !Z.mod_small by lia.
      apply IH. apply (GO w false v' (negb fin) _ l _ SW S); [|lia|lia].
      replace (wy w + Z.max 0 (wy v' - wy v)) with (sto (mkSlot i k (wy v) (wy v'))) by (cbn [sto]; lia).
      apply laid_more_right with (y := wy w); [exact L|rewrite (added_matched i k _ _ false); [reflexivity|congruence]| |]; cbn [sfrom sto]; auto; lia.
  Qed.
  Lemma pair_windows w w' vs : redraw_all h sc coll dm [w; w'] = Done (true, vs) -> busyP true (start w) [] -> busyP false (start w') [] ->
    exists v u l r y, vs = [v; u] /\ doneP true v l /\ doneP false u r /\ laid dm y false false l r.
  Proof.
    intros R B B'. assert (Q := pair_items (items_fuel h) (start w, true) (start w', true)). change (redraw_items h sc coll dm (items_fuel h) [(start w, true); (start w', true)]) with (redraw_all h sc coll dm [w; w']) in Q.
    rewrite R in Q. cbn [ok fst snd] in Q. apply Q; [|reflexivity]. split; [reflexivity|]. exists [], []. split; [exact B|]. split; [exact B'|]. constructor.
  Qed.
End Pair.

Section Item.
  Variable (r : node) (h : list elem) (sc : screen) (coll : list Z) (dm : mat) (nn : nat).
  Hypothesis M : in_memory r.
  Hypothesis LK : forall i, In i (ids r) -> lookup h i = lookup (elems r) i.
  Hypothesis SW : 5 <= sw sc < 2 ^ 32.
  Hypothesis SH : 2 <= sh sc < 2 ^ 32.
  Hypothesis NS : (nesting r <= nn)%nat.
  Hypothesis SL : forall e, 0 <= slen sc e.
  Hypothesis BK : lines_of (slen sc) (4 * Z.of_nat nn + 16) (elems r) < 2 ^ 32.
  Hypothesis LH : (length (elems r) <= length h)%nat.
  Notation whole := (half_page (slen sc) coll (nid r) 2 r).
  Notation todo := (todo h sc coll).
  Notation inv := (inv r h sc).
  Notation drew := (drew r h sc coll whole).

  Definition ahead (w : win) : list strip := match wstack w with [] => whole | st => todo st end.

  (** The steps left. *)
  Definition kid_tail (e : elem) : list (Z * bool) := match e with ENode n => within coll n | EEntry _ _ v => if is_empty v then [] else within coll v end.
  Definition kid_steps (e : elem) : list (Z * bool) := (eid e, false) :: kid_tail e.
  Lemma within_children n : within coll n = match n with NPrim _ _ => [] | _ => if hidden coll n then [] else flat_map kid_steps (children n) ++ [(nid n, true)] end.
  Proof. destruct n as [m p|m l|m l]; cbn [within children]; [reflexivity| |]; rewrite flat_map_map; reflexivity. Qed.
  Fixpoint steps_in (st : list (Z * node)) : list (Z * bool) :=
    match st with [] => [] | (i, c) :: t => flat_map kid_steps (skipn (Z.to_nat (i + 1)) (children c)) ++ (nid c, true) :: steps_in t end.
  Definition steps_ahead (w : win) : list (Z * bool) := match wstack w with [] => SplitLay.steps coll r | st => steps_in st end.
  Lemma put_stack ss i c len maxw w : ok any (fun w' => wstack w' = wstack w) (put dm ss i c len maxw w).
  Proof. unfold put. cbv zeta. destruct (_ <=? _); [reflexivity|]. destruct (getNbLines _ _); [|exact Logic.I]. cbn. unfold displayDiffOp. destruct (shown_op _ _); reflexivity. Qed.
  Definition goes_on (l : list (Z * bool)) (w : win) (x : bool * win) : Prop := fst x = true -> steps_in (wstack (snd x)) = l ++ steps_in (wstack w).
  Lemma open_steps n w : is_container n = true -> ok any (goes_on (within coll n) w) (open_container sc coll dm n w).
  Proof.
    intros C. unfold open_container. rewrite within_children. change (hidden coll n) with (mem (nid n) coll).
    destruct (mem (nid n) coll).
    - eapply ok_bind; [apply put_stack|]. intros w' S Q. cbn [snd]. rewrite S. cbn. destruct n; reflexivity.
    - eapply ok_bind; [apply put_stack|]. intros w' S. destruct (bottom sc w'); [intros Q; discriminate Q|]. intros _. cbn [snd wstack set_wx set_wstack steps_in]. rewrite S.
      change (Z.to_nat (-1 + 1)) with 0%nat. cbn [skipn prints wstack]. destruct n; [discriminate C| |]; rewrite <- app_assoc; reflexivity.
  Qed.
  Lemma elem_steps e w : ok any (goes_on (kid_tail e) w) (draw_elem h sc coll dm e w).
  Proof.
    unfold draw_elem. cbv zeta. assert (S : wstack (check h e w) = wstack w).
    { unfold check. destruct (negb _); [destruct (sel_is _ _); [destruct (_ <=? _)|destruct (negb _)]; reflexivity|]. destruct (wdown w); [reflexivity|]. cbv zeta. destruct (lookup _ _); [destruct (negb _)|]; reflexivity. }
    set (w1 := check h e w) in *. clearbody w1. destruct e as [n|m k v].
    - destruct (is_container n) eqn:C; [eapply ok_mono; [apply open_steps, C|]; intros x G; unfold goes_on in *; rewrite S in G; exact G|].
      eapply ok_bind; [apply put_stack|]. intros w' S' _. cbn [snd]. rewrite S'. cbn [prints wstack]. rewrite S. destruct n; [reflexivity|discriminate C|discriminate C].
    - unfold draw_entry. cbv zeta. cbn [kid_tail].
      assert (KA : forall tx len, kid_tail (EEntry m k v) = [] -> ok any (goes_on (kid_tail (EEntry m k v)) w) (r <~ key_after sc dm (EEntry m k v) tx len w1 ; let '(b, w) := r in Done (b && negb (bottom sc w), w))).
      { intros tx len E. rewrite E. eapply ok_bind with (P := fun x => wstack (snd x) = wstack w).
        - unfold key_after. destruct (_ <=? _); [exact S|]. eapply ok_bind; [apply put_stack|]. intros w' S'. cbn [ok snd]. rewrite S'. exact S.
        - intros [b w'] S' _. cbn [snd] in *. rewrite S'. reflexivity. }
      cbn [kid_tail] in KA. assert (WC := within_children v). change (hidden coll v) with (mem (nid v) coll) in WC.
      destruct (is_container v) eqn:C; cbn [andb negb].
      + destruct (mem (nid v) coll) eqn:F; [apply KA; rewrite WC; destruct v as [|? [|]|? [|]]; reflexivity|].
        destruct (children v) as [|x xs] eqn:CH; [apply KA; destruct v as [|? [|]|? [|]]; try discriminate; reflexivity|].
        assert (NE : is_empty v = false) by (destruct v as [|? [|]|? [|]]; try discriminate; reflexivity). rewrite NE. clear KA WC.
        eapply ok_bind with (P := fun x => wstack (snd x) = wstack w).
        * unfold key_alone. destruct (_ <=? _); [exact S|]. eapply ok_bind; [apply put_stack|]. intros w' S'. cbn [ok snd]. rewrite S'. exact S.
        * intros [b w'] S'. cbn [snd] in S'. destruct b; [|intros Q; discriminate Q]. eapply ok_bind; [apply ok_and; [apply (open_steps v w' C)|apply open_result]|].
          intros [b w''] [G B]. unfold goes_on in *. cbn [ok fst snd] in *. rewrite S' in G. intros Q. apply G. congruence.
      + apply KA. destruct v; [reflexivity|discriminate C|discriminate C].
  Qed.

  Lemma next_drew w done : fine r coll w -> inv w done -> short sc w done -> whole = map snd done ++ ahead w ->
    exists i c more, next_added dm w = Done (isAdded dm i) /\ steps_ahead w = (i, c) :: more /\
      ok any (fun x => drew done (wy w) (strips_of i) x /\ (fst x = true -> steps_in (wstack (snd x)) = more)) (draw_next h sc coll dm w).
  Proof.
    intros (F1 & F2 & F3 & F4 & F5) I O E. unfold draw_next, next_added, ahead, steps_ahead in *. unfold INDENT_LEVEL in F3. destruct (wstack w) as [|[i c] t] eqn:ST.
    - rewrite F1. assert (IR : In (ENode r) (elems r)) by (rewrite elems_children; left; reflexivity).
      exists (nid r), false, (within coll r). split; [reflexivity|]. split; [reflexivity|]. apply ok_and.
      2: { eapply ok_mono; [apply elem_steps|]. intros x G Q. rewrite (G Q), ST. apply app_nil_r. }
      apply (elem_drew r h sc coll dm M LK SW SH SL whole (ENode r) w done I O IR (root_row r M)); [rewrite ST; exact F3|apply (text_bound r h sc nn NS SL BK LH); [exact IR|rewrite ST; cbn; lia|rewrite ST; exact F3]|].
      rewrite ST, F3. cbn [length half_elem SplitShow.todo]. rewrite app_nil_r. exact E.
    - destruct F2 as (C1 & C2 & (C3 & k & pre & q & post & PQ & VQ) & C4). assert (LT := chain_length r coll nn NS ((i, c) :: t)). cbn [chain length] in LT.
      assert (LT' : (S (length t) <= nesting r)%nat) by (apply LT; split; [exact C1|]; split; [exact C2|]; split; [|exact C4]; split; [exact C3|]; eauto 6).
      cbn [length] in F3. assert (IC : In (ENode c) (elems r)).
      { assert (IQ := place_in r _ _ _ _ _ PQ). rewrite <- VQ. destruct q as [n|m' k' v]; [exact IQ|exact (value_in r _ IQ)]. }
      cbn [SplitShow.todo steps_in] in *. destruct (i + 1 =? _) eqn:EQ.
      + assert (HB : 4 * Z.of_nat nn + 16 < 2 ^ 32).
        { assert (Q := lines_nonneg (slen sc) (4 * Z.of_nat nn + 16) (flat_map eelems (children r)) SL ltac:(lia)). assert (Q' := SL (ENode r)). revert BK. rewrite elems_children. cbn [lines_of fold_right]. fold (lines_of (slen sc) (4 * Z.of_nat nn + 16) (flat_map eelems (children r))). lia. }
        rewrite skipn_all2 in E |- * by lia. cbn [flat_map app] in *. unfold close_container. set (u := set_wx (set_wstack w t) (wx w - INDENT_LEVEL)).
        assert (LE : (Z.of_nat (length (children c)) <=? i + 1) = true) by lia. rewrite LE.
        exists (nid c), true, (steps_in t). split; [reflexivity|]. split; [reflexivity|].
        assert (IU : inv u done) by exact I. assert (XU : wx u = 2 + 4 * Z.of_nat (length t)) by (unfold u, INDENT_LEVEL; cbn [wx set_wx]; lia).
        eapply ok_bind; [apply (put_inv r h sc dm (ENode c) _ true (nid c) true 1 (inner sc) u done (close_strip h t c) IU IC eq_refl); cbn [close_strip margin holder row column extent texts map fst snd]; rewrite ?(inner_W sc SW); try reflexivity; try lia|].
        intros w' R. cbn [ok]. split; [|intros _; cbn [snd]; destruct R as (_ & R1 & _); rewrite R1; reflexivity].
        exact (drew_mono r h sc coll whole _ _ _ _ _ (fun l => single_strips _ _ l) (wrote_drew r h sc coll SH whole u done _ w' (todo t) R O E eq_refl)).
      + assert (LE : (Z.of_nat (length (children c)) <=? i + 1) = false) by lia. rewrite LE.
        destruct (nth_error (children c) (Z.to_nat (i + 1))) as [e|] eqn:NE; [|apply nth_error_None in NE; lia]. assert (IE := nth_error_In _ _ NE).
        assert (IN : In e (elems r)) by (apply (kid_in r c e IC IE)).
        exists (eid e), false, (kid_tail e ++ steps_in ((i + 1, c) :: t)). split; [reflexivity|].
        split; [rewrite (skipn_nth _ _ _ NE); cbn [flat_map steps_in]; rewrite <- app_assoc; replace (Z.to_nat (i + 1 + 1)) with (S (Z.to_nat (i + 1))) by lia; reflexivity|].
        set (u := set_wstack w ((i + 1, c) :: t)). apply ok_and; [|eapply ok_mono; [apply elem_steps|]; intros x G Q; exact (G Q)].
        apply (elem_drew r h sc coll dm M LK SW SH SL whole e u done I O IN (kid_row r M c e IC IE)).
        * unfold u. cbn [wx wstack set_wstack length]. lia.
        * apply (text_bound r h sc nn NS SL BK LH); [exact IN|unfold u; cbn [wstack set_wstack length]; lia|unfold u, INDENT_LEVEL; cbn [wx wstack set_wstack length]; lia].
        * rewrite E. f_equal. rewrite (skipn_nth _ _ _ NE). cbn [flat_map]. unfold u. cbn [wx wstack set_wstack SplitShow.todo]. rewrite <- app_assoc. f_equal; [f_equal; cbn [length]; lia|]. f_equal.
          replace (Z.to_nat (i + 1 + 1)) with (S (Z.to_nat (i + 1))) by lia. reflexivity.
  Qed.

  Definition named (s : slot) : Z * bool := (sid s, sclose s).
  Definition showing (w : win) (ss : list slot) : Prop :=
    fine r coll w /\ placed r coll w /\ lines_left r sc nn w < 2 ^ 32 /\
    exists parts, inv w (concat parts) /\ short sc w (concat parts) /\ whole = map snd (concat parts) ++ ahead w /\
      Forall2 (holds (sw sc - 2) (wscroll w)) ss parts /\ SplitLay.steps coll r = map named ss ++ steps_ahead w.
  Definition shows (w : win) (ss : list slot) : Prop :=
    placed r coll w /\ exists parts rest more, inv w (concat parts) /\ whole = map snd (concat parts) ++ rest /\ (rest = [] /\ short sc w (concat parts) \/ full sc w (concat parts)) /\
      Forall2 (holds (sw sc - 2) (wscroll w)) ss parts /\ SplitLay.steps coll r = map named ss ++ more.

  Lemma holds_scroll w v ss parts : inv w (concat parts) -> scroll_kept w v -> Forall2 (holds (sw sc - 2) (wscroll w)) ss parts -> Forall2 (holds (sw sc - 2) (wscroll v)) ss parts.
  Proof.
    intros I [->|(_ & _ & Y & E)] H; [exact H|]. destruct I as (I1 & _ & _ & _ & I5). assert (Z0 : (wy w =? 0) = false) by lia. rewrite Z0 in E.
    assert (T : Forall (fun q => fst q <= wscroll w /\ fst q <= wscroll v) (concat parts)) by (eapply Forall_impl; [|exact I5]; cbn; intros q Q; lia).
    clear - H T. induction H as [|s l ss parts (H1 & H2) _ IH]; constructor; cbn [concat] in T; apply Forall_app in T; [|apply IH, T]. split; [|exact H2]. exact (from_to_top _ _ _ _ _ _ (proj1 T) H1).
  Qed.

  Lemma lines_left_pos w : fine r coll w -> 0 <= lines_left r sc nn w.
  Proof.
    intros F. clear M LK SW SH NS BK LH. unfold lines_left. destruct (wstack w); [apply lines_nonneg; [exact SL|lia]|]. eapply lines_in_nonneg; eassumption.
  Qed.
  Lemma item_drew x w ss : showing w ss -> ok any (pair_item dm (fun _ => showing) (fun _ => shows) (fun _ => lines_left r sc nn) x w ss) (one_item h sc coll dm w).
  Proof.
    intros (F & PL & LL & parts & I & O & E & HO & ES). assert (Q := one_item_ok r h sc coll dm M LK SW nn NS SL BK LH w F PL). destruct (next_drew w (concat parts) F I O E) as (i & c & more & NA & SA & D).
    destruct (never_done _ _ Q) as ([o v] & EV & (A1 & A2 & A3)). clear Q. rewrite EV. cbn [ok fst snd] in *. destruct o as [fin|]; [|exact Logic.I].
    unfold pair_item. cbn [fst snd]. exists i, c. split; [exact NA|]. assert (PV := placed_core r coll v w A1 PL). destruct A3 as (SK & _ & A3). assert (HO' := holds_scroll w v ss parts I SK HO).
    rewrite SA in ES. revert EV. unfold one_item. destruct (draw_next h sc coll dm w) as [[b u]|]; [|discriminate]. cbn [ok SplitView.bind] in *. destruct D as ((new & rest & D1 & D2 & D3 & D4 & D5 & D6) & DS). cbn [fst snd] in *.
    assert (CC : concat (parts ++ [new]) = concat parts ++ new) by (rewrite concat_app; cbn [concat]; rewrite app_nil_r; reflexivity).
    assert (HH : wscroll v = wscroll u -> wy v = wy u -> Forall2 (holds (sw sc - 2) (wscroll v)) (ss ++ [mkSlot i c (wy w) (wy v)]) (parts ++ [new])).
    { intros S1 S2. apply Forall2_app; [exact HO'|]. constructor; [|constructor]. split; [cbn [sfrom sto]; rewrite S1, S2; exact D5|exact D6]. }
    destruct (negb b || match wstack u with [] => true | _ => false end) eqn:B.
    - destruct (negb b && negb (wfound u)); [discriminate|]. match goal with |- (d0 <~ ?m ; _) = _ -> _ => destruct m as [dn|]; [|discriminate] end. cbn [SplitView.bind].
      intros EV. assert (fin = true /\ v = set_wup (set_wdown u dn) match wup u with Some a => Some a | None => wlast u end) as [-> EQ] by (split; congruence).
      split; [|split; [lia|discriminate]]. unfold sideP. cbn [fst snd negb]. split; [exact PV|]. exists (parts ++ [new]), rest, more. rewrite CC. rewrite EQ in HH |- *.
      split; [exact D1|]. split; [exact D2|]. split; [|split; [exact (HH eq_refl eq_refl)|rewrite map_app, <- app_assoc; exact ES]]. destruct b; [left|right; apply D4; reflexivity].
      destruct (D3 eq_refl) as [-> D7]. destruct (wstack u); [split; [reflexivity|exact D7]|discriminate B].
    - intros EV. assert (fin = false /\ v = u) as [-> EQ] by (split; congruence). destruct A3 as (A3 & A4 & A5). split; [|split; [lia|intros _; exact A5]]. unfold sideP. cbn [fst snd negb].
      assert (POS := lines_left_pos v A3). split; [exact A3|]. split; [exact PV|]. split; [lia|].
      exists (parts ++ [new]). rewrite CC. rewrite EQ in HH |- *. split; [exact D1|]. destruct b; [|discriminate B]. destruct (D3 eq_refl) as [D7 D8]. split; [exact D8|].
      split; [rewrite D7 in D2; unfold ahead; destruct (wstack u); [discriminate B|exact D2]|]. split; [exact (HH eq_refl eq_refl)|].
      rewrite map_app, <- app_assoc, ES. cbn [map app named]. do 2 f_equal. rewrite <- (DS eq_refl). unfold steps_ahead. destruct (wstack u); [discriminate B|reflexivity].
  Qed.

  Lemma showing_start w : placed r coll w -> showing (start w) [].
  Proof.
    intros PL. split; [|split; [exact PL|split; [exact BK|]]].
    - unfold fine. cbn [start wroot wstack wx wup wdown chain length]. split; [apply PL|]. split; [exact Logic.I|]. split; [reflexivity|]. split; discriminate.
    - exists []. split; [|split; [constructor|split; [reflexivity|split; [constructor|reflexivity]]]]. unfold SplitShow.inv. cbn. parts; auto; lia.
  Qed.
  Lemma showing_line w ss y : showing w ss -> wy w <= y -> showing (set_wy w y) ss.
  Proof. intros (F & PL & LL & d & I & O) Y. split; [exact F|]. split; [exact PL|]. split; [exact LL|]. exists d. split; [apply inv_line; assumption|exact O]. Qed.
  Lemma shows_line w ss y : shows w ss -> wy w <= y -> shows (set_wy w y) ss.
  Proof. intros (PL & d & rest & more & I & E) Y. split; [exact PL|]. exists d, rest, more. split; [apply inv_line; assumption|exact E]. Qed.

  Lemma writes_cell res colours sel top c p : is_row r coll sel -> writes r h top c p -> cell_as h res sel colours c = shown_as colours sel res (fst p - top, snd p).
  Proof.
    intros RS (W1 & W2 & W3 & W4 & W5 & W6). unfold cell_as, shown_as. cbn [fst snd]. rewrite W1, W2, W6, map_map. f_equal. apply map_ext. intros [k t]. cbn [fst snd].
    unfold print_as, retype, split_flag. cbn [flag_selected flag_searched flag_type]. rewrite W3.
    assert (SE : sel_is sel (holder (snd p)) || match epar (celem c) with Some p0 => is_entry h p0 && sel_is sel p0 | None => false end = is_selected sel (snd p)).
    { unfold is_selected. rewrite W4. unfold row_of. destruct sel as [i|]; [|cbn; destruct (epar _); [apply andb_false_r|reflexivity]]. unfold sel_is.
      assert (NE : parent_is_entry h (celem c) = true -> (i =? eid (celem c)) = false).
      { intros P. rewrite (parent_h r h M LK (celem c) W5) in P. destruct (Z.eqb_spec i (eid (celem c))) as [Q|Q]; [|reflexivity]. exfalso.
        destruct (place_of r coll i (RS i eq_refl)) as (k0 & pre & e & post & PL & E). assert (e = celem c) by (apply (eid_inj r M); [exact (place_in r _ _ _ _ _ PL)|exact W5|congruence]). subst e.
        rewrite (place_row r M _ _ _ _ _ PL) in P. discriminate P. }
      unfold parent_is_entry in NE. rewrite <- W3. destruct (epar (celem c)) as [q|]; [|apply orb_false_r]. destruct (is_entry h q).
      - rewrite NE by reflexivity. reflexivity.
      - apply orb_false_r. }
    rewrite SE. f_equal.
    unfold pair_of, mem. destruct (existsb _ res); [reflexivity|]. unfold colors. destruct colours; [|reflexivity].
    unfold kind_of, OUT_NUMBER, OUT_BOOL, OUT_STRING, OUT_OBJKEY, OUT_NULL. cbn [existsb].
    destruct (k =? 1) eqn:K1; [apply Z.eqb_eq in K1; subst; reflexivity|]. destruct (k =? 2) eqn:K2; [apply Z.eqb_eq in K2; subst; reflexivity|].
    destruct (k =? 3) eqn:K3; [apply Z.eqb_eq in K3; subst; reflexivity|]. destruct (k =? 5) eqn:K5; [apply Z.eqb_eq in K5; subst; reflexivity|].
    destruct (k =? 7) eqn:K7; [apply Z.eqb_eq in K7; subst; reflexivity|]. reflexivity.
  Qed.
  Lemma shows_page w ss res colours : shows w ss -> window_shows h (slen sc) coll res colours (sw sc - 2) (sh sc) w.
  Proof.
    intros ((R & _ & RS) & d & rest & more & (I1 & I2 & I3 & I4 & I5) & E & F & _). exists (concat d), rest. rewrite R. split; [exact E|]. split; [exact I4|]. split; [|split; [|exact F]].
    - unfold cells_of. change (fun p : Z * strip => wscroll w <? fst p) with (on_screen (wscroll w)). rewrite <- (rev_involutive (filter (on_screen (wscroll w)) (concat d))), map_rev. f_equal.
      clear E F I2 I4 I5. induction I3 as [|c p l l' W _ IH]; [reflexivity|]. cbn [map]. f_equal; [apply writes_cell; assumption|exact IH].
    - rewrite map_rev, I2. apply rev_involutive.
  Qed.
  Lemma shows_fills w ss : shows w ss -> fills (slen sc) coll (sw sc - 2) w ss.
  Proof.
    intros ((R & _ & RS) & d & rest & more & (I1 & I2 & I3 & I4 & I5) & E & F & H & S). exists d, rest, more. rewrite R. split; [exact E|]. split; [|auto]. rewrite map_rev, I2. apply rev_involutive.
  Qed.
End Item.

Lemma windows_are f a b m len sc p : comparable a b m len f -> roomy_windows sc -> slen sc = len -> compares a b m sc p ->
  exists w v l r y, pwins p = [w; v] /\ shows a (split_memory a b) sc (pcoll p) w l /\ shows b (split_memory a b) sc (pcoll p) v r /\ laid m y false false l r.
Proof.
  intros (MA & MB & FA & FB & D & B & SL & BK & FU) (SW & SH) EL ((ws & R) & (w0 & w1 & E & R0 & R1) & H & _). rewrite <- EL in *. clear EL len.
  set (h := split_memory a b) in *. set (nn := Nat.max (nesting a) (nesting b)).
  assert (C := redraw_core h sc (pcoll p) m ws). rewrite R in C. cbn [ok snd] in C. rewrite E in C.
  destruct ws as [|u0 [|u1 [|]]]; try discriminate C. cbn [map] in C. unfold core in C. injection C as C1 C2 C3 _ C5 C6 C7 _.
  destruct R0 as (Q0 & (l0 & L0 & I0) & T0 & _), R1 as (Q1 & (l1 & L1 & I1) & T1 & _).
  assert (P0 : placed a (pcoll p) u0) by (split; [congruence|split; [exists l0; split; [congruence|assumption]|unfold is_row; rewrite <- C2; exact T0]]).
  assert (P1 : placed b (pcoll p) u1) by (split; [congruence|split; [exists l1; split; [congruence|assumption]|unfold is_row; rewrite <- C6; exact T1]]).
  assert (NA : (nesting a <= nn)%nat) by (unfold nn; lia). assert (NB : (nesting b <= nn)%nat) by (unfold nn; lia).
  assert (N : forall x : node, x = a \/ x = b -> in_memory x /\ (forall i, In i (ids x) -> lookup h i = lookup (elems x) i) /\ (nesting x <= nn)%nat /\
    (length (elems x) <= length h)%nat /\ lines_of (slen sc) (4 * Z.of_nat nn + 16) (elems x) < 2 ^ 32).
  { assert (X := lines_nonneg (slen sc) (4 * Z.of_nat nn + 16) (elems a) SL ltac:(lia)). assert (Y := lines_nonneg (slen sc) (4 * Z.of_nat nn + 16) (elems b) SL ltac:(lia)).
    unfold most_lines in BK. fold nn in BK. assert (Z : lines_of (slen sc) (4 * Z.of_nat nn + 16) (elems a ++ elems b) < 2 ^ 32) by exact BK. rewrite lines_app in Z.
    intros x [-> | ->]; (split; [assumption|]); (split; [first [apply lk_a; assumption|apply lk_b; assumption]|]); (split; [assumption|]); (split; [first [apply len_a|apply len_b]|lia]). }
  set (doc := fun x : bool => if x then a else b). assert (DOC : forall x, doc x = a \/ doc x = b) by (intros []; [left|right]; reflexivity).
  destruct (pair_windows h sc (pcoll p) m (fun x w ss => showing (doc x) h sc (pcoll p) nn w ss) (fun x w ss => shows (doc x) h sc (pcoll p) w ss) (fun x w => lines_left (doc x) sc nn w)) with (w := u0) (w' := u1) (vs := pwins p) as (v & u & l & r & y & EQ & S1 & S2 & LA).
  - intros x w ss S. destruct (N (doc x) (DOC x)) as (N1 & N2 & N3 & N4 & N5). eapply ok_mono; [exact (item_drew (doc x) h sc (pcoll p) m nn N1 N2 SW SH N3 SL N5 N4 x w ss S)|].
    intros [[[|]|] w'] K; unfold pair_item, sideP in *; cbn [fst snd negb] in *; exact K.
  - intros x w ss (F & _ & LL & _). split; [eapply lines_left_pos; eassumption|exact LL].
  - intros x w ss y. apply showing_line.
  - intros x w ss y. apply shows_line.
  - intros x w ss y S. exact S.
  - intros x w ss y S. exact S.
  - exact R.
  - destruct (N a (or_introl eq_refl)) as (N1 & N2 & N3 & N4 & N5). change (doc true) with a. eapply (showing_start a); eassumption.
  - destruct (N b (or_intror eq_refl)) as (N1 & N2 & N3 & N4 & N5). change (doc false) with b. eapply (showing_start b); eassumption.
  - exists v, u, l, r, y. auto.
Qed.
Lemma windows_beside f a b m len sc p w v : comparable a b m len f -> roomy_windows sc -> slen sc = len -> compares a b m sc p -> pwins p = [w; v] ->
  exists l r, fills len (pcoll p) (sw sc - 2) w l /\ fills len (pcoll p) (sw sc - 2) v r /\ abreast m l r /\ apart m l r /\ no_blank l r.
Proof.
  intros OK R L C EW. destruct (windows_are f a b m len sc p OK R L C) as (v' & u & l & r & y & E & S1 & S2 & LA). rewrite EW in E. injection E as <- <-. rewrite <- L.
  exists l, r. split; [exact (shows_fills a _ sc (pcoll p) w l S1)|]. split; [exact (shows_fills b _ sc (pcoll p) v r S2)|].
  split; [apply (laid_abreast m _ _ _ _ _ LA)|]. split; [exact (laid_apart m _ _ _ _ _ LA)|].
  intros z s I Z. apply (laid_full m _ _ _ _ _ LA). assert (Q := proj2 (laid_inside m _ _ _ _ _ LA) s I). lia.
Qed.
Lemma windows_show f a b m len sc p w colours : comparable a b m len f -> roomy_windows sc -> slen sc = len -> compares a b m sc p -> In w (pwins p) ->
  window_shows (split_memory a b) len (pcoll p) (active_res p) colours (sw sc - 2) (sh sc) w.
Proof.
  intros OK R L C I. destruct (windows_are f a b m len sc p OK R L C) as (v & u & l & r & y & E & S1 & S2 & _). destruct OK as (MA & MB & _ & _ & D & _).
  rewrite E in I. rewrite <- L. destruct I as [<-|[<-|[]]]; [exact (shows_page a _ sc (pcoll p) MA (lk_a a b MA) v l _ colours S1)|exact (shows_page b _ sc (pcoll p) MB (lk_b a b D) u r _ colours S2)].
Qed.

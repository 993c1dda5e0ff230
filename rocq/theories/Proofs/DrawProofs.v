(** Drawing a document. *)
From Verif Require Export Proofs.RowProofs.
From Coq Require Import Lia ZifyBool.
Open Scope Z_scope.

(** * Drawing as a list of commands *)
Record cmd : Type := mkC { celem : option elem; csel : option Z; cid : Z; cx : Z; clen : Z; cw : Z; clazy : bool }.

Section Prog.
  Variable (h : list elem) (sc : screen) (coll : list Z).

  Definition chk (c : cmd) (s : dst) : dst :=
    match celem c with Some e => checkSelection h (csel c) e s | None => s end.
  Definition step (c : cmd) (s : dst) : option (bool * dst) :=
    let s := chk c s in
    if clazy c && (dy s <=? dscroll s)
    then Some (true, mkD (dy s + 1) (dscroll s) (dup s) (ddown s) (dfound s) (dlines s))
    else obind (write (csel c) (cid c) (cx c) (clen c) (cw c) s) (fun s => Some (negb (at_bottom sc s), s)).
  Fixpoint exec (l : list cmd) (s : dst) : option (bool * dst) :=
    match l with
    | [] => Some (true, s)
    | c :: t => obind (step c s) (fun '(b, s) => if b then exec t s else Some (false, s))
    end.

  Lemma exec_app a b s : exec (a ++ b) s = obind (exec a s) (fun '(r, s) => if r then exec b s else Some (false, s)).
  Proof.
    revert s. induction a as [|c a IH]; intros s; cbn [app exec obind]; [reflexivity|].
    destruct (step c s) as [[r s1]|]; [|reflexivity]. cbn [obind]. destruct r; [apply IH|reflexivity].
  Qed.
  Lemma exec_one c s : exec [c] s = step c s.
  Proof. cbn [exec]. destruct (step c s) as [[[] s1]|]; reflexivity. Qed.

  Definition key_cmd (sel : option Z) (x : Z) (m : meta) (k : bytes) (v : node) (len : Z) : cmd :=
    mkC (Some (EEntry m k v)) sel (mid m) x (slen sc (EEntry m k v) + 2 + len) (sw sc) false.
  Definition box (sel : option Z) (e : elem) (i x : Z) (content : list cmd) : list cmd :=
    if mem i coll then [mkC (Some e) sel i x 7 (sw sc) false]
    else mkC (Some e) sel i x 1 (sw sc) false :: content ++ [mkC None sel i x 1 (sw sc) false].

  Fixpoint prog (x : Z) (sel : option Z) (n : node) : list cmd :=
    match n with
    | NPrim m _ => [mkC (Some (ENode n)) sel (mid m) x (slen sc (ENode n)) (sw sc) false]
    | NArr m l => box sel (ENode n) (mid m) x (flat_map (prog (x + INDENT_LEVEL) sel) l)
    | NObj m l => box sel (ENode n) (mid m) x
        (flat_map (fun c =>
           let m := fst (fst c) in let k := snd (fst c) in let v := snd c in let x := x + INDENT_LEVEL in
           if is_container v && mem (nid v) coll then [key_cmd sel x m k v 7]
           else if negb (is_container v) then [key_cmd sel x m k v (slen sc (ENode v))]
           else match children v with
                | [] => [key_cmd sel x m k v 3]
                | _ => mkC (Some (EEntry m k v)) sel (mid m) x (slen sc (EEntry m k v)) (usub (sw sc) 2) true
                       :: prog (x + INDENT_LEVEL / 2) (if sel_is sel (mid m) then Some (nid v) else sel) v
                end) l)
    end.

  (** writeContainer runs its box. *)
  Lemma box_exec sel e i x content f s :
    (forall s, f s = exec content s) ->
    writeContainer sc coll sel i x f (checkSelection h sel e s) = exec (box sel e i x content) s.
  Proof.
    intros F. unfold writeContainer, box. destruct (mem i coll).
    - rewrite exec_one. unfold step, chk. cbn [celem csel cid cx clen cw clazy andb]. reflexivity.
    - cbn [exec]. unfold step at 1, chk. cbn [celem csel cid cx clen cw clazy andb].
      destruct (write sel i x 1 (sw sc) (checkSelection h sel e s)) as [s1|]; [|reflexivity]. cbn [obind].
      destruct (at_bottom sc s1); cbn [negb]; [reflexivity|]. rewrite exec_app, F.
      destruct (exec content s1) as [[b s2]|]; [|reflexivity]. cbn [obind]. destruct b; [|reflexivity].
      rewrite exec_one. unfold step, chk. cbn [celem csel cid cx clen cw clazy andb]. reflexivity.
  Qed.

  Lemma inline_exec sel x m k v len s :
    obind (writeKeyAfter sc sel (EEntry m k v) x len (checkSelection h sel (EEntry m k v) s))
      (fun '(b, s) => Some (b && negb (at_bottom sc s), s)) = exec [key_cmd sel x m k v len] s.
  Proof.
    rewrite exec_one. unfold step, chk, key_cmd. cbn [celem csel cid cx clen cw clazy andb]. unfold writeKeyAfter, write.
    destruct (dy _ <=? dscroll _); cbn [obind andb]; [reflexivity|]. cbn [eid].
    destruct (getNbLines _ _); [|reflexivity]. cbn [obind]. rewrite Bool.andb_diag. reflexivity.
  Qed.

  Lemma draw_exec n : forall x sel s, draw h sc coll x sel n s = exec (prog x sel n) s.
  Proof.
    induction n as [m p|m l IH|m l IH] using node_ind'; intros x sel s; cbn [draw prog].
    - rewrite exec_one. unfold step, chk. cbn [celem csel cid cx clen cw clazy andb]. reflexivity.
    - apply box_exec. clear s. induction l as [|c l IHl]; intros s; [reflexivity|]. inversion_clear IH as [|? ? I1 I2].
      cbn [flat_map]. rewrite exec_app, I1. destruct (exec (prog _ _ c) s) as [[b s1]|]; [|reflexivity]. cbn [obind].
      destruct b; [|reflexivity]. apply (IHl I2).
    - apply box_exec. clear s. induction l as [|c l IHl]; intros s; [reflexivity|]. inversion_clear IH as [|? ? I1 I2].
      cbn [flat_map]. rewrite exec_app.
      assert (E : writeEntry h sc coll sel (x + INDENT_LEVEL) (fst (fst c)) (snd (fst c)) (snd c)
                    (fun (sel0 : option Z) (s0 : dst) => draw h sc coll (x + INDENT_LEVEL + INDENT_LEVEL / 2) sel0 (snd c) s0) s =
        exec (if is_container (snd c) && mem (nid (snd c)) coll then [key_cmd sel (x + INDENT_LEVEL) (fst (fst c)) (snd (fst c)) (snd c) 7]
           else if negb (is_container (snd c)) then [key_cmd sel (x + INDENT_LEVEL) (fst (fst c)) (snd (fst c)) (snd c) (slen sc (ENode (snd c)))]
           else match children (snd c) with
                | [] => [key_cmd sel (x + INDENT_LEVEL) (fst (fst c)) (snd (fst c)) (snd c) 3]
                | _ => mkC (Some (EEntry (fst (fst c)) (snd (fst c)) (snd c))) sel (mid (fst (fst c))) (x + INDENT_LEVEL) (slen sc (EEntry (fst (fst c)) (snd (fst c)) (snd c))) (usub (sw sc) 2) true
                       :: prog (x + INDENT_LEVEL + INDENT_LEVEL / 2) (if sel_is sel (mid (fst (fst c))) then Some (nid (snd c)) else sel) (snd c)
                end) s).
      { unfold writeEntry. destruct (is_container (snd c) && mem (nid (snd c)) coll); [apply inline_exec|].
        destruct (negb (is_container (snd c))); [apply inline_exec|]. destruct (children (snd c)); [apply inline_exec|].
        cbn [exec]. unfold step at 1, chk. cbn [celem csel cid cx clen cw clazy andb]. unfold writeKey. cbn [eid].
        destruct (dy _ <=? dscroll _) eqn:Y; cbn [obind]; [apply I1|].
        destruct (write _ _ _ _ _ _) as [s1|]; [|reflexivity]. cbn [obind].
        destruct (negb (at_bottom sc s1)); [apply I1|reflexivity]. }
      rewrite E. cbn zeta. destruct (exec _ s) as [[b s1]|]; [|reflexivity]. cbn [obind]. destruct b; [|reflexivity]. apply (IHl I2).
  Qed.

  (** By children, uniformly. *)
  Definition prog_elem (x : Z) (sel : option Z) (e : elem) : list cmd :=
    match e with
    | ENode n => prog x sel n
    | EEntry m k v =>
        if is_container v && mem (nid v) coll then [key_cmd sel x m k v 7]
        else if negb (is_container v) then [key_cmd sel x m k v (slen sc (ENode v))]
        else match children v with
             | [] => [key_cmd sel x m k v 3]
             | _ => mkC (Some (EEntry m k v)) sel (mid m) x (slen sc (EEntry m k v)) (usub (sw sc) 2) true
                    :: prog (x + INDENT_LEVEL / 2) (if sel_is sel (mid m) then Some (nid v) else sel) v
             end
    end.
  Lemma prog_children x sel n : prog x sel n =
    match n with
    | NPrim m _ => [mkC (Some (ENode n)) sel (mid m) x (slen sc (ENode n)) (sw sc) false]
    | _ => box sel (ENode n) (nid n) x (flat_map (prog_elem (x + INDENT_LEVEL) sel) (children n))
    end.
  Proof. destruct n as [m p|m l|m l]; cbn [prog children]; [reflexivity| |]; rewrite flat_map_map; reflexivity. Qed.
End Prog.

Section Draw.
  Variable root : node.
  Hypothesis M : in_memory root.
  Variable (sc : screen) (coll : list Z).
  Notation h := (elems root).
  Notation prog := (prog sc coll).
  Notation prog_elem := (prog_elem sc coll).

  (** Rows drawn by commands. *)
  Definition crow (c : cmd) : list Z :=
    match celem c with Some e => if parent_is_entry h e then [] else [eid e] | None => [] end.
  Definition prows (l : list cmd) : list Z := flat_map crow l.
  Definition own (n : node) : list Z :=
    (if parent_is_entry h (ENode n) then [] else [nid n]) ++ inside coll n.

  Lemma prows_app a b : prows (a ++ b) = prows a ++ prows b.
  Proof. apply flat_map_app. Qed.

  Lemma prog_rows n : forall x sel, In (ENode n) h -> prows (prog x sel n) = own n.
  Proof.
    induction n as [n IH] using node_kids_ind. intros x sel I. rewrite prog_children. unfold own.
    assert (Q : forall l, (forall e, In e l -> In e (children n)) ->
      prows (flat_map (prog_elem (x + INDENT_LEVEL) sel) l) = rowsL coll l).
    { induction l as [|e l IHl]; intros S; [reflexivity|]. cbn [flat_map]. rewrite prows_app, rowsL_cons, IHl by (intros y J; apply S; right; exact J).
      f_equal. assert (J := S e (or_introl eq_refl)). assert (E := kid_in root n e I J). assert (R := kid_row root M n e I J).
      destruct e as [v|m k v]; cbn [prog_elem].
      - rewrite (IH _ J) by exact E. unfold own, rows_elem. cbn [value_of eid]. rewrite R. reflexivity.
      - assert (V := value_in root _ E). cbn [value_of] in V. assert (NR := value_not_row root M m k v E).
        assert (W : forall len, prows [key_cmd sc sel (x + INDENT_LEVEL) m k v len] = [mid m]).
        { intros len. unfold prows, crow, key_cmd. cbn [flat_map celem app]. rewrite R. reflexivity. }
        unfold rows_elem. cbn [value_of eid]. rewrite inside_children.
        destruct (is_container v) eqn:C; cbn [andb negb].
        + destruct (mem (nid v) coll) eqn:D; [apply W|]. destruct (children v) as [|c t] eqn:K; [apply W|].
          unfold prows. cbn [flat_map]. fold (prows (prog (x + INDENT_LEVEL + INDENT_LEVEL / 2) (if sel_is sel (mid m) then Some (nid v) else sel) v)).
          rewrite (IH _ J) by exact V. unfold crow, own. cbn [celem value_of]. rewrite R, NR. cbn [app eid]. rewrite inside_children, D, K. reflexivity.
        + rewrite W. destruct v; [|discriminate C|discriminate C]. cbn [children rowsL flat_map]. destruct mem; reflexivity. }
    destruct n as [m p|m l|m l].
    - unfold prows, crow. cbn [flat_map celem inside]. rewrite !app_nil_r. reflexivity.
    - rewrite inside_children. unfold box. destruct (mem (nid (NArr m l)) coll).
      + unfold prows, crow. cbn [flat_map celem]. rewrite !app_nil_r. reflexivity.
      + change (prows (?c :: ?l)) with (crow c ++ prows l). rewrite prows_app, Q by auto. unfold prows at 1. unfold crow. cbn [flat_map celem]. rewrite !app_nil_r. reflexivity.
    - rewrite inside_children. unfold box. destruct (mem (nid (NObj m l)) coll).
      + unfold prows, crow. cbn [flat_map celem]. rewrite !app_nil_r. reflexivity.
      + change (prows (?c :: ?l)) with (crow c ++ prows l). rewrite prows_app, Q by auto. unfold prows at 1. unfold crow. cbn [flat_map celem]. rewrite !app_nil_r. reflexivity.
  Qed.

  Lemma root_prog_rows sel : prows (prog 0 sel root) = rows coll root.
  Proof. rewrite prog_rows by apply root_in. unfold own. rewrite root_row by exact M. reflexivity. Qed.

  (** Programs look for the selection, until it is found. *)
  Definition hit (sel : option Z) (c : cmd) : bool := match celem c with Some e => sel_is sel (eid e) | None => false end.
  Inductive wf (sel : option Z) : bool -> list cmd -> Prop :=
  | WF_nil f : wf sel f []
  | WF_cons f c t :
      (f = false -> csel c = sel /\ (forall e, celem c = Some e -> parent_is_entry h e = true -> sel_is sel (eid e) = false)) ->
      (forall e, celem c = Some e -> cid c = eid e) ->
      wf sel (f || hit sel c) t -> wf sel f (c :: t).

  Lemma wf_mono sel l : wf sel false l -> forall f, wf sel f l.
  Proof.
    intros W f. destruct f; [|exact W]. assert (Q : forall f, wf sel f l -> wf sel true l); [|eauto].
    clear. intros f. induction 1 as [|f c t A B W IH]; [constructor|]. constructor; [discriminate|exact B|exact IH].
  Qed.

  (** The selection is not the value of an entry. *)
  Definition row_sel (sel : option Z) : Prop := forall m k v, In (EEntry m k v) h -> sel_is sel (nid v) = false.

  Lemma wf_weak sel f l : wf sel f l -> forall g, wf sel (f || g) l.
  Proof.
    intros W g. destruct f; [exact W|]. cbn [orb]. apply wf_mono, W.
  Qed.

  Lemma wf_value sel e : row_sel sel -> In e h -> parent_is_entry h e = true -> sel_is sel (eid e) = false.
  Proof.
    intros R I P. destruct (elem_origin root e I) as [->|[(c & J & K)|(m & k & v & J & ->)]].
    - rewrite root_row in P by exact M. discriminate P.
    - rewrite (kid_row root M c e J K) in P. discriminate P.
    - exact (R m k v J).
  Qed.

  Lemma prog_wf sel (R : row_sel sel) n : forall x sel' f t, In (ENode n) h -> (f = false -> sel' = sel) ->
    wf sel f t -> wf sel f (prog x sel' n ++ t).
  Proof.
    induction n as [n IH] using node_kids_ind. intros x sel' f t I S W. rewrite prog_children.
    assert (One : forall e f x len w lz t, In e h -> (f = false -> sel' = sel) -> wf sel f t ->
      wf sel f (mkC (Some e) sel' (eid e) x len w lz :: t)).
    { intros e f0 x0 len w lz t0 J S0 W0. constructor; cbn [celem csel cid].
      - intros F. split; [auto|]. intros e' [= <-] P. apply wf_value; auto.
      - intros e' [= <-]. reflexivity.
      - apply wf_weak, W0. }
    assert (Close : forall f i x len w lz t, (f = false -> sel' = sel) -> wf sel f t -> wf sel f (mkC None sel' i x len w lz :: t)).
    { intros f0 i x0 len w lz t0 S0 W0. constructor; cbn [celem csel cid]; [|discriminate|].
      - intros F. split; [auto|]. discriminate.
      - apply wf_weak, W0. }
    assert (Q : forall l, (forall e, In e l -> In e (children n)) -> forall f t, (f = false -> sel' = sel) -> wf sel f t ->
      wf sel f (flat_map (prog_elem (x + INDENT_LEVEL) sel') l ++ t)).
    { induction l as [|e l IHl]; intros SB f0 t0 S0 W0; [exact W0|]. cbn [flat_map]. rewrite <- app_assoc.
      assert (J := SB e (or_introl eq_refl)). assert (E := kid_in root n e I J).
      assert (W1 := IHl (fun y Hy => SB y (or_intror Hy)) f0 t0 S0 W0).
      destruct e as [v|m k v]; cbn [prog_elem].
      - apply (IH _ J); [exact E|exact S0|exact W1].
      - assert (V := value_in root _ E). cbn [value_of] in V. unfold key_cmd.
        assert (P := One (EEntry m k v) f0). cbn [eid] in P.
        destruct (is_container v && mem (nid v) coll); [apply P; auto|]. destruct (negb (is_container v)); [apply P; auto|].
        destruct (children v) as [|c tl] eqn:K; [apply P; auto|]. cbn [app]. constructor; cbn [celem csel cid].
        + intros F. split; [auto|]. intros e' [= <-] Pe. apply wf_value; auto.
        + intros e' [= <-]. reflexivity.
        + unfold hit. cbn [celem eid]. apply (IH _ J); [exact V| |apply wf_weak, W1].
          intros F. apply Bool.orb_false_iff in F. destruct F as [F1 F2]. rewrite (S0 F1), F2. reflexivity. }
    destruct n as [m p|m l|m l].
    - cbn [app]. exact (One (ENode (NPrim m p)) f x _ _ _ t I S W).
    - unfold box. destruct (mem (nid (NArr m l)) coll); [exact (One (ENode (NArr m l)) f x _ _ _ t I S W)|].
      cbn [app]. refine (One (ENode (NArr m l)) f x _ _ _ _ I S _). rewrite <- app_assoc. apply Q; [auto|exact S|]. cbn [app]. apply Close; auto.
    - unfold box. destruct (mem (nid (NObj m l)) coll); [exact (One (ENode (NObj m l)) f x _ _ _ t I S W)|].
      cbn [app]. refine (One (ENode (NObj m l)) f x _ _ _ _ I S _). rewrite <- app_assoc. apply Q; [auto|exact S|]. cbn [app]. apply Close; auto.
  Qed.

  Lemma root_wf sel : row_sel sel -> wf sel false (prog 0 sel root).
  Proof. intros R. rewrite <- (app_nil_r (prog 0 sel root)). apply prog_wf; [exact R|apply root_in|auto|constructor]. Qed.

  (** * What a run observes *)
  Definition obs : Type := option Z * option Z * bool.
  Definition scan1 (sel : option Z) (st : obs) (r : Z) : obs :=
    let '(up, down, found) := st in
    if found then match down with Some _ => st | None => (up, Some r, true) end
    else if sel_is sel r then (up, down, true) else (Some r, down, false).
  Definition scan (sel : option Z) (st : obs) (l : list Z) : obs := fold_left (scan1 sel) l st.
  Definition ob (s : dst) : obs := (dup s, ddown s, dfound s).

  Lemma chk_row sel e s : parent_is_entry h e = false -> ob (checkSelection h sel e s) = scan1 sel (ob s) (eid e).
  Proof.
    intros P. unfold checkSelection, ob, scan1. rewrite P. destruct (dfound s) eqn:F; cbn [negb].
    - destruct (ddown s) as [d|] eqn:D; [rewrite D, F; reflexivity|]. cbn [dup ddown dfound].
      unfold parent_is_entry in P. destruct (epar e) as [p|]; [rewrite P, Bool.andb_false_r|]; rewrite ?F; reflexivity.
    - destruct (sel_is sel (eid e)); reflexivity.
  Qed.
  Lemma chk_value sel e s : parent_is_entry h e = true -> (dfound s = false -> sel_is sel (eid e) = false) -> checkSelection h sel e s = s.
  Proof.
    intros P N. unfold checkSelection. rewrite P. destruct (dfound s) eqn:F; cbn [negb].
    - destruct (ddown s); reflexivity.
    - rewrite N by reflexivity. reflexivity.
  Qed.
  Lemma scan1_found sel sel' u d r : scan1 sel (u, d, true) r = scan1 sel' (u, d, true) r.
  Proof. reflexivity. Qed.

  Lemma chk_dy c s : dy (chk h c s) = dy s.
  Proof.
    unfold chk, checkSelection. destruct (celem c) as [e|]; [|reflexivity].
    destruct (negb (dfound s)); [destruct (sel_is _ _); [reflexivity|destruct (negb _); reflexivity]|].
    destruct (ddown s); [reflexivity|]. destruct (negb (parent_is_entry h e)); reflexivity.
  Qed.
  Lemma chk_lines c s : dlines (chk h c s) = dlines s.
  Proof.
    unfold chk, checkSelection. destruct (celem c) as [e|]; [|reflexivity].
    destruct (negb (dfound s)); [destruct (sel_is _ _); [reflexivity|destruct (negb _); reflexivity]|].
    destruct (ddown s); [reflexivity|]. destruct (negb (parent_is_entry h e)); reflexivity.
  Qed.

  (** The check of one command. *)
  Lemma chk_ob sel c t s : wf sel (dfound s) (c :: t) -> ob (chk h c s) = scan sel (ob s) (crow c) /\ dfound (chk h c s) = dfound s || hit sel c.
  Proof.
    intros W. inversion W as [|f c' t' A B W1]; subst. unfold chk, crow, hit. destruct (celem c) as [e|]; [|cbn [scan fold_left]; rewrite Bool.orb_false_r; auto].
    destruct (parent_is_entry h e) eqn:P.
    - assert (E : dfound s = false -> sel_is sel (eid e) = false). { intros F. apply A; auto. }
      assert (E' : dfound s = false -> sel_is (csel c) (eid e) = false). { intros F. destruct (A F) as [-> _]. auto. }
      rewrite chk_value by assumption. split; [reflexivity|]. destruct (dfound s) eqn:F; [reflexivity|]. rewrite E by reflexivity. reflexivity.
    - rewrite chk_row by exact P. cbn [scan fold_left].
      assert (X : scan1 (csel c) (ob s) (eid e) = scan1 sel (ob s) (eid e)).
      { unfold ob. destruct (dfound s) eqn:F; [reflexivity|]. destruct (A eq_refl) as [-> _]. reflexivity. }
      split; [exact X|]. assert (Y := chk_row (csel c) e s P). rewrite X in Y. unfold ob, scan1 in Y.
      destruct (dfound s) eqn:F; cbn [orb].
      + destruct (ddown s); congruence.
      + destruct (sel_is sel (eid e)); congruence.
  Qed.

  Lemma step_spec c s b s' : step h sc c s = Some (b, s') ->
    ob s' = ob (chk h c s) /\ dscroll s' = dscroll (chk h c s) /\
    ((dy s <= dscroll s' /\ dy s' = dy s + 1 /\ dlines s' = dlines s) \/
     (dscroll s' < dy s /\ (exists k, getNbLines (clen c + cx c) (cw c) = Some k /\ dy s' = dy s + k) /\
      dlines s' = (cid c, dy s - dscroll s', sel_is (csel c) (cid c)) :: dlines s)) /\
    (b = false -> at_bottom sc s' = true) /\ (b = true -> at_bottom sc s' = true -> dy s <= dscroll s').
  Proof.
    unfold step. assert (Y := chk_dy c s). assert (L := chk_lines c s). destruct (clazy c && (dy (chk h c s) <=? dscroll (chk h c s))) eqn:Z.
    - intros [= <- <-]. cbn [ob dup ddown dfound dscroll dy dlines]. rewrite Y, L in *. split; [reflexivity|]. split; [reflexivity|].
      apply Bool.andb_true_iff in Z. destruct Z as [_ Z]. apply Z.leb_le in Z. split; [left; auto|]. split; [discriminate|auto].
    - unfold write. destruct (dy (chk h c s) <=? dscroll (chk h c s)) eqn:Z'.
      + cbn [obind]. intros [= <- <-]. cbn [ob dup ddown dfound dscroll dy dlines]. rewrite Y, L in *. apply Z.leb_le in Z'.
        split; [reflexivity|]. split; [reflexivity|]. split; [left; auto|]. split; [|auto]. intros B. apply Bool.negb_false_iff in B. exact B.
      + destruct (getNbLines _ _) as [k|] eqn:K; [|discriminate]. cbn [obind]. intros [= <- <-]. cbn [ob dup ddown dfound dscroll dy dlines].
        rewrite Y, L in *. apply Z.leb_gt in Z'. split; [reflexivity|]. split; [reflexivity|].
        split; [right; split; [exact Z'|]; split; [eauto|reflexivity]|]. split; [intros B; apply Bool.negb_false_iff in B; exact B|].
        intros B B'. rewrite B' in B. discriminate B.
  Qed.

  (** Rows seen: a prefix, all of them when the drawing completes. *)
  Lemma exec_ob sel l : forall s b s', wf sel (dfound s) l -> exec h sc l s = Some (b, s') ->
    exists seen rest, prows l = seen ++ rest /\ ob s' = scan sel (ob s) seen /\ (b = true -> rest = []).
  Proof.
    induction l as [|c l IH]; intros s b s' W E; cbn [exec] in E.
    - injection E as <- <-. exists [], []. auto.
    - destruct (step h sc c s) as [[b1 s1]|] eqn:S; [|discriminate]. cbn [obind] in E.
      destruct (step_spec _ _ _ _ S) as (O & _ & _). destruct (chk_ob _ _ _ _ W) as (CO & CF).
      change (prows (c :: l)) with (crow c ++ prows l).
      destruct b1.
      + inversion W as [|f c' t' A B W1]; subst.
        assert (F1 : dfound s1 = dfound s || hit sel c). { rewrite <- CF. unfold ob in O. congruence. }
        rewrite <- F1 in W1. destruct (IH s1 b s' W1 E) as (seen & rest & P & Q & D). exists (crow c ++ seen), rest.
        rewrite P, app_assoc. split; [reflexivity|]. split; [|exact D]. rewrite Q, O, CO. unfold scan. rewrite fold_left_app. reflexivity.
      + injection E as <- <-. exists (crow c), (prows l). split; [reflexivity|]. split; [congruence|discriminate].
  Qed.

  (** The scan of a list of rows. *)
  Lemma scan_before sel l : forall u d, (forall r, In r l -> sel_is sel r = false) ->
    scan sel (u, d, false) l = (match rev l with r :: _ => Some r | [] => u end, d, false).
  Proof.
    induction l as [|r l IH]; intros u d N; [reflexivity|]. cbn [scan fold_left]. unfold scan1 at 2. rewrite (N r) by (left; reflexivity).
    change (scan sel (Some r, d, false) l = (match rev (r :: l) with r :: _ => Some r | [] => u end, d, false)).
    rewrite IH by (intros x I; apply N; right; exact I). cbn [rev]. destruct (rev l); reflexivity.
  Qed.
  Lemma scan_after sel l : forall u d, scan sel (u, Some d, true) l = (u, Some d, true).
  Proof. induction l as [|r l IH]; intros u d; [reflexivity|]. apply IH. Qed.
  Lemma scan_at i pre post : ~ In i pre ->
    scan (Some i) (None, None, false) (pre ++ i :: post) = (hd_error (rev pre), hd_error post, true).
  Proof.
    intros N. unfold scan. rewrite fold_left_app. change (fold_left (scan1 (Some i)) pre (None, None, false)) with (scan (Some i) (None, None, false) pre).
    rewrite scan_before.
    - cbn [fold_left]. unfold scan1 at 2. cbn [sel_is]. rewrite Z.eqb_refl. destruct post as [|d post]; [destruct (rev pre); reflexivity|].
      cbn [fold_left]. unfold scan1 at 2. change (fold_left (scan1 (Some i)) post ?a) with (scan (Some i) a post). rewrite scan_after.
      destruct (rev pre); reflexivity.
    - intros r I. cbn [sel_is]. destruct (i =? r) eqn:E; [|reflexivity]. apply Z.eqb_eq in E. subst. contradiction.
  Qed.

  (** * Where lines go *)
  Definition geo (s : dst) : Prop := 1 <= dy s /\ 0 <= dscroll s /\ at_bottom sc s = false.

  Lemma nb_nonneg n w k : getNbLines n w = Some k -> 0 <= k.
  Proof.
    unfold getNbLines, f64_uint. destruct (f64_trunc _) as [u|]; [|discriminate]. destruct ((0 <=? u) && (u <? 2 ^ 32)) eqn:B; [|discriminate].
    destruct (SFeqb _ _); [intros [= <-]; lia|]. destruct (f64_trunc (f64_add _ _)) as [u'|]; [|discriminate].
    destruct ((0 <=? u') && (u' <? 2 ^ 32)) eqn:B'; [|discriminate]. intros [= <-]. lia.
  Qed.

  Lemma chk_scroll c s : dscroll (chk h c s) = dscroll s \/
    (dfound s = false /\ dfound (chk h c s) = true /\ dy s <= dscroll s /\ dscroll (chk h c s) = if dy s =? 0 then 0 else dy s - 1).
  Proof.
    unfold chk, checkSelection. destruct (celem c) as [e|]; [|auto]. destruct (dfound s) eqn:F; cbn [negb].
    - destruct (ddown s); [auto|]. destruct (negb (parent_is_entry h e)); cbn [dscroll]; auto.
    - destruct (sel_is _ _); cbn [dscroll dfound].
      + destruct (dy s <=? dscroll s) eqn:L; [|auto]. right. apply Z.leb_le in L. auto.
      + destruct (negb _); auto.
  Qed.

  Lemma bottom_false y t hh : hasReachedBottom y t hh = false -> y < t \/ y - t <= usub hh 1.
  Proof. unfold hasReachedBottom. lia. Qed.

  Lemma step_geo c s b s' : 2 <= sh sc < 2 ^ 32 -> geo s -> step h sc c s = Some (b, s') -> 1 <= dy s' /\ 0 <= dscroll s' /\ (b = true -> geo s').
  Proof.
    intros HS (G1 & G2 & G3) S. destruct (step_spec _ _ _ _ S) as (_ & SC & L & B1 & B2). destruct (chk_scroll c s) as [E|(_ & _ & Y & E)].
    - rewrite E in SC. assert (1 <= dy s'). { destruct L as [(? & -> & _)|(? & (k & K & ->) & _)]; [lia|]. apply nb_nonneg in K. lia. }
      split; [lia|]. split; [lia|]. intros ->. split; [lia|]. split; [lia|]. destruct (at_bottom sc s') eqn:BB; [|reflexivity].
      specialize (B2 eq_refl eq_refl). destruct L as [(? & Q & _)|(? & _)]; [|lia].
      unfold at_bottom, hasReachedBottom, usub in BB. rewrite Z.mod_small in BB by lia. lia.
    - assert (1 <= dy s'). { destruct L as [(? & -> & _)|(? & (k & K & ->) & _)]; [lia|]. apply nb_nonneg in K. lia. }
      destruct (dy s =? 0) eqn:Z; [lia|]. split; [lia|]. split; [lia|]. intros ->. split; [lia|]. split; [lia|].
      destruct (at_bottom sc s') eqn:BB; [|reflexivity]. specialize (B2 eq_refl eq_refl). lia.
  Qed.

  Lemma exec_lines l : forall s b s', exec h sc l s = Some (b, s') -> exists new, dlines s' = new ++ dlines s.
  Proof.
    induction l as [|c l IH]; intros s b s' E; cbn [exec] in E.
    - injection E as <- <-. exists []. reflexivity.
    - destruct (step h sc c s) as [[b1 s1]|] eqn:S; [|discriminate]. cbn [obind] in E.
      destruct (step_spec _ _ _ _ S) as (_ & _ & L & _).
      assert (Q : exists new, dlines s1 = new ++ dlines s). { destruct L as [(_ & _ & ->)|(_ & _ & ->)]; [exists []; reflexivity|eexists [_]; reflexivity]. }
      destruct Q as (n1 & Q). destruct b1.
      + destruct (IH _ _ _ E) as (n2 & Q2). exists (n2 ++ n1). rewrite Q2, Q, app_assoc. reflexivity.
      + injection E as <- <-. eauto.
  Qed.

  (** Finding the selection puts it on a line of the window. *)
  Lemma exec_found i l : 2 <= sh sc < 2 ^ 32 -> forall s b s', wf (Some i) (dfound s) l -> geo s -> dfound s = false ->
    exec h sc l s = Some (b, s') -> dfound s' = true ->
    exists line, In (i, line, true) (dlines s') /\ 1 <= line <= sh sc - 1.
  Proof.
    intros HS. induction l as [|c l IH]; intros s b s' W G F E F'; cbn [exec] in E.
    - injection E as <- <-. congruence.
    - destruct (step h sc c s) as [[b1 s1]|] eqn:S; [|discriminate]. cbn [obind] in E.
      destruct (step_spec _ _ _ _ S) as (O & SC & L & B1 & B2). destruct (chk_ob _ _ _ _ W) as (CO & CF).
      assert (F1 : dfound s1 = dfound s || hit (Some i) c). { rewrite <- CF. unfold ob in O. congruence. }
      inversion W as [|f c' t' A B W1]; subst. rewrite F in F1, W1. cbn [orb] in F1, W1.
      destruct (hit (Some i) c) eqn:HH.
      + assert (X : exists line, In (i, line, true) (dlines s1) /\ 1 <= line <= sh sc - 1).
        { destruct (A F) as [CS _]. unfold hit in HH. destruct (celem c) as [e|] eqn:CE; [|discriminate]. cbn [sel_is] in HH. apply Z.eqb_eq in HH.
          destruct G as (G1 & G2 & G3). unfold at_bottom in G3. apply bottom_false in G3.
          assert (CI := B e eq_refl).
          destruct L as [(L1 & L2 & L3)|(L1 & _ & L3)].
          - exfalso. unfold chk, checkSelection in SC. rewrite CE, F in SC. cbn [negb] in SC. rewrite CS in SC. cbn [sel_is] in SC. rewrite HH, Z.eqb_refl in SC. cbn [dscroll] in SC.
            destruct (dy s <=? dscroll s) eqn:Y; [destruct (dy s =? 0) eqn:Y0|]; lia.
          - exists (dy s - dscroll s1). split.
            + rewrite L3, CI, CS. cbn [sel_is]. rewrite HH, Z.eqb_refl. left. reflexivity.
            + unfold usub in G3. rewrite Z.mod_small in G3 by lia. destruct (chk_scroll c s) as [Q|(_ & _ & Q1 & Q)]; rewrite Q in SC; [lia|]. destruct (dy s =? 0) eqn:Y0; lia. }
        destruct X as (line & X & XL). exists line. split; [|exact XL]. destruct b1.
        * destruct (exec_lines _ _ _ _ E) as (new & ->). apply in_or_app. auto.
        * injection E as <- <-. exact X.
      + destruct b1.
        * rewrite <- F1 in W1. apply (IH s1 b s'); auto. apply (step_geo _ _ _ _ HS G S). reflexivity.
        * injection E as <- <-. congruence.
  Qed.

  (** * Enough room *)
  Lemma exec_room l : forall s b s', dy s + Z.of_nat (length l) <= dscroll s -> exec h sc l s = Some (b, s') ->
    b = true \/ dfound s' = true.
  Proof.
    induction l as [|c l IH]; intros s b s' R E; cbn [exec] in E.
    - injection E as <- <-. auto.
    - destruct (step h sc c s) as [[b1 s1]|] eqn:S; [|discriminate]. cbn [obind] in E. cbn [length] in R.
      destruct (step_spec _ _ _ _ S) as (O & SC & L & B1 & B2). destruct (chk_scroll c s) as [Q|(_ & Q & _ & _)].
      + rewrite Q in SC. destruct L as [(L1 & L2 & L3)|(L1 & _)]; [|lia]. destruct b1.
        * apply (IH s1 b s'); [lia|exact E].
        * specialize (B1 eq_refl). unfold at_bottom, hasReachedBottom in B1. unfold usub in B1. assert (0 <= (sh sc - 1) mod 2 ^ 32) by (apply Z.mod_pos_bound; lia). lia.
      + assert (F1 : dfound s1 = true) by (unfold ob in O; congruence). right. destruct b1.
        * clear - E F1. revert s1 E F1. induction l as [|c l IH]; intros s1 E F1; cbn [exec] in E; [injection E as <- <-; exact F1|].
          destruct (step h sc c s1) as [[b2 s2]|] eqn:S; [|discriminate]. cbn [obind] in E. destruct (step_spec _ _ _ _ S) as (O & _).
          assert (F2 : dfound s2 = true). { unfold ob in O. injection O as _ _ ->. unfold chk, checkSelection. destruct (celem c); [|exact F1]. rewrite F1. cbn [negb]. destruct (ddown s1); [exact F1|]. destruct (negb _); [reflexivity|exact F1]. }
          destruct b2; [exact (IH _ E F2)|]. injection E as <- <-. exact F2.
        * injection E as <- <-. exact F1.
  Qed.

  (** Drawing that does not find the selection leaves the scroll position. *)
  Lemma exec_scroll l : forall s b s', exec h sc l s = Some (b, s') -> dfound s' = false -> dscroll s' = dscroll s /\ dfound s = false.
  Proof.
    induction l as [|c l IH]; intros s b s' E F; cbn [exec] in E.
    - injection E as <- <-. auto.
    - destruct (step h sc c s) as [[b1 s1]|] eqn:S; [|discriminate]. cbn [obind] in E.
      destruct (step_spec _ _ _ _ S) as (O & SC & _).
      assert (X : dfound s1 = false -> dscroll s1 = dscroll s /\ dfound s = false).
      { intros F1. rewrite SC. assert (FC : dfound (chk h c s) = false) by (unfold ob in O; congruence).
        destruct (chk_scroll c s) as [Q|(_ & Q & _)]; [|congruence]. split; [exact Q|].
        unfold chk, checkSelection in FC. destruct (celem c); [|exact FC]. destruct (dfound s) eqn:FF; [|reflexivity]. cbn [negb] in FC.
        destruct (ddown s); [congruence|]. destruct (negb _); cbn [dfound] in FC; congruence. }
      destruct b1.
      + destruct (IH _ _ _ E F) as [Q1 Q2]. destruct (X Q2). split; congruence.
      + injection E as <- <-. auto.
  Qed.

  Lemma prog_length n : forall x sel, (length (prog x sel n) <= 2 * length (elems n))%nat.
  Proof.
    induction n as [n IH] using node_kids_ind. intros x sel. rewrite prog_children, elems_children. cbn [length].
    assert (Q : forall l, (forall e, In e l -> In e (children n)) ->
      (length (flat_map (prog_elem (x + INDENT_LEVEL) sel) l) <= 2 * length (flat_map eelems l))%nat).
    { induction l as [|e l IHl]; intros S; [cbn; lia|]. cbn [flat_map]. rewrite !app_length. specialize (IHl (fun y Hy => S y (or_intror Hy))).
      assert (J := S e (or_introl eq_refl)). assert (length (prog_elem (x + INDENT_LEVEL) sel e) <= 2 * length (eelems e))%nat; [|lia].
      destruct e as [v|m k v]; cbn [prog_elem eelems length]; [apply (IH _ J)|].
      destruct (is_container v && _); [cbn [length]; lia|]. destruct (negb _); [cbn [length]; lia|]. destruct (children v); [cbn [length]; lia|].
      cbn [length]. assert (Q := IH _ J (x + INDENT_LEVEL + INDENT_LEVEL / 2) (if sel_is sel (mid m) then Some (nid v) else sel)). cbn [value_of] in Q. lia. }
    specialize (Q (children n) (fun e J => J)).
    destruct n as [m p|m l|m l]; [cbn [length]; lia| |]; unfold box; destruct (mem _ coll); cbn [length]; rewrite ?app_length; cbn [length]; lia.
  Qed.
End Draw.

(** What is on screen: the page of the document. *)
From Verif Require Export Spec.PageSpec Proofs.LoopProofs.
From Verif Require Import Proofs.NbLinesProofs.
From Coq Require Import Lia ZifyBool.
Open Scope Z_scope.

Lemma c_str_nul s : c_str s = before_nul s.
Proof.
  induction s as [|c s IH]; [reflexivity|]. cbn [c_str before_nul]. rewrite IH. destruct (Ascii.eqb_spec c Ascii.zero) as [->|N]; [reflexivity|].
  destruct (nat_of_ascii c =? 0)%nat eqn:E; [|reflexivity]. apply Nat.eqb_eq in E. exfalso. apply N. rewrite <- (ascii_nat_embedding c), E. reflexivity.
Qed.

(** * Drawing as a list of commands that print texts *)
Notation tcmd := (cmd * (elem * list (Z * bytes)))%type.

Section Prog.
  Variable (h : list elem) (sc : screen) (coll res : list Z) (enabled : bool).

  Definition pieces_of (t : tcmd) : list piece :=
    map (fun p => print_as enabled (retype (getFlag res (csel (fst t)) (fst (snd t))) (fst p)) (snd p)) (snd (snd t)).
  Definition tstep (t : tcmd) (p : pst) : option (bool * pst) :=
    obind (step h sc (fst t) (pd p)) (fun '(b, s) => Some (b, printing (cx (fst t)) (pieces_of t) (chk h (fst t) (pd p)) s (pcells p))).
  Fixpoint texec (l : list tcmd) (p : pst) : option (bool * pst) :=
    match l with
    | [] => Some (true, p)
    | c :: t => obind (tstep c p) (fun '(b, p) => if b then texec t p else Some (false, p))
    end.

  Lemma texec_app a b p : texec (a ++ b) p = obind (texec a p) (fun '(r, p) => if r then texec b p else Some (false, p)).
  Proof.
    revert p. induction a as [|c a IH]; intros p; cbn [app texec obind]; [reflexivity|].
    destruct (tstep c p) as [[r p1]|]; [|reflexivity]. cbn [obind]. destruct r; [apply IH|reflexivity].
  Qed.
  Lemma texec_one c p : texec [c] p = tstep c p.
  Proof. cbn [texec]. destruct (tstep c p) as [[[] p1]|]; reflexivity. Qed.

  Definition tkey (sel : option Z) (x : Z) (m : meta) (k : bytes) (v : node) (after : bytes) (len : Z) : tcmd :=
    (key_cmd sc sel x m k v len, (EEntry m k v, [(OUT_OBJKEY, c_str k); (OUT_OBJ, str ": "); (node_type v, c_str after)])).
  Definition tbox (sel : option Z) (n : node) (x : Z) (content : list tcmd) : list tcmd :=
    if mem (nid n) coll then [(mkC (Some (ENode n)) sel (nid n) x 7 (sw sc) false, (ENode n, [(node_type n, folded n)]))]
    else (mkC (Some (ENode n)) sel (nid n) x 1 (sw sc) false, (ENode n, [(node_type n, opening n)])) ::
         content ++ [(mkC None sel (nid n) x 1 (sw sc) false, (ENode n, [(node_type n, closing n)]))].
  Definition tentry (f : Z -> option Z -> node -> list tcmd) (x : Z) (sel : option Z) (m : meta) (k : bytes) (v : node) : list tcmd :=
    if is_container v && mem (nid v) coll then [tkey sel x m k v (folded v) 7]
    else if negb (is_container v) then [tkey sel x m k v (prim_text v) (slen sc (ENode v))]
    else match children v with
         | [] => [tkey sel x m k v (hollow v) 3]
         | _ => (mkC (Some (EEntry m k v)) sel (mid m) x (slen sc (EEntry m k v)) (usub (sw sc) 2) true,
                 (EEntry m k v, [(OUT_OBJKEY, c_str k); (OUT_OBJ, str ": ")])) ::
                f (x + INDENT_LEVEL / 2) (if sel_is sel (mid m) then Some (nid v) else sel) v
         end.

  Fixpoint tprog (x : Z) (sel : option Z) (n : node) : list tcmd :=
    match n with
    | NPrim m _ => [(mkC (Some (ENode n)) sel (mid m) x (slen sc (ENode n)) (sw sc) false, (ENode n, [(node_type n, c_str (prim_text n))]))]
    | NArr m l => tbox sel n x (flat_map (tprog (x + INDENT_LEVEL) sel) l)
    | NObj m l => tbox sel n x (flat_map (fun c => tentry tprog (x + INDENT_LEVEL) sel (fst (fst c)) (snd (fst c)) (snd c)) l)
    end.
  Definition tprog_elem (x : Z) (sel : option Z) (e : elem) : list tcmd :=
    match e with ENode n => tprog x sel n | EEntry m k v => tentry tprog x sel m k v end.
  Lemma tprog_children x sel n : tprog x sel n =
    match n with
    | NPrim m _ => [(mkC (Some (ENode n)) sel (mid m) x (slen sc (ENode n)) (sw sc) false, (ENode n, [(node_type n, c_str (prim_text n))]))]
    | _ => tbox sel n x (flat_map (tprog_elem (x + INDENT_LEVEL) sel) (children n))
    end.
  Proof. destruct n as [m p|m l|m l]; cbn [tprog children]; [reflexivity| |]; rewrite flat_map_map; reflexivity. Qed.

  Lemma map_fst_flat {A} (f : A -> list tcmd) (g : A -> list cmd) l : (forall x, In x l -> map fst (f x) = g x) -> map fst (flat_map f l) = flat_map g l.
  Proof. induction l as [|x l IH]; intros E; [reflexivity|]. cbn [flat_map]. rewrite map_app. f_equal; [exact (E x (or_introl eq_refl))|exact (IH (fun y I => E y (or_intror I)))]. Qed.

  (** The commands are those of the drawing. *)
  Lemma tprog_prog n : forall x sel, map fst (tprog x sel n) = prog sc coll x sel n.
  Proof.
    induction n as [n IH] using node_kids_ind. intros x sel. rewrite tprog_children, prog_children.
    assert (Q : map fst (flat_map (tprog_elem (x + INDENT_LEVEL) sel) (children n)) = flat_map (prog_elem sc coll (x + INDENT_LEVEL) sel) (children n)).
    { apply map_fst_flat. intros e I. specialize (IH e I). destruct e as [v|m k v]; cbn [tprog_elem prog_elem value_of] in *; [apply IH|]. unfold tentry.
      destruct (is_container v && _); [reflexivity|]. destruct (negb _); [reflexivity|]. destruct (children v); [reflexivity|]. cbn [map fst]. rewrite IH. reflexivity. }
    destruct n as [m p|m l|m l]; [reflexivity| |]; unfold tbox, box; destruct (mem _ coll); [reflexivity| |reflexivity|];
      cbn [map fst]; rewrite map_app, Q; reflexivity.
  Qed.

  Lemma texec_exec l : forall p, option_map (fun r => (fst r, pd (snd r))) (texec l p) = exec h sc (map fst l) (pd p).
  Proof.
    induction l as [|c l IH]; intros p; cbn [texec map exec]; [reflexivity|]. unfold tstep.
    destruct (step h sc (fst c) (pd p)) as [[b s]|]; [|reflexivity]. cbn [obind]. destruct b; [|reflexivity]. rewrite IH. reflexivity.
  Qed.

  (** Painting runs them. *)
  Lemma put_step sel e n x len text p i : eid n = i -> 
    obind (put sc res enabled sel n x len text (checking h sel e p)) (fun p => Some (negb (bottom sc p), p)) =
    tstep (mkC (Some e) sel i x len (sw sc) false, (n, [(node_type match n with ENode n => n | EEntry _ _ v => v end, text)])) p.
  Proof.
    intros <-. unfold put, tstep, step. cbn [fst celem csel cid cx clen cw clazy andb pd checking]. change (chk h (mkC (Some e) sel (eid n) x len (sw sc) false) (pd p)) with (checkSelection h sel e (pd p)).
    destruct (write sel (eid n) x len (sw sc) (checkSelection h sel e (pd p))) as [s|]; [|reflexivity]. cbn [obind]. reflexivity.
  Qed.

  Lemma putContainer_exec sel n x content f p : is_container n = true -> (forall p, f p = texec content p) ->
    putContainer sc coll res enabled sel n x f (checking h sel (ENode n) p) = texec (tbox sel n x content) p.
  Proof.
    intros C F. unfold putContainer, tbox. destruct (mem (nid n) coll).
    - rewrite texec_one. apply (put_step sel (ENode n) (ENode n)). reflexivity.
    - cbn [texec]. rewrite <- (put_step sel (ENode n) (ENode n)) by reflexivity.
      destruct (put sc res enabled sel (ENode n) x 1 (opening n) (checking h sel (ENode n) p)) as [p1|]; [|reflexivity]. cbn [obind].
      destruct (bottom sc p1); cbn [negb]; [reflexivity|]. rewrite texec_app, F.
      destruct (texec content p1) as [[b p2]|]; [|reflexivity]. cbn [obind]. destruct b; [|reflexivity].
      rewrite texec_one. unfold put, tstep, step, chk. cbn [fst celem csel cid cx clen cw clazy andb eid].
      destruct (write sel (nid n) x 1 (sw sc) (pd p2)); [|reflexivity]. reflexivity.
  Qed.

  Lemma putEntry_exec sel x m k v g p :
    (forall sel p, g sel p = texec (tprog (x + INDENT_LEVEL / 2) sel v) p) ->
    putEntry h sc coll res enabled sel x m k v g p = texec (tentry tprog x sel m k v) p.
  Proof.
    intros G. unfold putEntry, tentry.
    assert (K : forall after len, obind (putKeyAfter sc res enabled sel (EEntry m k v) x k after len (checking h sel (EEntry m k v) p))
        (fun '(b, p) => Some (b && negb (bottom sc p), p)) = texec [tkey sel x m k v after len] p).
    { intros after len. rewrite texec_one. unfold putKeyAfter, tstep. cbn [fst tkey].
      assert (E := inline_exec h sc sel x m k v len (pd p)). rewrite exec_one in E. rewrite <- E. cbn [checking pd].
      change (chk h (key_cmd sc sel x m k v len) (pd p)) with (checkSelection h sel (EEntry m k v) (pd p)).
      destruct (writeKeyAfter sc sel (EEntry m k v) x len (checkSelection h sel (EEntry m k v) (pd p))) as [[b s]|]; [|reflexivity]. reflexivity. }
    cbv zeta. destruct (is_container v && _); [apply K|]. destruct (negb _); [apply K|]. destruct (children v); [apply K|].
    cbn [texec]. unfold putKey, tstep, step. cbn [fst celem csel cid cx clen cw clazy andb]. unfold writeKey. cbn [checking pd pcells eid].
    match goal with |- context [chk h ?c (pd p)] => change (chk h c (pd p)) with (checkSelection h sel (EEntry m k v) (pd p)) end.
    destruct (dy (checkSelection h sel (EEntry m k v) (pd p)) <=? dscroll (checkSelection h sel (EEntry m k v) (pd p))) eqn:Y; cbn [obind].
    - rewrite G. reflexivity.
    - destruct (write _ _ _ _ _ _) as [s1|]; [|reflexivity]. cbn [obind]. destruct (negb (at_bottom sc s1)); [rewrite G; reflexivity|reflexivity].
  Qed.

  Lemma paint_exec n : forall x sel p, paint h sc coll res enabled x sel n p = texec (tprog x sel n) p.
  Proof.
    induction n as [m q|m l IH|m l IH] using node_ind'; intros x sel p; cbn [paint tprog].
    - rewrite texec_one. apply (put_step sel (ENode (NPrim m q)) (ENode (NPrim m q))). reflexivity.
    - apply putContainer_exec; [reflexivity|]. clear p. induction l as [|c l IHl]; intros p; [reflexivity|]. inversion_clear IH as [|? ? I1 I2].
      cbn [flat_map]. rewrite texec_app, I1. destruct (texec (tprog _ _ c) p) as [[b p1]|]; [|reflexivity]. cbn [obind].
      destruct b; [|reflexivity]. apply (IHl I2).
    - apply putContainer_exec; [reflexivity|]. clear p. induction l as [|c l IHl]; intros p; [reflexivity|]. inversion_clear IH as [|? ? I1 I2].
      cbn [flat_map]. rewrite texec_app, (putEntry_exec _ _ _ _ _ _ _ (fun sel p => I1 _ sel p)). destruct (texec _ p) as [[b p1]|]; [|reflexivity]. cbn [obind].
      destruct b; [|reflexivity]. apply (IHl I2).
  Qed.
End Prog.

(** * The page *)
Section Page.
  Variable (sc : screen) (coll : list Z).
  Definition page_elem (x : Z) (e : elem) : list strip :=
    match e with
    | ENode n => page (slen sc) coll (nid n) x n
    | EEntry m k v =>
        let strip t w margin := mkStrip (mid m) (mid m) x ([(Name, before_nul k); mark ": "] ++ t) w margin in
        if is_container v && hidden coll v then [strip [(Mark, folded v)] (slen sc e + 2 + 7) 0]
        else match v with
             | NPrim _ p => [strip [scalar_text p] (slen sc e + 2 + slen sc (ENode v)) 0]
             | _ => match children v with
                    | [] => [strip [(Mark, hollow v)] (slen sc e + 2 + 3) 0]
                    | _ => strip [] (slen sc e) 2 :: page (slen sc) coll (mid m) (x + 2) v
                    end
             end
    end.
  Lemma page_children r x n : page (slen sc) coll r x n =
    match n with
    | NPrim _ p => [mkStrip (nid n) r x [scalar_text p] (slen sc (ENode n)) 0]
    | _ => if hidden coll n then [mkStrip (nid n) r x [(Mark, folded n)] 7 0]
           else mkStrip (nid n) r x [(Mark, opening n)] 1 0 :: flat_map (page_elem (x + 4)) (children n) ++ [mkStrip (nid n) r x [(Mark, closing n)] 1 0]
    end.
  Proof.
    destruct n as [m p|m l|m l]; cbn [page children]; [reflexivity| |]; destruct (hidden coll _); [reflexivity| |reflexivity|];
      rewrite flat_map_map; cbn [app]; f_equal; f_equal; apply flat_map_ext_F.
    intros [[em k] v] I. cbn [fst snd page_elem]. destruct v as [m' p|m' l'|m' l']; cbn [is_container andb children]; [reflexivity| |];
        destruct (hidden coll _); try reflexivity; destruct l'; reflexivity.
  Qed.
End Page.

(** * Commands and strips *)
Definition kind_of (t : Z) : kind :=
  if t =? 1 then Text else if t =? 2 then Number else if t =? 3 then Truth else if t =? 5 then Name else if t =? 7 then Nothing else Mark.

Section Fits.
  Variable root : node.
  Hypothesis M : in_memory root.
  Variable (sc : screen) (coll : list Z) (sel : option Z).
  Hypothesis W : 3 <= sw sc < 2 ^ 32.
  Hypothesis R : row_sel root sel.
  Notation h := (elems root).

  Definition fits (t : tcmd) (s : strip) : Prop :=
    cid (fst t) = holder s /\ eid (fst (snd t)) = holder s /\ cx (fst t) = column s /\ clen (fst t) = extent s /\ cw (fst t) = sw sc - margin s /\
    sel_is (csel (fst t)) (holder s) = sel_is sel (row s) /\
    texts s = map (fun p => (kind_of (fst p), snd p)) (snd (snd t)).

  Lemma Forall2_flat {A B C} (P : A -> B -> Prop) (f : C -> list A) (g : C -> list B) l :
    (forall x, In x l -> Forall2 P (f x) (g x)) -> Forall2 P (flat_map f l) (flat_map g l).
  Proof. induction l as [|x l IH]; intros E; cbn [flat_map]; [constructor|]. apply Forall2_app; [apply E; left; reflexivity|apply IH; intros y I; apply E; right; exact I]. Qed.

  (** The selection in use is the selected row, as far as what is inside [n] is
      concerned. *)
  Definition tracks (sel' : option Z) (l : list elem) : Prop := forall e, In e l -> sel_is sel' (eid e) = sel_is sel (eid e).

  Lemma scalar_piece m p : [(kind_of (node_type (NPrim m p)), c_str (prim_text (NPrim m p)))] = [scalar_text p].
  Proof. unfold scalar_text, prim_text. rewrite c_str_nul. destruct p; reflexivity. Qed.
  Lemma mark_type n : is_container n = true -> kind_of (node_type n) = Mark.
  Proof. destruct n; [discriminate|reflexivity|reflexivity]. Qed.

  Lemma tprog_page n : forall x r sel', In (ENode n) h -> sel_is sel' (nid n) = sel_is sel r -> tracks sel' (flat_map eelems (children n)) ->
    Forall2 fits (tprog sc coll x sel' n) (page (slen sc) coll r x n).
  Proof.
    induction n as [n IH] using node_kids_ind. intros x r sel' I S T. rewrite tprog_children, page_children.
    assert (Q : Forall2 fits (flat_map (tprog_elem sc coll (x + INDENT_LEVEL) sel') (children n)) (flat_map (page_elem sc coll (x + 4)) (children n))).
    { apply Forall2_flat. intros e J. specialize (IH e J). assert (E := kid_in root n e I J).
      assert (TE : tracks sel' (eelems e)). { intros y K. apply T. apply in_flat_map. eauto. }
      assert (EE := TE e (elems_head e)).
      destruct e as [v|m k v]; cbn [tprog_elem page_elem value_of eid eelems] in *.
      - apply IH; [exact E|exact EE|]. intros y K. apply TE. rewrite elems_children. right. exact K.
      - assert (V := value_in root _ E). cbn [value_of] in V. unfold tentry. change (hidden coll v) with (mem (nid v) coll).
        assert (One : forall after len t, [(kind_of (node_type v), c_str after)] = [t] ->
          Forall2 fits [tkey sc sel' (x + INDENT_LEVEL) m k v after len] [mkStrip (mid m) (mid m) (x + 4) ([(Name, before_nul k); mark ": "] ++ [t]) (slen sc (EEntry m k v) + 2 + len) 0]).
        { intros after len t Q. constructor; [|constructor]. unfold tkey, key_cmd, fits, INDENT_LEVEL. cbn [fst snd cid eid holder cx column clen extent cw margin csel row texts map app].
          rewrite <- Q, !c_str_nul. repeat split; try lia; try exact EE. }
        destruct (is_container v) eqn:C; cbn [andb negb].
        + destruct (mem (nid v) coll) eqn:F.
          * apply One. rewrite mark_type by exact C. destruct v; [discriminate C|reflexivity|reflexivity].
          * assert (L : children v <> [] -> Forall2 fits
              ((mkC (Some (EEntry m k v)) sel' (mid m) (x + INDENT_LEVEL) (slen sc (EEntry m k v)) (usub (sw sc) 2) true,
                 (EEntry m k v, [(OUT_OBJKEY, c_str k); (OUT_OBJ, str ": ")])) ::
                 tprog sc coll (x + INDENT_LEVEL + INDENT_LEVEL / 2) (if sel_is sel' (mid m) then Some (nid v) else sel') v)
              (mkStrip (mid m) (mid m) (x + 4) ([(Name, before_nul k); mark ": "] ++ []) (slen sc (EEntry m k v)) 2 :: page (slen sc) coll (mid m) (x + 4 + 2) v)).
            { intros NE. constructor.
              - unfold fits, INDENT_LEVEL. cbn [fst snd cid eid holder cx column clen extent cw margin csel row texts map app]. rewrite c_str_nul. unfold usub. rewrite Z.mod_small by lia.
                repeat split; try lia; exact EE.
              - apply (IH (x + INDENT_LEVEL + INDENT_LEVEL / 2) (mid m)); [exact V| |].
                + destruct (sel_is sel' (mid m)) eqn:SM; [cbn [sel_is]; rewrite Z.eqb_refl; exact EE|]. assert (TV := TE (ENode v) ltac:(right; rewrite elems_children; left; reflexivity)).
                  cbn [eid] in TV. rewrite TV, <- EE. apply (R m k v E).
                + intros y K. assert (K' : In y (eelems (EEntry m k v))). { right. rewrite elems_children. right. exact K. }
                  destruct (sel_is sel' (mid m)) eqn:SM; [|apply TE, K'].
                  assert (N : NoDup (ids v)). { exact (NoDup_ids_sub root v (proj2 M) V). }
                  assert (NE1 : eid y <> nid v). { intros Q. rewrite <- elems_eid, elems_children in N. cbn [map eid] in N. inversion_clear N as [|? ? N1 _]. apply N1. rewrite <- Q. apply in_map, K. }
                  assert (NE2 : eid y <> mid m).
                  { assert (N0 := NoDup_ids_sub root n (proj2 M) I). rewrite ids_children in N0. inversion_clear N0 as [|? ? _ N1]. apply in_split in J. destruct J as (l1 & l2 & J).
                    rewrite J, flat_map_app in N1. apply NoDup_app_r in N1. cbn [flat_map] in N1. apply NoDup_app_l in N1. rewrite eids_entry in N1. inversion_clear N1 as [|? ? N2 _].
                    intros Q. apply N2. rewrite <- Q, <- elems_eid, elems_children. right. apply in_map, K. }
                  cbn [sel_is]. transitivity false; [apply Z.eqb_neq; congruence|]. symmetry. destruct sel as [i|]; [|reflexivity]. cbn [sel_is] in EE |- *. apply Z.eqb_neq. lia. }
            destruct v as [m' p'|m' l'|m' l']; [discriminate C| |];
              match goal with |- context [children ?v] => destruct (children v) eqn:K; [apply One; reflexivity|apply L; discriminate] end.
        + destruct v as [m' p'| |]; [|discriminate C|discriminate C]. apply One, scalar_piece. }
    assert (One : forall e t len text, kind_of (node_type n) = fst t -> text = snd t ->
      fits (mkC e sel' (nid n) x len (sw sc) false, (ENode n, [(node_type n, text)])) (mkStrip (nid n) r x [t] len 0)).
    { intros e [k t] len text Q1 Q2. cbn [fst snd] in Q1, Q2. unfold fits. cbn [fst snd cid eid holder cx column clen extent cw margin csel row texts map]. rewrite Q1, Q2. repeat split; try lia; exact S. }
    assert (Box : is_container n = true -> Forall2 fits (tbox sc coll sel' n x (flat_map (tprog_elem sc coll (x + INDENT_LEVEL) sel') (children n)))
      (if hidden coll n then [mkStrip (nid n) r x [(Mark, folded n)] 7 0]
           else mkStrip (nid n) r x [(Mark, opening n)] 1 0 :: flat_map (page_elem sc coll (x + 4)) (children n) ++ [mkStrip (nid n) r x [(Mark, closing n)] 1 0])).
    { intros C. unfold tbox. change (hidden coll n) with (mem (nid n) coll). assert (MT := mark_type n C). destruct (mem (nid n) coll).
      - constructor; [apply One; [exact MT|reflexivity]|constructor].
      - constructor; [apply One; [exact MT|reflexivity]|]. apply Forall2_app; [exact Q|]. constructor; [apply One; [exact MT|reflexivity]|constructor]. }
    destruct n as [m p|m l|m l]; [|apply Box; reflexivity|apply Box; reflexivity].
    constructor; [|constructor]. assert (SP := scalar_piece m p). apply One; [destruct p; reflexivity|]. injection SP as _ SP2. exact SP2.
  Qed.
End Fits.

(** * Where strips go *)
Lemma stacked_app w l s : forall y, stacked w y (l ++ [s]) = stacked w y l ++ [(y + total_lines w l, s)].
Proof.
  induction l as [|a l IH]; intros y; cbn [app stacked total_lines fold_right].
  - rewrite Z.add_0_r. reflexivity.
  - rewrite IH. cbn [app]. do 4 f_equal. unfold total_lines. lia.
Qed.
Lemma total_app w l s : total_lines w (l ++ [s]) = total_lines w l + lines_of w s.
Proof. unfold total_lines. induction l as [|a l IH]; cbn [app fold_right]; [lia|]. rewrite IH. lia. Qed.

Section Run.
  Variable root : node.
  Variable (sc : screen) (coll res : list Z) (enabled : bool) (sel : option Z).
  Hypothesis HS : 2 <= sh sc < 2 ^ 32.
  Notation h := (elems root).
  Notation w := (sw sc).

  Lemma piece_as t s y : fits sc sel t s -> mkPrinted y (cx (fst t)) (pieces_of res enabled t) = shown_as enabled sel res (y, s).
  Proof.
    intros (_ & F2 & F3 & _ & _ & F6 & F7). unfold shown_as, pieces_of. cbn [fst snd]. rewrite F3, F7, map_map. f_equal. apply map_ext. intros [k b]. cbn [fst snd].
    unfold print_as, retype, getFlag. cbn [flag_selected flag_searched flag_type]. rewrite F2.
    f_equal; [exact F6|].
    unfold pair_of, mem. destruct (existsb _ res); [reflexivity|]. unfold colors. destruct enabled; [|reflexivity].
    unfold kind_of, OUT_NUMBER, OUT_BOOL, OUT_STRING, OUT_OBJKEY, OUT_NULL. cbn [existsb].
    destruct (k =? 1) eqn:K1; [apply Z.eqb_eq in K1; subst; reflexivity|]. destruct (k =? 2) eqn:K2; [apply Z.eqb_eq in K2; subst; reflexivity|].
    destruct (k =? 3) eqn:K3; [apply Z.eqb_eq in K3; subst; reflexivity|]. destruct (k =? 5) eqn:K5; [apply Z.eqb_eq in K5; subst; reflexivity|].
    destruct (k =? 7) eqn:K7; [apply Z.eqb_eq in K7; subst; reflexivity|]. reflexivity.
  Qed.

  Record inv (p : pst) (above shown : list strip) : Prop := {
    inv_y : dy (pd p) = 1 + Z.of_nat (length above) + total_lines w shown;
    inv_cells : pcells p = rev (map (shown_as enabled sel res) (stacked w 1 shown));
    inv_lines : dlines (pd p) = rev (map (listed_as sel) (stacked w 1 shown));
    inv_total : 0 <= total_lines w shown;
    inv_top : (shown = [] /\ Z.of_nat (length above) <= dscroll (pd p)) \/ Z.of_nat (length above) = dscroll (pd p);
    inv_in : Forall (fun q => 1 <= fst q <= sh sc - 1) (stacked w 1 shown) }.

  Lemma tstep_inv t s p b p' above shown : fits sc sel t s ->
    0 <= cx (fst t) < 2 ^ 30 -> 0 <= clen (fst t) <= 2 ^ 31 + 2 -> 1 <= cw (fst t) < 2 ^ 32 ->
    inv p above shown -> geo sc (pd p) -> tstep h sc res enabled t p = Some (b, p') ->
    exists above' shown', above ++ shown ++ [s] = above' ++ shown' /\ inv p' above' shown' /\ (b = true -> geo sc (pd p')) /\
      (b = false -> at_bottom sc (pd p') = true).
  Proof.
    intros F X L C [I1 I2 I3 I4 I5 I6] G E. unfold tstep in E. destruct (step h sc (fst t) (pd p)) as [[b1 d]|] eqn:S; [|discriminate E]. cbn [obind] in E. injection E as <- <-.
    destruct (step_spec _ _ _ _ _ _ S) as (_ & SC & LN & B1 & _). destruct (step_geo _ _ _ _ _ _ HS G S) as (_ & _ & GE).
    assert (CY := chk_dy root (fst t) (pd p)).
    destruct G as (G1 & G2 & G3). unfold at_bottom in G3. apply bottom_false in G3. unfold usub in G3. rewrite Z.mod_small in G3 by lia.
    unfold printing. cbn [pd pcells]. destruct LN as [(L1 & L2 & L3)|(L1 & (k & K & L2) & L3)].
    - assert (Y : dy (chk h (fst t) (pd p)) <=? dscroll (chk h (fst t) (pd p)) = true) by lia. rewrite Y.
      destruct (chk_scroll root (fst t) (pd p)) as [Q|(_ & _ & Q1 & Q2)]; [|destruct (dy (pd p) =? 0) eqn:Y0; lia].
      assert (SH : shown = []). { destruct I5 as [[-> _]|I5]; [reflexivity|]. lia. }
      subst shown. cbn [app total_lines fold_right] in *. exists (above ++ [s]), []. split; [rewrite app_nil_r; reflexivity|]. split; [|auto].
      constructor; cbn [pd pcells]; rewrite ?app_length; cbn [length stacked map rev total_lines fold_right]; try assumption; try lia.
      + rewrite L3. exact I3.
      + left. split; [reflexivity|lia].
    - assert (Y : dy (chk h (fst t) (pd p)) <=? dscroll (chk h (fst t) (pd p)) = false) by lia. rewrite Y.
      assert (A : Z.of_nat (length above) = dscroll d).
      { destruct (chk_scroll root (fst t) (pd p)) as [Q|(_ & _ & Q1 & Q2)]; rewrite SC.
        - rewrite Q in *. destruct I5 as [[-> I5]|I5]; [cbn [total_lines fold_right] in I1; lia|exact I5].
        - rewrite Q2. destruct (dy (pd p) =? 0) eqn:Y0; [lia|]. destruct I5 as [[-> I5]|I5]; [cbn [total_lines fold_right] in I1; lia|lia]. }
      assert (LO : k = lines_of w s /\ 0 <= k).
      { destruct F as (_ & _ & F3 & F4 & F5 & _). split; [|exact (nb_nonneg _ _ _ K)]. unfold lines_of. rewrite <- F3, <- F4, <- F5.
        assert (N := nb_lines (clen (fst t) + cx (fst t)) (cw (fst t)) ltac:(lia) C). rewrite Z.add_comm with (n := cx (fst t)).
        assert (FIT : (clen (fst t) + cx (fst t) + cw (fst t) - 1) / cw (fst t) < 2 ^ 32).
        { apply Z.div_lt_upper_bound; [lia|]. clear - X L C. nia. }
        specialize (N FIT). congruence. }
      destruct LO as [LO K0].
      exists above, (shown ++ [s]). split; [reflexivity|]. split; [|auto].
      constructor; cbn [pd pcells].
      + rewrite total_app. lia.
      + rewrite stacked_app, map_app, rev_app_distr. cbn [map rev app]. f_equal; [|exact I2].
        rewrite <- (piece_as t s _ F). f_equal. rewrite CY, <- SC. lia.
      + rewrite L3, stacked_app, map_app, rev_app_distr. cbn [map rev app]. f_equal; [|exact I3].
        unfold listed_as. cbn [fst snd]. destruct F as (F1 & _ & _ & _ & _ & F6 & _). rewrite F1, F6. f_equal. f_equal. lia.
      + rewrite total_app. lia.
      + right. exact A.
      + rewrite stacked_app. apply Forall_app. split; [exact I6|]. constructor; [|constructor]. cbn [fst].
        destruct (chk_scroll root (fst t) (pd p)) as [Q|(_ & _ & Q1 & Q2)].
        * lia.
        * destruct I5 as [[-> I5]|I5]; [|lia]. cbn [total_lines fold_right] in *. lia.
  Qed.

  Lemma texec_inv tl sl : Forall2 (fits sc sel) tl sl ->
    (forall c, In c tl -> 0 <= cx (fst c) < 2 ^ 30 /\ 0 <= clen (fst c) <= 2 ^ 31 + 2 /\ 1 <= cw (fst c) < 2 ^ 32) ->
    forall p b p' above shown, inv p above shown -> geo sc (pd p) -> texec h sc res enabled tl p = Some (b, p') ->
    exists above' shown' below, above ++ shown ++ sl = above' ++ shown' ++ below /\ inv p' above' shown' /\
      (b = true -> below = []) /\ (b = false -> at_bottom sc (pd p') = true).
  Proof.
    induction 1 as [|t s tl sl F FF IH]; intros B p b p' above shown I G E; cbn [texec] in E.
    - injection E as <- <-. exists above, shown, []. rewrite app_nil_r. split; [reflexivity|]. split; [exact I|]. split; [reflexivity|discriminate].
    - destruct (tstep h sc res enabled t p) as [[b1 p1]|] eqn:T; [|discriminate E]. cbn [obind] in E.
      destruct (B t (or_introl eq_refl)) as (B1 & B2 & B3). destruct (tstep_inv t s p b1 p1 above shown F B1 B2 B3 I G T) as (a1 & s1 & Q1 & I1 & G1 & N1).
      assert (Q2 : above ++ shown ++ s :: sl = a1 ++ s1 ++ sl).
      { change (s :: sl) with ([s] ++ sl). rewrite (app_assoc shown), (app_assoc above), Q1, <- app_assoc. reflexivity. }
      destruct b1.
      + destruct (IH (fun c J => B c (or_intror J)) p1 b p' a1 s1 I1 (G1 eq_refl) E) as (a2 & s2 & bl & Q3 & R). exists a2, s2, bl. split; [congruence|exact R].
      + injection E as <- <-. exists a1, s1, sl. split; [exact Q2|]. split; [exact I1|]. split; [discriminate|exact N1].
  Qed.
End Run.

Lemma screen_page root sc colours v0 v : in_memory root -> roomy root sc -> 2 <= sh sc < 2 ^ 32 -> on_row root v0 -> 0 <= vscroll v0 ->
  redraw root sc v0 = Some (true, v) ->
  exists above shown below, page (slen sc) (vcoll v) (nid root) 0 root = above ++ shown ++ below /\
    Z.of_nat (length above) = vscroll v /\
    painted root colours sc v0 = Some (map (shown_as colours (vsel v) (vres v)) (stacked (sw sc) 1 shown)) /\
    vlines v = rev (map (listed_as (vsel v)) (stacked (sw sc) 1 shown)) /\
    Forall (fun p => 1 <= fst p <= sh sc - 1) (stacked (sw sc) 1 shown) /\
    (below = [] \/ sh sc - 1 <= total_lines (sw sc) shown).
Proof.
  intros M RO HS (i & SE & VI) T RD. assert (RS := visible_row_sel root M _ _ VI).
  destruct (redraw_same root _ _ _ _ RD) as (E1 & E2 & E3). rewrite E1, E2, E3.
  destruct (redraw_shown root M sc v0 v i HS T RD SE VI) as (line & ON & _).
  unfold redraw in RD. rewrite (draw_exec (mem_of root) sc (vcoll v0) root) in RD. change (mem_of root) with (elems root) in RD.
  unfold painted. change (mem_of root) with (elems root). rewrite paint_exec.
  set (p0 := mkP (mkD 1 (vscroll v0) None None false []) []).
  assert (TE := texec_exec (elems root) sc (vres v0) colours (tprog sc (vcoll v0) 0 (vsel v0) root) p0). rewrite tprog_prog in TE.
  change (pd p0) with (mkD 1 (vscroll v0) None None false []) in TE. rewrite <- TE in RD. clear TE.
  destruct (texec (elems root) sc (vres v0) colours (tprog sc (vcoll v0) 0 (vsel v0) root) p0) as [[b p]|] eqn:TX; [|discriminate RD]. cbn [option_map obind fst snd] in RD |- *.
  assert (FI : Forall2 (fits sc (vsel v0)) (tprog sc (vcoll v0) 0 (vsel v0) root) (page (slen sc) (vcoll v0) (nid root) 0 root)).
  { apply (tprog_page root M sc (vcoll v0) (vsel v0) (proj1 RO)); [rewrite SE; exact RS|apply root_in|reflexivity|intros e _; reflexivity]. }
  assert (G : geo sc (pd p0)).
  { unfold geo, at_bottom, hasReachedBottom, usub. cbn [p0 pd dy dscroll]. rewrite Z.mod_small by lia. split; [lia|]. split; [lia|].
    destruct (vscroll v0 <=? 1) eqn:Q; lia. }
  assert (I0 : inv sc (vres v0) colours (vsel v0) p0 [] []).
  { constructor; cbn [p0 pd dy dscroll pcells dlines length stacked map rev total_lines fold_right]; try reflexivity; try lia; [left; split; [reflexivity|lia]|constructor]. }
  assert (B : forall c, In c (tprog sc (vcoll v0) 0 (vsel v0) root) -> 0 <= cx (fst c) < 2 ^ 30 /\ 0 <= clen (fst c) <= 2 ^ 31 + 2 /\ 1 <= cw (fst c) < 2 ^ 32).
  { intros c J. assert (J' : In (fst c) (prog sc (vcoll v0) 0 (vsel v0) root)) by (rewrite <- tprog_prog; apply in_map, J).
    destruct (prog_cmd root sc (vcoll v0) root RO 0 (vsel v0) _ ltac:(lia) J') as (Q1 & Q2 & Q3). destruct RO as (R1 & _ & R3). clear - Q1 Q2 Q3 R1 R3. lia. }
  destruct (texec_inv root sc (vres v0) colours (vsel v0) HS _ _ FI B p0 b p [] [] I0 G TX) as (above & shown & below & Q & IV & BT & BB).
  cbn [app] in Q. exists above, shown, below. split; [exact Q|].
  assert (FIN : vscroll v = dscroll (pd p) /\ vlines v = dlines (pd p)).
  { destruct (negb b && negb (dfound (pd p))); [discriminate RD|].
    destruct (match ddown (pd p) with Some d => _ | None => _ end) as [down|]; [|discriminate RD]. cbn [obind] in RD. injection RD as <-. split; reflexivity. }
  destruct FIN as [F1 F2]. destruct IV as [V1 V2 V3 V4 V5 V6]. rewrite F1, F2.
  assert (TOP : Z.of_nat (length above) = dscroll (pd p)).
  { destruct V5 as [[-> _]|V5]; [|exact V5]. rewrite F2, V3 in ON. destruct ON. }
  split; [exact TOP|]. split; [rewrite V2, rev_involutive; reflexivity|]. split; [exact V3|]. split; [exact V6|].
  destruct b; [left; auto|]. right. specialize (BB eq_refl). unfold at_bottom, hasReachedBottom, usub in BB. rewrite Z.mod_small in BB by lia. lia.
Qed.

(** The rows of the page. *)
Lemma page_rows sc coll n : forall r x i, In i (map row (page (slen sc) coll r x n)) <-> i = r \/ In i (inside coll n).
Proof.
  induction n as [n IH] using node_kids_ind. intros r x i. rewrite page_children, inside_children.
  assert (Q : In i (map row (flat_map (page_elem sc coll (x + 4)) (children n))) <-> In i (rowsL coll (children n))).
  { induction (children n) as [|e l IHl]; [reflexivity|]. cbn [flat_map]. rewrite map_app, in_app_iff, rowsL_cons, in_app_iff, IHl by (intros y J; apply IH; right; exact J).
    apply or_iff_compat_r. specialize (IH e (or_introl eq_refl)). destruct e as [v|m k v]; cbn [page_elem rows_elem eid value_of] in *.
    - rewrite IH. unfold rows_elem. cbn [eid value_of In]. clear. split; (intros [E|J]; [left; congruence|right; exact J]).
    - unfold rows_elem. cbn [eid value_of]. change (hidden coll v) with (mem (nid v) coll). rewrite inside_children.
      destruct v as [m' p|m' l'|m' l']; cbn [is_container andb].
      + cbn [map row children In]. destruct (mem _ coll); cbn [In rowsL flat_map]; intuition congruence.
      + destruct (mem _ coll) eqn:F; [cbn; intuition congruence|]. destruct (children (NArr m' l')) eqn:C; [cbn; intuition congruence|].
        cbn [map row]. cbn [In]. rewrite IH, inside_children, F, C. intuition congruence.
      + destruct (mem _ coll) eqn:F; [cbn; intuition congruence|]. destruct (children (NObj m' l')) eqn:C; [cbn; intuition congruence|].
        cbn [map row]. cbn [In]. rewrite IH, inside_children, F, C. intuition congruence. }
  change (hidden coll n) with (mem (nid n) coll).
  destruct n as [m p|m l|m l]; [change (children (NPrim m p)) with (@nil elem); destruct (mem _ coll); cbn; intuition congruence| |];
    (destruct (mem _ coll); [cbn; intuition congruence|]); cbn [map row In]; rewrite map_app, in_app_iff, Q; cbn [map row In]; intuition congruence.
Qed.

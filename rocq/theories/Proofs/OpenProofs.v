(** From the bytes of a file to the first screen. *)
From Verif Require Export Spec.OpenSpec.
From Verif Require Import Proofs.LookProofs Proofs.ReachProofs Proofs.PressProofs Proofs.ParserTree Proofs.GrammarProps.
From Coq Require Import Lia ZifyBool.
Open Scope Z_scope.

Lemma depth_nesting n : depth (erase n) = nesting n.
Proof.
  induction n as [m p|m l IH|m l IH] using node_ind'; cbn [erase depth nesting]; [reflexivity| |].
  - f_equal. induction IH as [|x l Hx Hl IHl]; [reflexivity|]. cbn. rewrite Hx. f_equal. exact IHl.
  - f_equal. induction IH as [|x l Hx Hl IHl]; [reflexivity|]. cbn. rewrite Hx. f_equal. exact IHl.
Qed.

Section Open.
  Variable sc : screen.
  Notation pg := (page (slen sc) []).
  Notation pe := (page_elem sc []).
  Definition seen (i : Z) (s : strip) : bool * Z * list (kind * bytes) := (is_selected (Some i) s, column s, texts s).

  Definition sketch_elem (x : Z) (e : elem) : list (bool * Z * list (kind * bytes)) :=
    match e with
    | ENode v => sketch false x (erase v)
    | EEntry _ k v =>
        let line t := (false, x, [(Name, before_nul k); mark ": "] ++ t) in
        match erase v with
        | TPrim p => [line [scalar_text p]]
        | TArr inner => match inner with [] => [line [mark "[ ]"]] | _ => line [] :: sketch false (x + 2) (erase v) end
        | TObj inner => match inner with [] => [line [mark "{ }"]] | _ => line [] :: sketch false (x + 2) (erase v) end
        end
    end.

  Lemma sketch_children b x n : sketch b x (erase n) =
    match n with
    | NPrim _ p => [(b, x, [scalar_text p])]
    | NArr _ _ => (b, x, [mark "["]) :: flat_map (sketch_elem (x + 4)) (children n) ++ [(b, x, [mark "]"])]
    | NObj _ _ => (b, x, [mark "{"]) :: flat_map (sketch_elem (x + 4)) (children n) ++ [(b, x, [mark "}"])]
    end.
  Proof.
    destruct n as [m p|m l|m l]; cbn [erase sketch children]; [reflexivity| |]; do 2 f_equal; rewrite !flat_map_concat_map; f_equal; rewrite !map_map; reflexivity.
  Qed.

  Lemma seen_page i n : forall r x, (forall j, In j (inside [] n) -> j <> i) -> map (seen i) (pg r x n) = sketch (i =? r) x (erase n).
  Proof.
    induction n as [n IH] using node_kids_ind. intros r x N. rewrite page_children, sketch_children.
    assert (Q : map (seen i) (flat_map (pe (x + 4)) (children n)) = flat_map (sketch_elem (x + 4)) (children n)).
    { assert (N' : forall e, In e (children n) -> forall j, j = eid e \/ In j (inside [] (value_of e)) -> j <> i).
      { intros e I j J. apply N. rewrite inside_children. cbn [mem existsb]. unfold rowsL. apply in_flat_map. exists e. split; [exact I|]. unfold rows_elem. destruct J as [->|J]; [left; reflexivity|right; exact J]. }
      clear N. induction (children n) as [|e l IHl]; [reflexivity|]. cbn [flat_map]. rewrite map_app, IHl; [|intros; apply IH; [right; assumption|assumption]|intros; eapply N'; [right; eassumption|eassumption]].
      f_equal. assert (I1 := IH e (or_introl eq_refl)). assert (N1 := N' e (or_introl eq_refl)). clear IH N' IHl.
      assert (E1 : forall y, map (seen i) (pg (eid e) y (value_of e)) = sketch false y (erase (value_of e))).
      { intros y. rewrite I1 by (intros j J; apply N1; right; exact J). f_equal. apply Z.eqb_neq. intros E. exact (N1 (eid e) (or_introl eq_refl) (eq_sym E)). }
      destruct e as [v|m k v]; cbn [eid value_of] in *; [exact (E1 (x + 4))|].
      assert (SF : is_selected (Some i) (mkStrip 0 (mid m) 0 [] 0 0) = false) by (cbn [is_selected row]; apply Z.eqb_neq; intros E; exact (N1 (mid m) (or_introl eq_refl) (eq_sym E))).
      cbn [is_selected row] in SF.
      cbn [page_elem hidden existsb sketch_elem]. rewrite Bool.andb_false_r. destruct v as [m' p|m' [|y l']|m' [|y l']];
        [unfold seen; cbn; rewrite SF; reflexivity|unfold seen; cbn; rewrite SF; reflexivity| |unfold seen; cbn; rewrite SF; reflexivity|];
        (rewrite <- E1; cbn [children map erase]; unfold seen at 1; cbn [is_selected row column texts]; rewrite SF; reflexivity). }
    destruct n as [m p|m l|m l]; cbn [hidden existsb map]; [reflexivity| |]; unfold seen at 1; cbn [is_selected row column texts]; f_equal; rewrite map_app, Q; reflexivity.
  Qed.

  (** Lines that are no longer than the window take one line of it. *)
  Hypothesis W : 3 <= sw sc.
  Hypothesis ME : measures sc.
  Definition short_enough (s : strip) : Prop := column s + fold_right (fun t n => Z.of_nat (length (snd t)) + n) 0 (texts s) <= sw sc.
  Definition one_line (s : strip) : Prop := lines_of (sw sc) s = 1.

  Lemma one_line_is s : 0 < column s + extent s -> column s + extent s + margin s <= sw sc -> 0 <= margin s <= 2 -> one_line s.
  Proof.
    intros A B C. unfold one_line, lines_of.
    replace (column s + extent s + (sw sc - margin s) - 1) with (1 * (sw sc - margin s) + (column s + extent s - 1)) by lia.
    rewrite Z.div_add_l by lia. rewrite Z.div_small by lia. reflexivity.
  Qed.
  Lemma mark_length (s : String.string) : Z.of_nat (length (snd (mark s))) = Z.of_nat (length (str s)).
  Proof. reflexivity. Qed.

  Lemma page_one_line n : forall r x, 0 <= x -> (is_container n = true \/ 0 < x) -> Forall short_enough (pg r x n) -> Forall one_line (pg r x n).
  Proof.
    destruct ME as (M1 & M2).
    induction n as [n IH] using node_kids_ind. intros r x X NE. rewrite page_children. intros F.
    assert (Q : Forall short_enough (flat_map (pe (x + 4)) (children n)) -> Forall one_line (flat_map (pe (x + 4)) (children n))).
    { clear F NE. intros F. apply Forall_flat_map, Forall_forall. intros e I. rewrite Forall_flat_map, Forall_forall in F. specialize (F e I). specialize (IH e I).
      destruct e as [v|m k v]; cbn [page_elem value_of hidden existsb] in *.
      - apply IH; [lia|right; lia|exact F].
      - rewrite Bool.andb_false_r in *.
        assert (N0 := Nat2Z.is_nonneg (length (before_nul k))). assert (K := M2 (EEntry m k v)). assert (K0 := M1 (EEntry m k v)). cbn [etext] in K.
        destruct v as [m' p|m' [|y l]|m' [|y l]]; cbn [children map] in *.
        + assert (K' := M2 (ENode (NPrim m' p))). cbn [etext erase] in K'. assert (N1 := Nat2Z.is_nonneg (length (before_nul (tree_string (TPrim p))))).
          assert (S0 := Forall_inv F). unfold short_enough in S0. cbn [column texts fold_right scalar_text fst app] in S0.
          change (Z.of_nat (length (snd (mark ": ")))) with 2 in S0. cbn [snd] in S0.
          change (snd (scalar_text p)) with (before_nul (tree_string (TPrim p))) in S0.
          constructor; [|constructor]. apply one_line_is; cbn [column extent margin]; rewrite ?K, ?K' by lia; lia.
        + assert (S0 := Forall_inv F). unfold short_enough in S0. cbn [column texts fold_right fst snd app] in S0.
          change (Z.of_nat (length (snd (mark ": ")))) with 2 in S0. change (Z.of_nat (length (hollow (NArr m' [])))) with 3 in S0. cbn [snd] in S0.
          constructor; [|constructor]. apply one_line_is; cbn [column extent margin]; rewrite ?K by lia; lia.
        + inversion_clear F as [|? ? S0 S1]. unfold short_enough in S0. cbn [column texts fold_right fst snd app] in S0.
          change (Z.of_nat (length (snd (mark ": ")))) with 2 in S0. cbn [snd] in S0.
          constructor; [apply one_line_is; cbn [column extent margin]; rewrite ?K by lia; lia|]. apply IH; [lia|left; reflexivity|exact S1].
        + assert (S0 := Forall_inv F). unfold short_enough in S0. cbn [column texts fold_right fst snd app] in S0.
          change (Z.of_nat (length (snd (mark ": ")))) with 2 in S0. change (Z.of_nat (length (hollow (NObj m' [])))) with 3 in S0. cbn [snd] in S0.
          constructor; [|constructor]. apply one_line_is; cbn [column extent margin]; rewrite ?K by lia; lia.
        + inversion_clear F as [|? ? S0 S1]. unfold short_enough in S0. cbn [column texts fold_right fst snd app] in S0.
          change (Z.of_nat (length (snd (mark ": ")))) with 2 in S0. cbn [snd] in S0.
          constructor; [apply one_line_is; cbn [column extent margin]; rewrite ?K by lia; lia|]. apply IH; [lia|left; reflexivity|exact S1]. }
    destruct n as [m p|m l|m l]; cbn [hidden existsb] in *.
    - assert (K' := M2 (ENode (NPrim m p))). cbn [etext erase] in K'. assert (N1 := Nat2Z.is_nonneg (length (before_nul (tree_string (TPrim p))))).
      assert (S0 := Forall_inv F). unfold short_enough in S0. cbn [column texts fold_right scalar_text snd fst] in S0.
      constructor; [|constructor]. destruct NE as [NE|NE]; [discriminate|]. apply one_line_is; cbn [column extent margin]; rewrite ?K' by lia; lia.
    - inversion_clear F as [|? ? S0 F1]. apply Forall_app in F1. destruct F1 as (F1 & F2). unfold short_enough in S0. cbn in S0.
      constructor; [apply one_line_is; cbn [column extent margin]; lia|]. apply Forall_app. split; [apply Q, F1|]. constructor; [|constructor]. apply one_line_is; cbn [column extent margin]; lia.
    - inversion_clear F as [|? ? S0 F1]. apply Forall_app in F1. destruct F1 as (F1 & F2). unfold short_enough in S0. cbn in S0.
      constructor; [apply one_line_is; cbn [column extent margin]; lia|]. apply Forall_app. split; [apply Q, F1|]. constructor; [|constructor]. apply one_line_is; cbn [column extent margin]; lia.
  Qed.

  Lemma stacked_ones l : Forall one_line l -> forall y, stacked (sw sc) y l = one_per_line y l /\ total_lines (sw sc) l = Z.of_nat (length l).
  Proof.
    induction 1 as [|s l H F IH]; intros y; [split; reflexivity|]. destruct (IH (y + 1)) as (E1 & E2). cbn [stacked one_per_line length]. unfold one_line in H. rewrite H, E1. split; [reflexivity|].
    change (lines_of (sw sc) s + total_lines (sw sc) l = Z.of_nat (S (length l))). lia.
  Qed.
End Open.

Lemma ones_lines {A} (P : Z * A -> Prop) l : forall y, Forall P (one_per_line y l) -> forall k s, nth_error l k = Some s -> P (y + Z.of_nat k, s).
Proof.
  induction l as [|x l IH]; intros y F [|k] s N; try discriminate; cbn [one_per_line nth_error] in *; inversion_clear F as [|? ? P1 F1].
  - injection N as <-. replace (y + Z.of_nat 0) with y by lia. exact P1.
  - replace (y + Z.of_nat (S k)) with (y + 1 + Z.of_nat k) by lia. apply IH; assumption.
Qed.
Lemma ones_map {A B} (f : A -> B) l : forall y, one_per_line y (map f l) = map (fun p => (fst p, f (snd p))) (one_per_line y l).
Proof. induction l as [|x l IH]; intros y; [reflexivity|]. cbn [map one_per_line fst snd]. f_equal. apply IH. Qed.

Section First.
  Variable (rx : bytes -> bool -> bytes -> bool) (root : node) (sc : screen).
  Hypothesis M : in_memory root.
  Hypothesis W : 3 <= sw sc < 2 ^ 32.
  Hypothesis HH : 2 <= sh sc < 2 ^ 32.
  Hypothesis ME : measures sc.
  Hypothesis DE : Z.of_nat (depth (erase root)) < 2 ^ 27.
  Lemma first_page colours : exists v0 v shown below, run rx root sc view0 [] = Waiting sc v false /\ redraw root sc v0 = Some (true, v) /\
    page (slen sc) [] (nid root) 0 root = shown ++ below /\ map (seen (nid root)) (page (slen sc) [] (nid root) 0 root) = sketch true 0 (erase root) /\
    painted root colours sc v0 = Some (map (shown_as colours (Some (nid root)) []) (stacked (sw sc) 1 shown)) /\
    Forall (fun p => 1 <= fst p <= sh sc - 1) (stacked (sw sc) 1 shown) /\ (below = [] \/ sh sc - 1 <= total_lines (sw sc) shown).
  Proof.
    assert (RO : roomy root sc) by (split; [exact W|split; [apply ME|rewrite <- depth_nesting; exact DE]]).
    unfold run. cbv zeta. cbn [vcoll vres vup vdown vlast vlines view0].
    set (v1 := mkView (Some (nid root)) 0 [] [] None None false []).
    assert (IR : In (nid root) (rows [] root)) by (left; reflexivity).
    destruct (DocumentProofs.redraw_ends root sc v1 (nid root) M RO eq_refl) as (v & L); [rewrite <- elems_eid; apply (in_map eid _ _ (root_in root))|cbn; lia|].
    rewrite L. assert (PO := page_open sc (nid root) 0 root). destruct PO as (s & t & PO & _ & _).
    assert (HS : holder s = nid root). { rewrite page_children in PO. destruct root as [m p|m l|m l]; cbn [hidden existsb] in PO; injection PO as <- _; reflexivity. }
    assert (SC := loop_scroll root sc M RO _ v1 v (nid root) [] s t L eq_refl IR ltac:(cbn; lia) PO HS ltac:(intros [])). cbn [vscroll v1 length] in SC.
    destruct (LoopProofs.loop_result root _ sc v1 v L ltac:(cbn; lia)) as (v0 & RD & E1 & E2 & E3 & T0). cbn [vsel vcoll vres v1] in E1, E2, E3.
    destruct (ViewProofs.redraw_same root sc v0 true v RD) as (G1 & G2 & G3).
    assert (ON : on_row root v0) by (exists (nid root); rewrite E1, E2; auto).
    destruct (PageProofs.screen_page root sc colours v0 v M RO HH ON T0 RD) as (above & shown & below & Q1 & Q2 & Q3 & _ & Q4 & Q5).
    assert (above = []) by (destruct above; [reflexivity|cbn [length] in Q2; lia]). subst above. cbn [app] in Q1.
    rewrite G1, G3, E1, E3 in Q3. rewrite G2, E2 in Q1.
    assert (NI : forall j, In j (inside [] root) -> j <> nid root).
    { intros j J ->. assert (ND := rows_NoDup root M []). unfold rows in ND. inversion ND. contradiction. }
    assert (SE := seen_page sc (nid root) root (nid root) 0 NI). rewrite Z.eqb_refl in SE. 
    exists v0, v, shown, below. split; [reflexivity|]. auto 8.
  Qed.

  Lemma one_each colours shown below : narrow (sw sc) (erase root) ->
    page (slen sc) [] (nid root) 0 root = shown ++ below -> map (seen (nid root)) (page (slen sc) [] (nid root) 0 root) = sketch true 0 (erase root) ->
    Forall (fun p => 1 <= fst p <= sh sc - 1) (stacked (sw sc) 1 shown) -> (below = [] \/ sh sc - 1 <= total_lines (sw sc) shown) ->
    map (shown_as colours (Some (nid root)) []) (stacked (sw sc) 1 shown) = map (drawn_as colours) (one_per_line 1 (firstn (Z.to_nat (sh sc - 1)) (sketch true 0 (erase root)))).
  Proof.
    intros NA Q1 SE Q4 Q5.
    assert (FI : firstn (Z.to_nat (sh sc - 1)) (page (slen sc) [] (nid root) 0 root) = shown /\ stacked (sw sc) 1 shown = one_per_line 1 shown).
    { assert (CR : is_container root = true \/ exists m p, root = NPrim m p) by (destruct root; [right; eauto|left; reflexivity|left; reflexivity]).
      destruct CR as [CR|(m & p & CR)].
      - assert (OL : Forall (one_line sc) (page (slen sc) [] (nid root) 0 root)).
        { apply (page_one_line sc (proj1 W) ME); [lia|left; exact CR|]. unfold narrow in NA. rewrite <- SE in NA. rewrite Forall_map in NA. exact NA. }
        rewrite Q1 in OL. apply Forall_app in OL. destruct OL as (OL & _). destruct (stacked_ones sc shown OL 1) as (ST & TL). split; [|exact ST].
        rewrite ST in Q4. rewrite TL in Q5.
        assert (LE : Z.of_nat (length shown) <= sh sc - 1).
        { destruct (nth_error shown (length shown - 1)) as [z|] eqn:NZ.
          - assert (X := ones_lines (fun p => 1 <= fst p <= sh sc - 1) shown 1 Q4 _ _ NZ). cbn [fst] in X. lia.
          - apply nth_error_None in NZ. destruct shown; cbn in *; lia. }
        rewrite Q1. destruct Q5 as [->|Q5]; [rewrite app_nil_r; apply firstn_all2; lia|].
        replace (Z.to_nat (sh sc - 1)) with (length shown) by lia. rewrite firstn_app, Nat.sub_diag, firstn_all. cbn [firstn]. apply app_nil_r.
      - rewrite CR in Q1. cbn [page] in Q1. destruct shown as [|s1 shown].
        { exfalso. cbn [app] in Q1. destruct Q5 as [->|Q5]; [discriminate|]. cbn in Q5. lia. }
        injection Q1 as <- Q1. destruct shown; [|discriminate]. split; [|reflexivity]. rewrite CR. cbn [page]. destruct (Z.to_nat (sh sc - 1)) as [|k] eqn:K; [lia|]. cbn [firstn]. rewrite firstn_nil. reflexivity. }
    destruct FI as (F1 & F2). rewrite <- SE, firstn_map, F1, F2, ones_map, map_map. apply map_ext. intros [y z]. reflexivity.
  Qed.

  (** The texts, whatever the width. *)
  Lemma first_texts colours : exists v0 v ps, run rx root sc view0 [] = Waiting sc v false /\ redraw root sc v0 = Some (true, v) /\
    painted root colours sc v0 = Some ps /\ ps <> [] /\ Forall (fun q => 1 <= cline q <= sh sc - 1) ps /\
    map (fun q => (ccol q, cpieces q)) ps = firstn (length ps) (map (fun s => (ccol (drawn_as colours (0, s)), cpieces (drawn_as colours (0, s)))) (sketch true 0 (erase root))) /\
    (narrow (sw sc) (erase root) -> ps = map (drawn_as colours) (one_per_line 1 (firstn (Z.to_nat (sh sc - 1)) (sketch true 0 (erase root))))).
  Proof.
    destruct (first_page colours) as (v0 & v & shown & below & R & RD & PG & SE & PA & F & Q5). exists v0, v. eexists. split; [exact R|]. split; [exact RD|]. split; [exact PA|].
    assert (LS : forall y, length (stacked (sw sc) y shown) = length shown) by (clear; induction shown as [|s t IH]; intros y; cbn; auto).
    split.
    { intros E. apply map_eq_nil in E. assert (L := LS 1). rewrite E in L. destruct shown; [|discriminate]. destruct Q5 as [->|Q5]; [|cbn in Q5; lia]. rewrite PG in SE. cbn in SE. destruct (erase root); discriminate. }
    split; [apply Forall_map; exact F|].
    split; [|intros NA; apply (one_each colours shown below NA PG SE F Q5)].
    rewrite !map_length, LS, <- SE, PG, !map_app, firstn_app, !map_length, Nat.sub_diag. cbn [firstn]. rewrite app_nil_r, firstn_all2 by (rewrite !map_length; lia).
    rewrite !map_map. generalize 1. clear. induction shown as [|s t IH]; intros y; [reflexivity|]. cbn [stacked map]. f_equal. apply IH.
  Qed.
End First.

Lemma opened e p w0 text t rest rx colours sc :
  jval (jstring kept_ctrl (if ignoreUnicode p then kept_uni else rfc_uni)) text t -> distinct_keys t -> ws w0 -> boundary rest ->
  3 <= sw sc < 2 ^ 32 -> 2 <= sh sc < 2 ^ 32 -> measures sc ->
  exists root s' d, read_doc e (Some p) (w0 ++ text ++ rest) = Ok (Some root, s') /\ warns s' = [] /\ erase root = d /\
    (if sortObjects p then reordered d t /\ all_objects (StronglySorted byte_lt) d else d = t) /\
    (Z.of_nat (depth d) < 2 ^ 27 ->
     exists v0 v ps, run rx root sc view0 [] = Waiting sc v false /\ redraw root sc v0 = Some (true, v) /\ painted root colours sc v0 = Some ps /\ ps <> [] /\
       Forall (fun q => 1 <= cline q <= sh sc - 1) ps /\
       map (fun q => (ccol q, cpieces q)) ps = firstn (length ps) (map (fun s => (ccol (drawn_as colours (0, s)), cpieces (drawn_as colours (0, s)))) (sketch true 0 d)) /\
       (narrow (sw sc) d -> ps = map (drawn_as colours) (one_per_line 1 (firstn (Z.to_nat (sh sc - 1)) (sketch true 0 d))))).
Proof.
  intros J D W0 B W H ME. destruct (read_kept_escapes e p w0 text t rest J D W0 B) as (root & s' & R & _ & WA & E).
  exists root, s', (erase root). split; [exact R|]. split; [exact WA|]. split; [reflexivity|]. split; [destruct (sortObjects p); exact E|].
  intros DE. destruct (read_parents e _ _ _ _ R) as (L & ND & _).
  exact (first_texts rx root sc (conj L ND) W H ME DE colours).
Qed.

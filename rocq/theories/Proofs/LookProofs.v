(** Documents that look the same. *)
From Verif Require Export Spec.PageSpec Proofs.PageProofs.
From Coq Require Import Lia.
Open Scope Z_scope.

Section Look.
  Variable sc : screen.
  Notation pg := (page (slen sc) []).
  Notation pe := (page_elem sc []).

  Definition alike_elem (e e' : elem) : Prop :=
    match e, e' with
    | ENode a, ENode b => alike (erase a) (erase b)
    | EEntry _ k v, EEntry _ k' v' => before_nul k = before_nul k' /\ alike (erase v) (erase v')
    | _, _ => False
    end.

  Definition same_sort (e e' : elem) : Prop := match e, e' with ENode _, ENode _ | EEntry _ _ _, EEntry _ _ _ => True | _, _ => False end.

  Lemma page_open r x n : exists s t, pg r x n = s :: t /\ column s = x /\
    texts s = [match n with NPrim _ p => scalar_text p | NArr _ _ => mark "[" | NObj _ _ => mark "{" end].
  Proof. rewrite page_children. destruct n as [m p|m l|m l]; cbn [hidden existsb]; eexists _, _; split; try reflexivity; split; reflexivity. Qed.

  Lemma elem_open x e : exists s t, pe x e = s :: t /\ column s = x.
  Proof.
    destruct e as [n|m k v]; cbn [page_elem].
    - destruct (page_open (nid n) x n) as (s & t & E & C & _). eauto.
    - destruct (is_container v && hidden [] v); [eexists _, _; split; reflexivity|]. destruct v as [m' p|m' l|m' l]; [eexists _, _; split; reflexivity| |];
        match goal with |- context [children ?v] => destruct (children v) end; eexists _, _; split; reflexivity.
  Qed.

  Lemma scalar_kind p : fst (scalar_text p) <> Mark.
  Proof. destruct p; discriminate. Qed.

  Lemma looks_elems x y c l : y <> x -> fst c = y -> forall c' l' t t',
    (forall e, In e l -> forall e' t t', same_sort e e' -> map looks (pe x e) ++ t = map looks (pe x e') ++ t' -> alike_elem e e' /\ t = t') ->
    (forall e e', In e l -> In e' l' -> same_sort e e') -> fst c' = y ->
    map looks (flat_map (pe x) l) ++ c :: t = map looks (flat_map (pe x) l') ++ c' :: t' -> Forall2 alike_elem l l' /\ c = c' /\ t = t'.
  Proof.
    intros N C. induction l as [|e l IH]; intros c' l' t t' A S C' E.
    - destruct l' as [|e' l']; [cbn in E; injection E as -> ->; auto|]. exfalso. destruct (elem_open x e') as (s & u & E' & CC). cbn [flat_map] in E. rewrite E' in E. cbn [map app] in E.
      injection E as E _. rewrite E in C. cbn in C. congruence.
    - destruct l' as [|e' l'].
      + exfalso. destruct (elem_open x e) as (s & u & E' & CC). cbn [flat_map] in E. rewrite E' in E. cbn [map app] in E. injection E as E _. rewrite <- E in C'. cbn in C'. congruence.
      + cbn [flat_map] in E. rewrite !map_app, <- !app_assoc in E.
        destruct (A e (or_introl eq_refl) e' _ _ (S e e' (or_introl eq_refl) (or_introl eq_refl)) E) as (A1 & E1).
        destruct (IH c' l' t t' (fun y I => A y (or_intror I)) (fun a b I J => S a b (or_intror I) (or_intror J)) C' E1) as (F & Q). split; [constructor; assumption|exact Q].
  Qed.

  Lemma children_sort a b e e' : node_type a = node_type b -> In e (children a) -> In e' (children b) -> same_sort e e'.
  Proof.
    destruct a as [m p|m l|m l]; cbn [children]; [intros _ []| |]; (destruct b as [m' p'|m' l'|m' l']; cbn [children]; [intros _ _ []| |]); try discriminate;
      intros _ I J; apply in_map_iff in I, J; destruct I as (u & <- & _), J as (u' & <- & _); exact Logic.I.
  Qed.

  Lemma alike_children a b : node_type a = node_type b -> is_container a = true -> is_container b = true -> Forall2 alike_elem (children a) (children b) -> alike (erase a) (erase b).
  Proof.
    destruct a as [m p|m l|m l]; [discriminate| |]; (destruct b as [m' p'|m' l'|m' l']; [discriminate| |]); try discriminate; intros _ _ _ F; cbn [children erase] in *; constructor.
    - revert l' F. induction l as [|u l IH]; intros [|u' l'] F; try (inversion F; fail); [constructor|]. cbn [map] in *. inversion F; subst. constructor; [assumption|auto].
    - revert l' F. induction l as [|u l IH]; intros [|u' l'] F; try (inversion F; fail); [constructor|]. cbn [map] in *. inversion F; subst. constructor; [assumption|auto].
  Qed.

  Definition short (v : node) : list (kind * bytes) :=
    match v with NPrim _ p => [scalar_text p] | _ => match children v with [] => [(Mark, hollow v)] | _ => [] end end.
  Lemma entry_looks x m k v : map looks (pe x (EEntry m k v)) =
    (x, [(Name, before_nul k); mark ": "] ++ short v) :: match short v with [] => map looks (pg (mid m) (x + 2) v) | _ => [] end.
  Proof.
    cbn [page_elem hidden existsb]. rewrite Bool.andb_false_r. destruct v as [m' p|m' l|m' l]; [reflexivity| |]; unfold short;
      match goal with |- context [children ?w] => destruct (children w) end; reflexivity.
  Qed.
  Lemma short_alike v v' : short v = short v' -> short v <> [] -> alike (erase v) (erase v').
  Proof.
    destruct v as [m p|m [|y l]|m [|y l]], v' as [m' p'|m' [|y' l']|m' [|y' l']]; cbn [short children map]; intros E N; try discriminate E; try (destruct N; reflexivity).
    - constructor. congruence.
    - exfalso. apply (scalar_kind p). apply (f_equal (hd (Mark, []))) in E. cbn [hd] in E. rewrite E. reflexivity.
    - exfalso. apply (scalar_kind p). apply (f_equal (hd (Mark, []))) in E. cbn [hd] in E. rewrite E. reflexivity.
    - exfalso. apply (scalar_kind p'). apply (f_equal (hd (Mark, []))) in E. cbn [hd] in E. rewrite <- E. reflexivity.
    - constructor. constructor.
    - exfalso. apply (scalar_kind p'). apply (f_equal (hd (Mark, []))) in E. cbn [hd] in E. rewrite <- E. reflexivity.
    - constructor. constructor.
  Qed.

  Lemma looks_page a : forall b x r r' t t', map looks (pg r x a) ++ t = map looks (pg r' x b) ++ t' -> alike (erase a) (erase b) /\ t = t'.
  Proof.
    induction a as [a IH] using node_kids_ind. intros b x r r' t t' E.
    assert (EL : forall e, In e (children a) -> forall e' t t', same_sort e e' -> map looks (pe (x + 4) e) ++ t = map looks (pe (x + 4) e') ++ t' -> alike_elem e e' /\ t = t').
    { clear b E t t'. intros e I e' t t' S E. specialize (IH e I). destruct e as [v|m k v], e' as [v'|m' k' v']; try destruct S.
      - exact (IH _ _ _ _ _ _ E).
      - rewrite !entry_looks in E. cbn [app value_of alike_elem] in *. injection E as K SH R. destruct (short v) eqn:Q.
        + rewrite <- SH in R. destruct (IH _ _ _ _ _ _ R) as (A & T). auto.
        + rewrite <- SH in R. cbn [app] in R. split; [|exact R]. split; [exact K|]. apply short_alike; congruence. }
    assert (MA : forall p s, scalar_text p <> (Mark, s)) by (intros p s Q; apply (scalar_kind p); rewrite Q; reflexivity).
    assert (C : is_container a = is_container b /\ node_type a = node_type b \/ is_container a = false /\ is_container b = false).
    { destruct (page_open r x a) as (s & u & E1 & _ & T1), (page_open r' x b) as (s' & u' & E2 & _ & T2). rewrite E1, E2 in E. cbn [map app] in E. injection E as _ E _.
      rewrite T1, T2 in E. destruct a as [m p|m l|m l], b as [m' p'|m' l'|m' l']; cbn [is_container node_type]; auto; exfalso; try discriminate E; apply (f_equal (hd (Mark, []))) in E; cbn [hd] in E; [apply (MA p _ E)|apply (MA p _ E)|apply (MA p' _ (eq_sym E))|apply (MA p' _ (eq_sym E))]. }
    rewrite !page_children in E. destruct C as [[C1 C2]|[C1 C2]].
    - destruct (is_container a) eqn:CA.
      + assert (X : (x, [(Mark, opening a)]) :: map looks (flat_map (pe (x + 4)) (children a)) ++ (x, [(Mark, closing a)]) :: t =
                    (x, [(Mark, opening b)]) :: map looks (flat_map (pe (x + 4)) (children b)) ++ (x, [(Mark, closing b)]) :: t').
        { destruct a as [m p|m l|m l]; [discriminate CA| |]; (destruct b as [m' p'|m' l'|m' l']; [discriminate C1| |]); cbn [hidden existsb map] in E; rewrite !map_app in E; cbn [app] in E;
            rewrite <- !app_assoc in E; exact E. }
        injection X as _ X. destruct (looks_elems (x + 4) x (x, [(Mark, closing a)]) (children a) ltac:(lia) eq_refl (x, [(Mark, closing b)]) (children b) t t' EL (fun e e' I J => children_sort a b e e' C2 I J) eq_refl X) as (F & _ & T).
        split; [exact (alike_children a b C2 CA (eq_sym C1) F)|exact T].
      + destruct a as [m p|m l|m l]; [|discriminate CA|discriminate CA]. destruct b as [m' p'|m' l'|m' l']; [|discriminate C1|discriminate C1].
        cbn [map app] in E. injection E as E T TT. split; [|exact TT]. cbn [erase]. apply AL_prim. unfold scalar_text. cbn [tree_string]. rewrite E, T. reflexivity.
    - destruct a as [m p|m l|m l]; [|discriminate C1|discriminate C1]. destruct b as [m' p'|m' l'|m' l']; [|discriminate C2|discriminate C2].
      cbn [map app] in E. injection E as E T TT. split; [|exact TT]. cbn [erase]. apply AL_prim. unfold scalar_text. cbn [tree_string]. rewrite E, T. reflexivity.
  Qed.
End Look.

(** Colours tell kinds apart. *)
Lemma pair_kind k k' : pair_of true false k = pair_of true false k' -> k = k'.
Proof. destruct k, k'; try reflexivity; discriminate. Qed.

(** What is printed, whatever is selected. *)
Lemma shown_looks w sel sel' l : forall l' y y', map (shown_as true sel []) (stacked w y l) = map (shown_as true sel' []) (stacked w y' l') -> map looks l = map looks l'.
Proof.
  assert (T : forall b b' (t t' : list (kind * bytes)), map (fun x => mkPiece (snd x) b (pair_of true false (fst x))) t = map (fun x => mkPiece (snd x) b' (pair_of true false (fst x))) t' -> t = t').
  { intros b b'. induction t as [|[k s] t IH]; intros [|[k' s'] t'] E; try discriminate E; [reflexivity|]. cbn [map fst snd] in E.
    assert (E1 := f_equal (fun l => match l with x :: _ => ppair x | [] => None end) E). assert (E2 := f_equal (fun l => match l with x :: _ => ptext x | [] => [] end) E).
    assert (E3 := f_equal (@tl piece) E). cbn [ppair ptext tl] in E1, E2, E3. apply pair_kind in E1. subst. f_equal. auto. }
  induction l as [|s l IH]; intros [|s' l'] y y' E; try discriminate E; [reflexivity|]. cbn [stacked map] in E |- *.
  assert (E1 := f_equal (fun l => match l with x :: _ => ccol x | [] => 0 end) E). assert (E2 := f_equal (fun l => match l with x :: _ => cpieces x | [] => [] end) E).
  assert (E3 := f_equal (@tl printed) E). cbn [shown_as ccol cpieces tl fst snd existsb] in E1, E2, E3. apply T in E2. f_equal; [|exact (IH _ _ _ E3)].
  unfold looks. congruence.
Qed.

Lemma page_lines sc coll n root : roomy root sc -> (forall e, 0 <= slen sc e < 2 ^ 30) -> forall r x, 0 <= x -> Forall (fun s => 0 <= lines_of (sw sc) s) (page (slen sc) coll r x n).
Proof.
  intros (W & _) L.
  assert (One : forall x s, 0 <= x -> column s = x -> 0 <= extent s -> 0 <= margin s <= 2 -> 0 <= lines_of (sw sc) s).
  { intros x s X C E M. unfold lines_of. apply Z.div_pos; lia. }
  induction n as [n IH] using node_kids_ind. intros r x X. rewrite page_children.
  assert (Q : Forall (fun s => 0 <= lines_of (sw sc) s) (flat_map (page_elem sc coll (x + 4)) (children n))).
  { apply Forall_flat_map, Forall_forall. intros e I. specialize (IH e I). assert (X4 : 0 <= x + 4) by lia. destruct e as [v|m k v]; cbn [page_elem value_of] in *; [apply IH, X4|].
    assert (B := L (EEntry m k v)). assert (B2 := L (ENode v)).
    destruct (is_container v && _); [repeat constructor; apply (One (x + 4)); cbn [column extent margin]; lia|].
    destruct v as [m' p|m' l|m' l]; [repeat constructor; apply (One (x + 4)); cbn [column extent margin]; lia| |];
      (match goal with |- context [children ?v] => destruct (children v) end; [repeat constructor; apply (One (x + 4)); cbn [column extent margin]; lia|]);
      (constructor; [apply (One (x + 4)); cbn [column extent margin]; lia|apply IH; lia]). }
  assert (B := L (ENode n)).
  destruct n as [m p|m l|m l]; [repeat constructor; apply (One x); cbn [column extent margin]; lia| |];
    (destruct (hidden coll _); [repeat constructor; apply (One x); cbn [column extent margin]; lia|]); (constructor; [apply (One x); cbn [column extent margin]; lia|]);
    apply Forall_app; (split; [exact Q|]); repeat constructor; apply (One x); cbn [column extent margin]; lia.
Qed.

Lemma tells_apart a b sc v0 v w0 w : in_memory a -> in_memory b -> roomy a sc -> roomy b sc -> 2 <= sh sc < 2 ^ 32 ->
  on_row a v0 -> on_row b w0 -> 0 <= vscroll v0 -> 0 <= vscroll w0 ->
  redraw a sc v0 = Some (true, v) -> redraw b sc w0 = Some (true, w) ->
  vcoll v0 = [] -> vcoll w0 = [] -> vres v0 = [] -> vres w0 = [] -> vscroll v = 0 -> vscroll w = 0 ->
  total_lines (sw sc) (page (slen sc) [] (nid a) 0 a) < sh sc - 1 -> total_lines (sw sc) (page (slen sc) [] (nid b) 0 b) < sh sc - 1 ->
  painted a true sc v0 = painted b true sc w0 -> alike (erase a) (erase b).
Proof.
  intros MA MB RA RB HS OA OB TA TB DA DB CA CB SA SB VA VB FA FB E.
  assert (Q : forall x u0 u, in_memory x -> roomy x sc -> on_row x u0 -> 0 <= vscroll u0 -> redraw x sc u0 = Some (true, u) -> vcoll u0 = [] -> vres u0 = [] -> vscroll u = 0 ->
    total_lines (sw sc) (page (slen sc) [] (nid x) 0 x) < sh sc - 1 ->
    painted x true sc u0 = Some (map (shown_as true (vsel u) []) (stacked (sw sc) 1 (page (slen sc) [] (nid x) 0 x)))).
  { intros x u0 u M R O T D C S V F. destruct (screen_page x sc true u0 u M R HS O T D) as (above & shown & below & P & L & PA & _ & IN & FU).
    destruct (redraw_same x _ _ _ _ D) as (_ & E2 & E3). rewrite E2, C in P. rewrite E3, S in PA. rewrite V in L. destruct above; [|discriminate L]. cbn [app] in P.
    assert (B : below = []). { destruct FU as [FU|FU]; [exact FU|]. exfalso. rewrite P in F. unfold total_lines in *. rewrite fold_right_app in F.
      assert (N := page_lines sc [] x x R (proj1 (proj2 R)) (nid x) 0 ltac:(lia)). rewrite P in N. apply Forall_app in N. destruct N as [_ N].
      assert (G : forall l z, 0 <= z -> fold_right (fun s n => lines_of (sw sc) s + n) 0 l <= fold_right (fun s n => lines_of (sw sc) s + n) z l).
      { clear. induction l as [|s l IH]; intros z Z; cbn [fold_right]; [exact Z|]. specialize (IH z Z). lia. }
      specialize (G shown (fold_right (fun s n => lines_of (sw sc) s + n) 0 below)).
      assert (Z : 0 <= fold_right (fun s n => lines_of (sw sc) s + n) 0 below). { clear - N. induction N as [|s l A N IH]; cbn [fold_right]; lia. }
      specialize (G Z). lia. }
    rewrite B, app_nil_r in P. rewrite P. exact PA. }
  rewrite (Q a v0 v MA RA OA TA DA CA SA VA FA), (Q b w0 w MB RB OB TB DB CB SB VB FB) in E. injection E as E. apply shown_looks in E.
  apply (looks_page sc a b 0 (nid a) (nid b) [] []). rewrite !app_nil_r. exact E.
Qed.

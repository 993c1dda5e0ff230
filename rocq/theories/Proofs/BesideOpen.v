(** From the bytes of two files to the first screen of their comparison. *)
From Verif Require Import Proofs.LookProofs Proofs.ParserTree Proofs.GrammarProps Proofs.PageProofs.
From Verif Require Import Proofs.RowProofs Proofs.ViewProofs Proofs.SplitMem Proofs.SplitPress Proofs.SplitShow Proofs.DiffPairing Proofs.BesideFirst Proofs.BesideTop.
From Verif Require Export Spec.BesideSpec.
From Coq Require Import Lia ZifyBool.
Open Scope Z_scope.

Section Sketch.
  Variable (len : elem -> Z) (sel : option Z).
  Notation hp := (half_page len []).
  Notation he := (half_elem len []).
  Definition seen (s : strip) : bool * Z * list (kind * bytes) := (is_selected sel s, column s, texts s).
  Definition chosen (r : Z) : bool := match sel with Some i => i =? r | None => false end.

  Definition sketch_elem (x : Z) (e : elem) : list (bool * Z * list (kind * bytes)) :=
    match e with
    | ENode v => half_sketch false x (erase v)
    | EEntry _ k v =>
        let line t := (false, x, [(Name, before_nul k); mark ": "] ++ t) in
        match erase v with
        | TPrim p => [line [scalar_text p]]
        | TArr inner => match inner with [] => [line [mark "[ ]"]] | _ => line [] :: half_sketch false x (erase v) end
        | TObj inner => match inner with [] => [line [mark "{ }"]] | _ => line [] :: half_sketch false x (erase v) end
        end
    end.
  Lemma sketch_children b x n : half_sketch b x (erase n) =
    match n with
    | NPrim _ p => [(b, x, [scalar_text p])]
    | NArr _ _ => (b, x, [mark "["]) :: flat_map (sketch_elem (x + 4)) (children n) ++ [(b, x, [mark "]"])]
    | NObj _ _ => (b, x, [mark "{"]) :: flat_map (sketch_elem (x + 4)) (children n) ++ [(b, x, [mark "}"])]
    end.
  Proof.
    destruct n as [m p|m l|m l]; cbn [erase half_sketch children]; [reflexivity| |]; do 2 f_equal; rewrite !flat_map_concat_map; f_equal; rewrite !map_map; reflexivity.
  Qed.

  Lemma seen_page n : forall r x, (forall j, In j (inside [] n) -> sel <> Some j) -> map seen (hp r x n) = half_sketch (chosen r) x (erase n).
  Proof.
    induction n as [n IH] using node_kids_ind. intros r x N. rewrite half_children, sketch_children.
    assert (Q : map seen (flat_map (he (x + 4)) (children n)) = flat_map (sketch_elem (x + 4)) (children n)).
    { assert (N' : forall e, In e (children n) -> forall j, j = eid e \/ In j (inside [] (value_of e)) -> sel <> Some j).
      { intros e I j J. apply N. rewrite inside_children. cbn [mem existsb]. unfold rowsL. apply in_flat_map. exists e. split; [exact I|]. unfold rows_elem. destruct J as [->|J]; [left; reflexivity|right; exact J]. }
      clear N. induction (children n) as [|e l IHl]; [reflexivity|]. cbn [flat_map]. rewrite map_app, IHl; [|intros; apply IH; [right; assumption|assumption]|intros; eapply N'; [right; eassumption|eassumption]].
      f_equal. assert (I1 := IH e (or_introl eq_refl)). assert (N1 := N' e (or_introl eq_refl)). clear IH N' IHl.
      assert (CH : chosen (eid e) = false). { unfold chosen. destruct sel as [i|] eqn:SE; [|reflexivity]. apply Z.eqb_neq. intros ->. exact (N1 (eid e) (or_introl eq_refl) eq_refl). }
      assert (E1 : forall y, map seen (hp (eid e) y (value_of e)) = half_sketch false y (erase (value_of e))).
      { intros y. rewrite I1 by (intros j J; apply N1; right; exact J). rewrite CH. reflexivity. }
      destruct e as [v|m k v]; cbn [eid value_of] in *; [exact (E1 (x + 4))|].
      assert (SF : forall s, row s = mid m -> is_selected sel s = false) by (intros s RS; unfold is_selected; rewrite RS; exact CH).
      cbn [half_elem hidden existsb sketch_elem]. rewrite Bool.andb_false_r.
      destruct v as [m' p|m' [|y l']|m' [|y l']]; cbn [children map erase];
        [unfold seen; cbn [map]; rewrite SF by reflexivity; reflexivity|unfold seen; cbn [map]; rewrite SF by reflexivity; reflexivity| |unfold seen; cbn [map]; rewrite SF by reflexivity; reflexivity|];
        (change (map erase (y :: l')) with (erase y :: map erase l') || idtac);
        cbn [map] in *; (f_equal; [unfold seen; rewrite SF by reflexivity; reflexivity|exact (E1 (x + 4))]). }
    destruct n as [m p|m l|m l]; cbn [hidden existsb map]; [reflexivity| |]; unfold seen at 1; cbn [is_selected row column texts]; f_equal; rewrite map_app, Q; reflexivity.
  Qed.

  (** Lines that are no longer than the window take one line of it. *)
  Variable w : Z.
  Hypothesis W : 3 <= w.
  Hypothesis ME : measured len w.
  Definition short_enough (s : strip) : Prop := column s + fold_right (fun t n => Z.of_nat (length (snd t)) + n) 0 (texts s) <= w.
  Definition one_line (s : strip) : Prop := PageSpec.lines_of w s = 1.

  Lemma one_line_is s : 0 < column s + extent s -> column s + extent s + margin s <= w -> 0 <= margin s <= 2 -> one_line s.
  Proof.
    intros A B C. unfold one_line, PageSpec.lines_of.
    replace (column s + extent s + (w - margin s) - 1) with (1 * (w - margin s) + (column s + extent s - 1)) by lia.
    rewrite Z.div_add_l by lia. rewrite Z.div_small by lia. reflexivity.
  Qed.
  Lemma page_one_line n : forall r x, 0 < x -> Forall short_enough (hp r x n) -> Forall one_line (hp r x n).
  Proof.
    induction n as [n IH] using node_kids_ind. intros r x X. rewrite half_children. intros F.
    assert (Q : Forall short_enough (flat_map (he (x + 4)) (children n)) -> Forall one_line (flat_map (he (x + 4)) (children n))).
    { clear F. intros F. apply Forall_flat_map, Forall_forall. intros e I. rewrite Forall_flat_map, Forall_forall in F. specialize (F e I). specialize (IH e I).
      destruct e as [v|m k v]; cbn [half_elem value_of hidden existsb] in *.
      - apply IH; [lia|exact F].
      - rewrite Bool.andb_false_r in *.
        assert (N0 := Nat2Z.is_nonneg (length (before_nul k))). assert (K := ME (EEntry m k v)). cbn [etext] in K.
        destruct v as [m' p|m' [|y l]|m' [|y l]]; cbn [children map] in *.
        + assert (K' := ME (ENode (NPrim m' p))). cbn [etext erase] in K'. assert (N1 := Nat2Z.is_nonneg (length (before_nul (tree_string (TPrim p))))).
          assert (S0 := Forall_inv F). unfold short_enough in S0. cbn [column texts fold_right scalar_text fst app] in S0.
          change (Z.of_nat (length (snd (mark ": ")))) with 2 in S0. cbn [snd] in S0.
          change (snd (scalar_text p)) with (before_nul (tree_string (TPrim p))) in S0.
          constructor; [|constructor]. apply one_line_is; cbn [column extent margin]; rewrite ?K, ?K' by lia; lia.
        + assert (S0 := Forall_inv F). unfold short_enough in S0. cbn [column texts fold_right fst snd app] in S0.
          change (Z.of_nat (length (snd (mark ": ")))) with 2 in S0. change (Z.of_nat (length (hollow (NArr m' [])))) with 3 in S0. cbn [snd] in S0.
          constructor; [|constructor]. apply one_line_is; cbn [column extent margin]; rewrite ?K by lia; lia.
        + inversion_clear F as [|? ? S0 S1]. unfold short_enough in S0. cbn [column texts fold_right fst snd app] in S0.
          change (Z.of_nat (length (snd (mark ": ")))) with 2 in S0. cbn [snd] in S0.
          constructor; [apply one_line_is; cbn [column extent margin]; rewrite ?K by lia; lia|]. apply IH; [lia|exact S1].
        + assert (S0 := Forall_inv F). unfold short_enough in S0. cbn [column texts fold_right fst snd app] in S0.
          change (Z.of_nat (length (snd (mark ": ")))) with 2 in S0. change (Z.of_nat (length (hollow (NObj m' [])))) with 3 in S0. cbn [snd] in S0.
          constructor; [|constructor]. apply one_line_is; cbn [column extent margin]; rewrite ?K by lia; lia.
        + inversion_clear F as [|? ? S0 S1]. unfold short_enough in S0. cbn [column texts fold_right fst snd app] in S0.
          change (Z.of_nat (length (snd (mark ": ")))) with 2 in S0. cbn [snd] in S0.
          constructor; [apply one_line_is; cbn [column extent margin]; rewrite ?K by lia; lia|]. apply IH; [lia|exact S1]. }
    destruct n as [m p|m l|m l]; cbn [hidden existsb] in *.
    - assert (K' := ME (ENode (NPrim m p))). cbn [etext erase] in K'. assert (N1 := Nat2Z.is_nonneg (length (before_nul (tree_string (TPrim p))))).
      assert (S0 := Forall_inv F). unfold short_enough in S0. cbn [column texts fold_right scalar_text snd fst] in S0.
      constructor; [|constructor]. apply one_line_is; cbn [column extent margin]; rewrite ?K' by lia; lia.
    - inversion_clear F as [|? ? S0 F1]. apply Forall_app in F1. destruct F1 as (F1 & F2). unfold short_enough in S0. cbn in S0.
      constructor; [apply one_line_is; cbn [column extent margin]; lia|]. apply Forall_app. split; [apply Q, F1|]. constructor; [|constructor]. apply one_line_is; cbn [column extent margin]; lia.
    - inversion_clear F as [|? ? S0 F1]. apply Forall_app in F1. destruct F1 as (F1 & F2). unfold short_enough in S0. cbn in S0.
      constructor; [apply one_line_is; cbn [column extent margin]; lia|]. apply Forall_app. split; [apply Q, F1|]. constructor; [|constructor]. apply one_line_is; cbn [column extent margin]; lia.
  Qed.
End Sketch.

Section Take.
  Variable (len : elem -> Z) (w : Z).
  Hypothesis SL : forall e, 0 <= len e.
  Hypothesis W : 3 <= w.
  Definition sound (s : strip) : Prop := 0 < column s /\ 0 <= extent s /\ 0 <= margin s <= 2.
  Lemma page_sound n : forall r x, 0 < x -> Forall sound (half_page len [] r x n).
  Proof.
    induction n as [n IH] using node_kids_ind. intros r x X. rewrite half_children.
    assert (Q : Forall sound (flat_map (half_elem len [] (x + 4)) (children n))).
    { apply Forall_flat_map, Forall_forall. intros e I. specialize (IH e I).
      destruct e as [v|m k v]; cbn [half_elem value_of hidden existsb] in *; [apply IH; lia|]. rewrite Bool.andb_false_r.
      assert (K := SL (EEntry m k v)). assert (K' := SL (ENode v)).
      destruct v as [m' p|m' [|y l]|m' [|y l]]; cbn [children map]; (constructor; [unfold sound; cbn [column extent margin]; lia|]); first [solve [constructor]|apply IH; lia]. }
    assert (K' := SL (ENode n)).
    destruct n as [m p|m l|m l]; cbn [hidden existsb]; (constructor; [unfold sound; cbn [column extent margin]; lia|]); try (apply Forall_app; split; [exact Q|constructor; [unfold sound; cbn [column extent margin]; lia|]]); constructor.
  Qed.
  Lemma sound_lines s : sound s -> 1 <= PageSpec.lines_of w s.
  Proof. intros (S1 & S2 & S3). unfold PageSpec.lines_of. apply Z.div_le_lower_bound; lia. Qed.
End Take.

Lemma spaced_lines w : forall l y, 1 <= y -> Forall (fun p => 1 <= PageSpec.lines_of w (snd p)) l -> spaced w 0 y l -> Forall (fun p => y <= fst p) l.
Proof.
  induction l as [|p l IH]; intros y Y F S; [constructor|]. inversion_clear F as [|? ? F1 F2]. cbn [spaced] in S. destruct S as [S1 S2]. constructor; [exact S1|].
  assert (E : fst p + 1 <= ends_at w 0 p) by (unfold ends_at; destruct (_ <=? _) eqn:L; lia).
  eapply Forall_impl; [|apply (IH (ends_at w 0 p) ltac:(lia) F2 S2)]. intros q Q. cbv beta in *. lia.
Qed.
Lemma spaced_descends w colours sel res : forall l y, 1 <= y -> Forall (fun p => 1 <= PageSpec.lines_of w (snd p)) l -> spaced w 0 y l ->
  descends y (map (fun p => shown_as colours sel res (fst p - 0, snd p)) l).
Proof.
  induction l as [|p l IH]; intros y Y F S; [exact Logic.I|]. inversion_clear F as [|? ? F1 F2]. cbn [spaced] in S. destruct S as [S1 S2].
  cbn [map descends shown_as cline fst snd]. split; [lia|].
  assert (E : fst p + 1 <= ends_at w 0 p) by (unfold ends_at; destruct (_ <=? _) eqn:L; lia).
  assert (D := IH (ends_at w 0 p) ltac:(lia) F2 S2). revert D E. clear. generalize (ends_at w 0 p). destruct l as [|q l]; intros z; [auto|]. cbn [map descends shown_as cline fst snd]. intros [D1 D2] E. split; [lia|exact D2].
Qed.

Lemma filter_all {A} (f : A -> bool) l : Forall (fun x => f x = true) l -> filter f l = l.
Proof. induction 1 as [|x l E F IH]; [reflexivity|]. cbn [filter]. rewrite E, IH. reflexivity. Qed.

Section Window.
  Variable (h : list elem) (len : elem -> Z) (colours : bool) (width height : Z) (r : node) (v : win).
  Hypothesis SL : forall e, 0 <= len e.
  Hypothesis WW : 3 <= width.
  Hypothesis HH : 2 <= height.
  Hypothesis M : in_memory r.
  Hypothesis ROOT : wroot v = r.
  Hypothesis SC : wscroll v = 0.
  Hypothesis SE : wsel v = Some (nid r) \/ wsel v = None.

  Lemma window_opens : window_shows h len [] [] colours width height v ->
    opens_as len colours (match wsel v with Some _ => true | None => false end) width height (erase r) (cells_of h [] colours v).
  Proof.
    intros (drawn & rest & HP & SP & CE & _ & END). rewrite ROOT in HP. rewrite SC in *.
    assert (NS : forall j, In j (inside [] r) -> wsel v <> Some j).
    { intros j J. destruct SE as [-> | ->]; [|discriminate]. intros [= <-]. assert (ND := rows_NoDup r M []). unfold rows in ND. inversion ND. contradiction. }
    assert (SN := seen_page len (wsel v) r (nid r) 2 NS).
    assert (CH : chosen (wsel v) (nid r) = match wsel v with Some _ => true | None => false end) by (unfold chosen; destruct SE as [-> | ->]; [apply Z.eqb_refl|reflexivity]).
    rewrite CH in SN. set (sl := match wsel v with Some _ => true | None => false end) in *. clearbody sl.
    assert (FL : Forall (fun p => 1 <= PageSpec.lines_of width (snd p)) drawn).
    { assert (PS := page_sound len SL r (nid r) 2 ltac:(lia)). rewrite HP in PS. apply Forall_app in PS. destruct PS as [PS _]. rewrite Forall_map in PS. eapply Forall_impl; [|exact PS]. intros p. apply sound_lines, WW. }
    assert (FY := spaced_lines width drawn 1 ltac:(lia) FL SP).
    rewrite filter_all in CE by (eapply Forall_impl; [|exact FY]; cbn; intros; lia).
    assert (EN : Forall (fun p => fst p + 1 <= ends_at width 0 p) drawn) by (eapply Forall_impl; [|exact FL]; cbn; intros p Q; unfold ends_at; destruct (_ <=? _) eqn:L; lia).
    assert (LD : length (cells_of h [] colours v) = length drawn) by (rewrite CE, map_length; reflexivity).
    assert (LP : (0 < length (half_page len [] (nid r) 2 r))%nat) by (rewrite half_children; destruct r; cbn [hidden existsb length]; lia).
    split.
    { intros E. rewrite E in LD. destruct drawn; [|discriminate LD]. destruct END as [[-> _]|(b & p & E' & _)]; [rewrite HP in LP; cbn in LP; lia|destruct b; discriminate E']. }
    split; [rewrite CE; apply (spaced_descends width); auto; lia|].
    split.
    { rewrite LD, CE, <- SN, HP, !map_app, firstn_app, !map_length, Nat.sub_diag. cbn [firstn]. rewrite app_nil_r, firstn_all2 by (rewrite !map_length; lia).
      rewrite !map_map. apply map_ext. intros p. unfold seen, drawn_as, shown_as. cbn [ccol cpieces fst snd existsb]. reflexivity. }
    split.
    { rewrite CE. destruct END as [[_ F]|(b & p & -> & F & _)].
      - apply Forall_forall. intros q I. assert (I' : In q (map (fun p => shown_as colours (wsel v) [] (fst p - 0, snd p)) drawn)).
        { revert I. generalize (map (fun p => shown_as colours (wsel v) [] (fst p - 0, snd p)) drawn). clear. induction l as [|x [|y l] IH]; [intros []|intros []|]. intros [->|I]; [left; reflexivity|right; apply IH, I]. }
        apply in_map_iff in I'. destruct I' as (p & <- & I'). cbn [shown_as cline fst]. rewrite Forall_forall in F, EN. specialize (F p I'). specialize (EN p I'). lia.
      - rewrite map_app. cbn [map]. rewrite removelast_last. apply Forall_map. apply Forall_app in EN. destruct EN as [EN _]. rewrite Forall_forall in *. intros q I. cbn [shown_as cline fst]. specialize (F q I). specialize (EN q I). lia. }
    intros NA ME. destruct END as [[-> _]|(b & p & E & _ & L)].
    - left. rewrite LD, <- SN, HP, app_nil_r, !map_length. reflexivity.
    - right. rewrite CE, E, map_app. cbn [map]. eexists _, _. split; [reflexivity|]. cbn [shown_as cline fst].
      assert (OL : Forall (one_line width) (half_page len [] (nid r) 2 r)).
      { apply (page_one_line len width WW ME); [lia|]. unfold half_narrow in NA.
        assert (NB : Forall (fun s => line_length s <= width) (half_sketch sl 2 (erase r))).
        { revert NA. destruct sl; [auto|]. destruct r as [m p'|m l|m l]; cbn [erase half_sketch]; intros NA; inversion_clear NA as [|? ? N1 N2]; (constructor; [exact N1|]); [constructor| |];
            apply Forall_app in N2; destruct N2 as [N2 N3]; (apply Forall_app; split; [exact N2|]); inversion_clear N3 as [|? ? N4 _]; constructor; [exact N4|constructor|exact N4|constructor]. }
        rewrite <- SN in NB. rewrite Forall_map in NB. exact NB. }
      rewrite HP in OL. apply Forall_app in OL. destruct OL as [OL _]. rewrite Forall_map in OL. rewrite Forall_forall in OL. specialize (OL p). rewrite E in OL. specialize (OL ltac:(apply in_or_app; right; left; reflexivity)). unfold one_line in OL. unfold ends_at in L. rewrite OL in L. destruct (_ <=? _); lia.
  Qed.
End Window.

(** The counterpart of the root, if there is one, is the root. *)
Lemma root_root a b m y : fits_memory a -> fits_memory b -> NoDup (ids a ++ ids b) -> build a b = inl m -> getEquivalence m (nid a) = Some y -> y = nid b.
Proof.
  intros FA FB N B E. assert (INV := InvN_Inv a b m (build_inv a b m FA FB N B)). change (ids a) with (ids a) in N. rewrite <- !eids_node in N.
  unfold getEquivalence in E. destruct (find _ _) as [[u v]|] eqn:F; [|discriminate E]. apply find_some in F. destruct F as [I C]. cbn [fst snd] in C.
  destruct (Z.eqb_spec u (nid a)) as [->|NE]; [injection E as <-; exact (Inv_root (ENode a) (ENode b) m v N INV I)|]. injection E as <-. assert (v = nid a) by lia. subst v. clear C.
  destruct INV as (_ & r & H). destruct (H O None None) as (Q & S1 & S2 & _ & A & _). set (x := ENode a) in *. set (y := ENode b) in *. change (nid a) with (eid x) in *. change (nid b) with (eid y) in *.
  assert (NX : ~ In (eid x) (map fst (map fst Q))).
  { intros J. pose proof (NoDup_app_l _ _ N) as NX. rewrite (eids_head x) in NX. inversion_clear NX as [|? ? N1 _]. apply N1.
    rewrite <- (tl_ids x 0 None). eapply sublist_In; [apply sublist_map, S1|exact J]. }
  assert (NY : In (eid x) (eids y) -> False) by (intros J; exact (NoDup_app_not _ _ _ N (eid_in x) J)).
  destruct (A _ _ I) as [J|J]; apply in_app_or in J; destruct J as [J|J].
  - destruct r; [|destruct J]. destruct J as [J|[]]. exfalso. apply NY. replace (eid x) with (eid y) by congruence. apply eid_in.
  - exfalso. apply NY. apply idp_snd in J. rewrite (eids_head y). right. rewrite <- (tl_ids y 0 None). eapply sublist_In; [apply sublist_map, S2|exact J].
  - destruct r; [|destruct J]. destruct J as [J|[]]. congruence.
  - apply idp_fst in J. contradiction.
Qed.

Lemma compared_opens rx f a b m len w hh colours : comparable a b m len f -> room w hh ->
  exists p v0 v1, split_run rx f len w hh a b [] = Done (Waits (mkScreen (w / 2) (hh - 2) len) p) /\ pwins p = [v0; v1] /\
    opens_as len colours true (w / 2 - 2) (hh - 2) (erase a) (cells_of (split_memory a b) (active_res p) colours v0) /\
    opens_as len colours (match getEquivalence m (nid a) with Some _ => true | None => false end) (w / 2 - 2) (hh - 2) (erase b)
      (cells_of (split_memory a b) (active_res p) colours v1).
Proof.
  intros OK RW. assert (OK' := OK). destruct OK' as (MA & MB & FA & FB & D & B & SL & BK & FU).
  set (p0 := setSelection m (mkSplit [new_win a; new_win b] 0 []) (Some (nid a))).
  assert (SCR : split_screen w hh p0 (mkScreen 0 0 len) = mkScreen (w / 2) (hh - 2) len).
  { unfold split_screen, p0, setSelection. cbn [pwins length slen]. unfold usub. rewrite Z.mod_small; [reflexivity|]. destruct RW; lia. }
  assert (G : roomy_windows (mkScreen (w / 2) (hh - 2) len)). { destruct RW as [R1 R2]. split; cbn [sw sh]; [|lia]. split; [apply Z.div_le_lower_bound; lia|apply Z.div_lt_upper_bound; lia]. }
  assert (J0 : J a b m p0).
  { apply (select_J a b m MA MB FA FB D B _ (new_win a) (new_win b)); [reflexivity| |left; split; [reflexivity|left; reflexivity]]. cbn [pcoll].
    assert (PL : forall r, placed r [] (new_win r)). { intros r. split; [reflexivity|]. split; [exists (nid r); split; [reflexivity|left; reflexivity]|]. intros i Q. discriminate Q. }
    split; [apply PL|]. split; [apply PL|]. cbn. split; [lia|]. split; [lia|]. split; [intros x Q; discriminate Q|]. split; [intros x Q; discriminate Q|]. intros x y _. reflexivity. }
  destruct (settle f a b m len _ OK G eq_refl _ J0) as (p & E & C & PA & PC & CO).
  assert (EQ : equivalent m (Some (nid a)) = Some (nid b) \/ equivalent m (Some (nid a)) = None).
  { cbn [equivalent]. destruct (getEquivalence m (nid a)) as [y|] eqn:Y; [left; f_equal; exact (root_root a b m y FA FB D B Y)|right; reflexivity]. }
  assert (ST0 : Forall (fun w => wscroll w = 0 /\ wlast w = Some (nid (wroot w))) (pwins p0)).
  { unfold p0, setSelection. cbn [pwins pact]. apply Forall_cons; [split; reflexivity|]. apply Forall_cons; [|apply Forall_nil]. split; [reflexivity|]. destruct EQ as [Q | Q]; rewrite Q; reflexivity. }
  assert (L := redraws_goes _ _ _ _ p0 p ST0 E).
  unfold p0, setSelection in CO. cbn [pwins pact map] in CO.
  destruct (pwins p) as [|v0 [|v1 [|]]] eqn:PW; [discriminate CO|discriminate CO| |discriminate CO]. exists p, v0, v1.
  split. { unfold split_run. rewrite B. cbv zeta. fold p0. rewrite SCR, E. reflexivity. } split; [exact PW|].
  cbn [map] in CO. unfold core in CO. cbn [wroot wsel wlast wres set_wsel new_win] in CO. change (0 =? 0) with true in CO. change (0 + 1 =? 0) with false in CO. cbn iota in CO. cbn [wroot wsel wlast wres set_wsel new_win] in CO.
  injection CO as R0 S0 L0 W0 R1 S1 L1 W1.
  assert (AR : active_res p = []) by (unfold active_res; rewrite PA, PW; exact W0).
  inversion_clear L as [|? ? [_ T0] L']. inversion_clear L' as [|? ? [_ T1] _].
  assert (W2 : 5 <= w / 2) by (apply G). assert (H2 : 2 <= hh - 2) by apply G.
  assert (PC' : pcoll p = []) by exact PC.
  assert (X0 := windows_show f a b m len _ p v0 colours OK G eq_refl C ltac:(rewrite PW; left; reflexivity)).
  assert (X1 := windows_show f a b m len _ p v1 colours OK G eq_refl C ltac:(rewrite PW; right; left; reflexivity)).
  rewrite PC', AR in X0, X1. rewrite AR. cbn [sw sh] in X0, X1. split.
  - assert (Y := window_opens _ len colours (w / 2 - 2) (hh - 2) a v0 SL ltac:(lia) MA R0 T0 (or_introl S0) X0). rewrite S0 in Y. exact Y.
  - assert (Y := window_opens _ len colours (w / 2 - 2) (hh - 2) b v1 SL ltac:(lia) MB R1 T1 ltac:(rewrite S1; exact EQ) X1). rewrite S1 in Y. exact Y.
Qed.

Lemma both_opened e p wa ta da ra wb tb db rb :
  jval (jstring kept_ctrl (if ignoreUnicode p then kept_uni else rfc_uni)) ta da -> distinct_keys da -> ws wa -> boundary ra ->
  jval (jstring kept_ctrl (if ignoreUnicode p then kept_uni else rfc_uni)) tb db -> distinct_keys db -> ws wb -> boundary rb ->
  exists a0 sa b0 sb, read_doc e (Some p) (wa ++ ta ++ ra) = Ok (Some a0, sa) /\ warns sa = [] /\ read_doc e (Some p) (wb ++ tb ++ rb) = Ok (Some b0, sb) /\ warns sb = [] /\
    (if sortObjects p then reordered (erase a0) da /\ all_objects (StronglySorted byte_lt) (erase a0) else erase a0 = da) /\
    (if sortObjects p then reordered (erase b0) db /\ all_objects (StronglySorted byte_lt) (erase b0) else erase b0 = db) /\
    forall rx f a b m len w hh colours, erase a = erase a0 -> erase b = erase b0 -> comparable a b m len f -> room w hh ->
    exists p v0 v1, split_run rx f len w hh a b [] = Done (Waits (mkScreen (w / 2) (hh - 2) len) p) /\ pwins p = [v0; v1] /\
      opens_as len colours true (w / 2 - 2) (hh - 2) (erase a0) (cells_of (split_memory a b) (active_res p) colours v0) /\
      opens_as len colours (match getEquivalence m (nid a) with Some _ => true | None => false end) (w / 2 - 2) (hh - 2) (erase b0)
        (cells_of (split_memory a b) (active_res p) colours v1).
Proof.
  intros JA DA WA BA JB DB WB BB.
  destruct (read_kept_escapes e p wa ta da ra JA DA WA BA) as (a0 & sa & R1 & _ & N1 & E1).
  destruct (read_kept_escapes e p wb tb db rb JB DB WB BB) as (b0 & sb & R2 & _ & N2 & E2).
  exists a0, sa, b0, sb. split; [exact R1|]. split; [exact N1|]. split; [exact R2|]. split; [exact N2|]. split; [destruct (sortObjects p); exact E1|]. split; [destruct (sortObjects p); exact E2|].
  intros rx f a b m len w hh colours EA EB OK RW. rewrite <- EA, <- EB. exact (compared_opens rx f a b m len w hh colours OK RW).
Qed.

Lemma high_top h res colours w : BesideTop.high w -> on_top (cells_of h res colours w).
Proof. intros [_ (l & c & E & Y)]. unfold cells_of. rewrite E, map_app, rev_app_distr. eexists _, _. split; [reflexivity|exact Y]. Qed.

Lemma compared_top rx f a b m len w hh colours : comparable a b m len f -> room w hh -> getEquivalence m (nid a) <> None ->
  exists p v0 v1, split_run rx f len w hh a b [] = Done (Waits (mkScreen (w / 2) (hh - 2) len) p) /\ pwins p = [v0; v1] /\
    on_top (cells_of (split_memory a b) (active_res p) colours v0) /\ on_top (cells_of (split_memory a b) (active_res p) colours v1).
Proof.
  intros OK RW NE. destruct (compared_opens rx f a b m len w hh colours OK RW) as (p & v0 & v1 & RUN & PW & _). exists p, v0, v1. split; [exact RUN|]. split; [exact PW|].
  assert (OK' := OK). destruct OK' as (MA & MB & FA & FB & D & B & _).
  unfold split_run in RUN. rewrite B in RUN. cbv zeta in RUN. destruct (redraws _ _ _ _ _) as [p'|] eqn:R; [|discriminate RUN]. cbn [SplitView.bind split_wait] in RUN. injection RUN as _ ->.
  destruct (getEquivalence m (nid a)) as [y|] eqn:Y; [|contradiction]. assert (y = nid b) by exact (root_root a b m y FA FB D B Y). subst y.
  assert (Y2 := SplitMem.eqv_sym a b m FA FB D B _ _ Y).
  apply redraws_highs in R.
  - rewrite PW in R. inversion_clear R as [|? ? H0 R']. inversion_clear R' as [|? ? H1 _]. split; apply high_top; assumption.
  - unfold setSelection. cbn [pwins pact]. cbn [equivalent]. rewrite Y. apply Forall_cons; [|apply Forall_cons; [|apply Forall_nil]]; (split; [reflexivity|]; split; [reflexivity|]); unfold isAdded; [change (match getEquivalence m (nid a) with Some _ => false | None => true end = false); rewrite Y|change (match getEquivalence m (nid b) with Some _ => false | None => true end = false); rewrite Y2]; reflexivity.
Qed.

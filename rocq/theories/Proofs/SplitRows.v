(** Rows drawn by a redraw of the comparison, and the rows above and below the
    selection it finds. *)
From Verif Require Export Proofs.SplitSee Proofs.SplitKeys.
From Verif Require Import Proofs.RowProofs Proofs.ViewProofs Proofs.SplitMem.
From Coq Require Import Lia ZifyBool.
Open Scope Z_scope.

(** * What holds of every window holds of all *)
Section Each.
  Variable (h : list elem) (sc : screen) (coll : list Z) (dm : mat) (X : Type) (busyP doneP : X -> win -> Prop).
  Definition item_ok (x : X) (r : option bool * win) : Prop :=
    match r with (None, _) => True | (Some true, w) => doneP x w | (Some false, w) => busyP x w end.
  Hypothesis ONE : forall x w, busyP x w -> ok any (item_ok x) (one_item h sc coll dm w).
  Hypothesis LINE_B : forall x w y, busyP x w -> busyP x (set_wy w y).
  Hypothesis LINE_D : forall x w y, doneP x w -> doneP x (set_wy w y).
  Hypothesis MARK_B : forall x w r, busyP x w -> busyP x (add_mark w r).
  Hypothesis MARK_D : forall x w r, doneP x w -> doneP x (add_mark w r).

  Definition partP (x : X) (p : part) : Prop := if snd p then busyP x (fst p) else doneP x (fst p).
  Lemma part_fin x fin w : item_ok x (Some fin, w) -> partP x (w, negb fin).
  Proof. destruct fin; exact (fun H => H). Qed.
  Lemma part_y x w b y : partP x (w, b) -> partP x (set_wy w y, b).
  Proof. unfold partP. cbn. destruct b; auto. Qed.
  Lemma part_gap x b k : forall w, partP x (w, b) -> partP x (gap_lines k w, b).
  Proof.
    induction k as [|k IH]; intros w H; [exact H|]. cbn [gap_lines]. apply IH. apply part_y. unfold displayDiffOp, partP in *. cbn [fst snd] in *. destruct b; auto.
  Qed.
  Lemma each_added x f : forall w, busyP x w -> ok any (item_ok x) (added_items h sc coll dm f w).
  Proof.
    induction f as [|f IH]; intros w T; [exact Logic.I|]. cbn [added_items]. eapply ok_bind; [apply ONE, T|]. intros [[[|]|] w'] K; try exact K.
    eapply ok_bind with (P := fun _ => True); [destruct (next_added dm w'); exact Logic.I|]. intros [|] _; [|exact K]. apply IH, K.
  Qed.
  Lemma each_gap f after : forall before xs xs', Forall2 partP xs before -> Forall2 partP xs' after ->
    ok any (fun r => match r with Some (true, ps) => Forall2 partP (xs ++ xs') ps | _ => True end) (display_gap h sc coll dm f before after).
  Proof.
    induction after as [|[w busy] t IH]; intros before xs xs' TB TA; [exact Logic.I|]. cbn [display_gap]. inversion TA as [|x p xs0 ps H F E1 E2]; subst.
    eapply ok_bind with (P := fun a => a = true -> busy = true). { destruct busy; [destruct (next_added dm w); [cbn; auto|exact Logic.I]|cbn; discriminate]. }
    intros [|] B.
    - assert (G : forall k l ls, Forall2 partP l ls -> Forall2 partP l (map (fun p : part => (gap_lines k (fst p), snd p)) ls)).
      { intros k y ys. induction 1 as [|b [w' bu] y ys Y _ IHl]; constructor; [apply part_gap, Y|exact IHl]. }
      rewrite (B eq_refl) in *. eapply ok_bind; [apply (each_added x), H|]. intros [[fin|] w'] K; [|exact Logic.I]. unfold ok.
      apply Forall2_app; [apply G, TB|]. constructor; [apply part_fin, K|apply G, F].
    - specialize (IH (before ++ [(w, busy)]) (xs ++ [x]) xs0). rewrite <- app_assoc in IH. apply IH; [|exact F]. apply Forall2_app; [exact TB|]. constructor; [exact H|constructor].
  Qed.
  Lemma each_display ps : forall xs mx, Forall2 partP xs ps ->
    ok any (fun r => let '(b, l, _) := r in if b : bool then Forall2 (fun x p => partP x (fst p)) xs l else True) (display h sc coll dm ps mx).
  Proof.
    induction ps as [|[w busy] t IH]; intros xs mx T; inversion T as [|x p xs0 ps H F E1 E2]; subst; [constructor|].
    cbn [display]. destruct busy.
    - eapply ok_bind; [apply (ONE x), H|]. intros [[fin|] w'] K; [|exact Logic.I].
      eapply ok_bind; [apply (IH xs0 _ F)|]. intros [[b l] mx'] C. cbn [ok]. destruct b; [|exact Logic.I]. constructor; [apply part_fin, K|exact C].
    - eapply ok_bind; [apply (IH xs0 _ F)|]. intros [[b l] mx'] C. cbn [ok]. destruct b; [|exact Logic.I]. constructor; [exact H|exact C].
  Qed.
  Lemma each_items f : forall xs ps, Forall2 partP xs ps -> ok any (fun r => fst r = true -> Forall2 doneP xs (snd r)) (redraw_items h sc coll dm f ps).
  Proof.
    induction f as [|f IH]; intros xs ps T; [exact Logic.I|]. cbn [redraw_items]. destruct (existsb snd ps) eqn:EX.
    - eapply ok_bind; [apply (each_gap (S f) ps [] [] xs (Forall2_nil _) T)|]. intros [[[|] ps']|] H; cbn [app] in H; [apply IH, H|cbn; discriminate|].
      eapply ok_bind; [apply (each_display ps xs 0 T)|]. intros [[b l] mx] C. destruct b; [|cbn; discriminate].
      apply IH. clear - C LINE_B LINE_D. induction C as [|x p xs l H _ IHl]; constructor; [|exact IHl]. destruct p as [[w busy] y]. cbn [fst snd] in *. apply part_y, H.
    - cbn. intros _. clear - T EX. induction T as [|x [w busy] xs ps H _ IHl]; cbn [existsb map] in *; constructor.
      + destruct busy; [discriminate|]. exact H.
      + apply IHl. destruct busy; [discriminate|exact EX].
  Qed.
  Lemma each_window xs ws vs : redraw_all h sc coll dm ws = Done (true, vs) -> Forall2 (fun x w => busyP x (start w)) xs ws -> Forall2 doneP xs vs.
  Proof.
    intros R H. assert (Q := each_items (items_fuel h) xs (map (fun w => (start w, true)) ws)). fold (redraw_all h sc coll dm ws) in Q. rewrite R in Q. cbn [ok fst snd] in Q.
    apply Q; [|reflexivity]. clear - H. induction H; constructor; [assumption|assumption].
  Qed.
End Each.

Definition last_error {A} (l : list A) : option A := hd_error (rev l).
Lemma last_error_app {A} (l : list A) x : last_error (l ++ [x]) = Some x.
Proof. unfold last_error. rewrite rev_app_distr. reflexivity. Qed.

Section Rows.
  Variable (r : node) (h : list elem) (sc : screen) (coll : list Z) (dm : mat).
  Hypothesis M : in_memory r.
  Hypothesis LK : forall i, In i (ids r) -> lookup h i = lookup (elems r) i.
  Hypothesis LEN : (length (elems r) <= length h)%nat.
  Notation R := (rows coll r).

  Definition is_drawn (x : Z * bool * Z) : bool := negb (snd (fst x)) && mem (fst (fst x)) R.
  Definition drawn_rows (w : win) : list Z := rev (map (fun x => fst (fst x)) (filter is_drawn (wlog w))).
  Definition stack_ok (st : list (Z * node)) : Prop := Forall (fun x => -1 <= fst x /\ In (ENode (snd x)) (elems r)) st.
  Definition adj (l : Z) (ds : list Z) (w : win) : Prop :=
    if wfound w then exists pre q, ds = pre ++ l :: q /\ wup w = last_error pre /\ wdown w = hd_error q
    else wup w = last_error ds /\ wdown w = None /\ ~ In l ds.
  Definition same_doc (l : Z) (w : win) : Prop := wroot w = r /\ wlast w = Some l /\ held w.
  Definition between (l : Z) (rest : list Z) (w : win) : Prop :=
    same_doc l w /\ stack_ok (wstack w) /\ adj l (drawn_rows w) w /\ R = drawn_rows w ++ rest ++ to_come coll (wstack w).
  (** [e] is being drawn and has not been logged. *)
  Definition pending (l : Z) (e : elem) (w : win) : Prop :=
    same_doc l w /\ stack_ok (wstack w) /\ adj l (drawn_rows w ++ [eid e]) w /\ R = drawn_rows w ++ rows_elem coll e ++ to_come coll (wstack w).
  Definition drew (l : Z) (x : bool * win) : Prop :=
    (exists rest, between l rest (snd x)) /\ (fst x = true -> between l [] (snd x)).

  Lemma between_drew l rest w b : between l rest w -> (b = true -> rest = []) -> drew l (b, w).
  Proof. intros B E. split; [exists rest; exact B|]. cbn [fst snd]. intros Q. rewrite (E Q) in B. exact B. Qed.

  Lemma check_pending l e w : same_doc l w -> stack_ok (wstack w) -> adj l (drawn_rows w) w -> R = drawn_rows w ++ rows_elem coll e ++ to_come coll (wstack w) ->
    In e (elems r) -> parent_is_entry (elems r) e = false -> pending l e (check h e w).
  Proof.
    intros (E1 & E2 & E3) S A ER IN PE. assert (PH : parent_is_entry h e = false) by (rewrite (parent_h r h M LK e IN); exact PE).
    assert (Q : wstack (check h e w) = wstack w /\ wroot (check h e w) = wroot w /\ wlast (check h e w) = wlast w /\ wlog (check h e w) = wlog w /\ wsel (check h e w) = wsel w).
    { unfold check. destruct (negb (wfound w)); [destruct (sel_is _ _); [destruct (_ <=? _)|destruct (negb _)]; repeat split|].
      destruct (wdown w); [repeat split|]. cbv zeta. destruct (lookup _ _); [destruct (negb _)|]; repeat split. }
    destruct Q as (Q1 & Q2 & Q3 & Q4 & Q5). unfold pending, same_doc, held, drawn_rows. rewrite Q1, Q2, Q3, Q4, Q5. fold (drawn_rows w). split; [auto|]. split; [exact S|]. split; [|exact ER].
    assert (NI : ~ In (eid e) (drawn_rows w)).
    { assert (ND := rows_NoDup r M coll). rewrite ER in ND. unfold rows_elem in ND. cbn [app] in ND. apply NoDup_remove_2 in ND. intros I. apply ND, in_or_app. auto. }
    clear - A E2 PH NI IN M LK. unfold adj, check in *. destruct (wfound w) eqn:F; cbn [negb].
    - destruct A as (pre & q & ED & U & D). destruct q as [|d q]; cbn [hd_error] in D.
      + rewrite D. cbv zeta.
        assert (IT : match epar e with Some p => if negb match e with ENode n => is_container n | _ => false end && negb (sel_is (wlast w) p) && is_entry h p then p else eid e | None => eid e end = eid e).
        { unfold parent_is_entry in PH. destruct (epar e); [rewrite PH, andb_false_r|]; reflexivity. }
        rewrite IT, (lookup_h r h M LK e IN), PH. cbn [negb]. cbn [wfound set_wdown]. rewrite F. exists pre, [eid e]. rewrite ED, <- app_assoc. auto.
      + rewrite D. rewrite F. exists pre, ((d :: q) ++ [eid e]). rewrite ED, <- app_assoc. auto.
    - destruct A as (U & D & N). rewrite E2. cbn [sel_is]. destruct (l =? eid e) eqn:E.
      + apply Z.eqb_eq in E. subst l. cbn [wfound set_wfound]. exists (drawn_rows w), []. split; [reflexivity|]. destruct (_ <=? _); cbn; auto.
      + rewrite PH. cbn [negb]. cbn [wfound set_wup]. rewrite F. cbn [wup wdown set_wup]. rewrite last_error_app. split; [reflexivity|]. split; [exact D|].
        intros I. apply in_app_or in I. destruct I as [I|[I|[]]]; [exact (N I)|]. apply Z.eqb_neq in E. congruence.
  Qed.

  Lemma put_rest s i c len maxw w : ok any (fun w' => wlog w' = (i, c, wy w) :: wlog w /\ wroot w' = wroot w /\ wlast w' = wlast w /\ wsel w' = wsel w /\ wstack w' = wstack w /\
    wfound w' = wfound w /\ wup w' = wup w /\ wdown w' = wdown w) (put dm s i c len maxw w).
  Proof.
    unfold put. destruct (_ <=? _); [cbn; repeat split|]. destruct (getNbLines _ _); [|exact Logic.I]. cbn [lift SplitView.bind ok]. unfold displayDiffOp. destruct (shown_op _ _); cbn; repeat split.
  Qed.
  Lemma log_row w w' i y : wlog w' = (i, false, y) :: wlog w -> In i R -> drawn_rows w' = drawn_rows w ++ [i].
  Proof. intros E I. unfold drawn_rows. rewrite E. cbn [filter]. unfold is_drawn at 1. cbn [fst snd negb andb]. apply mem_In in I. rewrite I. reflexivity. Qed.
  Lemma log_other w w' i c y : wlog w' = (i, c, y) :: wlog w -> c = true \/ ~ In i R -> drawn_rows w' = drawn_rows w.
  Proof.
    intros E I. unfold drawn_rows. rewrite E. cbn [filter]. unfold is_drawn at 1. cbn [fst snd].
    destruct I as [-> | I]; [reflexivity|]. apply mem_not in I. rewrite I, andb_false_r. reflexivity.
  Qed.
  Lemma pending_row l e w : pending l e w -> In (eid e) R.
  Proof. intros (_ & _ & _ & E). rewrite E. apply in_or_app. right. left. reflexivity. Qed.

  Lemma logged_first l e w w' y : pending l e w -> wlog w' = (eid e, false, y) :: wlog w /\ wroot w' = wroot w /\ wlast w' = wlast w /\ wsel w' = wsel w /\ wstack w' = wstack w /\
    wfound w' = wfound w /\ wup w' = wup w /\ wdown w' = wdown w -> between l (inside coll (value_of e)) w'.
  Proof.
    intros P (L1 & L2 & L3 & L4 & L5 & L6 & L7 & L8). assert (I := pending_row l e w P). destruct P as (D & S & A & E).
    unfold between, same_doc, held, adj in *. rewrite (log_row w w' _ _ L1 I), L2, L3, L4, L5, L6, L7, L8. split; [exact D|]. split; [exact S|]. split; [exact A|].
    rewrite E. unfold rows_elem. rewrite <- !app_assoc. reflexivity.
  Qed.
  Lemma logged_more l rest w w' i c y : between l rest w -> c = true \/ ~ In i R -> wlog w' = (i, c, y) :: wlog w /\ wroot w' = wroot w /\ wlast w' = wlast w /\ wsel w' = wsel w /\ wstack w' = wstack w /\
    wfound w' = wfound w /\ wup w' = wup w /\ wdown w' = wdown w -> between l rest w'.
  Proof.
    intros (D & S & A & E) I (L1 & L2 & L3 & L4 & L5 & L6 & L7 & L8).
    unfold between, same_doc, held, adj in *. rewrite (log_other w w' _ _ _ L1 I), L2, L3, L4, L5, L6, L7, L8. auto.
  Qed.

  Lemma push_between l n w x : mem (nid n) coll = false -> In (ENode n) (elems r) -> between l (inside coll n) w -> between l [] (set_wx (set_wstack w ((-1, n) :: wstack w)) x).
  Proof.
    intros C I (D & S & A & E). split; [exact D|]. split; [constructor; [split; [cbn; lia|exact I]|exact S]|]. split; [exact A|].
    rewrite E. rewrite inside_children, C. reflexivity.
  Qed.

  Lemma open_between l n w (P : forall e t s d f, ok any (between l (inside coll n)) (put dm s (nid n) false d f (prints e t w))) : In (ENode n) (elems r) -> ok any (drew l) (open_container sc coll dm n w).
  Proof.
    intros IN. unfold open_container. destruct (mem (nid n) coll) eqn:C.
    - eapply ok_bind; [apply P|]. intros w' B. apply (between_drew l _ _ _ B). intros _. rewrite inside_children, C. reflexivity.
    - eapply ok_bind; [apply P|]. intros w' B. destruct (bottom _ _); [split; [exists (inside coll n); exact B|discriminate]|].
      apply (between_drew l []); [apply push_between; assumption|reflexivity].
  Qed.

  Lemma elem_between l e w : same_doc l w -> stack_ok (wstack w) -> adj l (drawn_rows w) w -> R = drawn_rows w ++ rows_elem coll e ++ to_come coll (wstack w) ->
    In e (elems r) -> parent_is_entry (elems r) e = false -> ok any (drew l) (draw_elem h sc coll dm e w).
  Proof.
    intros D S A E IN PE. unfold draw_elem. assert (P := check_pending l e w D S A E IN PE). set (w1 := check h e w) in *. clearbody w1. cbv zeta.
    assert (FIRST : forall e' t s d f, ok any (between l (inside coll (value_of e))) (put dm s (eid e) false d f (prints e' t w1))).
    { intros e' t s d f. eapply ok_mono; [apply put_rest|]. intros w' L. apply (logged_first l e w1 w' _ P L). }
    destruct e as [n|m k v].
    - destruct (is_container n) eqn:C; [apply open_between; assumption|].
      eapply ok_bind; [apply FIRST|]. intros w' B. apply (between_drew l _ _ _ B). intros _. apply prim_inside, C.
    - unfold draw_entry. assert (IV := value_in r _ IN). cbn [value_of] in *.
      assert (KA : inside coll v = [] -> forall tx x, ok any (drew l) (r <~ key_after sc dm (EEntry m k v) tx x w1 ; let '(b, w) := r in Done (b && negb (bottom sc w), w))).
      { intros I tx x. eapply ok_bind with (P := fun y => between l [] (snd y)).
        - unfold key_after. destruct (wy w1 <=? wscroll w1); [|eapply ok_bind; [apply FIRST|]; intros w' B; rewrite I in B; exact B].
          cbn [ok snd]. rewrite <- I. apply (logged_first l (EEntry m k v) w1 _ (wy w1) P). repeat split.
        - intros [b w'] B. apply (between_drew l _ _ _ B). reflexivity. }
      destruct (is_container v) eqn:CV; cbn [andb negb]; [|apply KA, prim_inside, CV].
      destruct (mem (nid v) coll) eqn:C; [apply KA; rewrite inside_children, C; reflexivity|].
      destruct (children v) as [|x xs] eqn:CH; [apply KA; rewrite inside_children, C, CH; reflexivity|].
      eapply ok_bind with (P := fun y => between l (inside coll v) (snd y)).
      + unfold key_alone. destruct (wy w1 <=? wscroll w1); [|eapply ok_bind; [apply FIRST|]; intros w' B; exact B].
        cbn [ok snd]. apply (logged_first l (EEntry m k v) w1 _ (wy w1) P). repeat split.
      + intros [[|] w'] B; cbn [snd] in B; [|split; [eexists; exact B|discriminate]].
        eapply ok_bind.
        * apply ok_and; [|apply open_result]. apply open_between; [|exact IV]. intros e' t s d f. eapply ok_mono; [apply put_rest|]. intros w'' L. eapply logged_more; [exact B| |exact L].
          right. intros Q. destruct (place_of r coll _ Q) as (k0 & pre0 & e0 & post0 & P0 & E0). assert (X := place_row r M _ _ _ _ _ P0).
          assert (e0 = ENode v) by (apply (eid_inj r M); [eapply place_in, P0|exact IV|exact E0]). subst e0. rewrite (value_not_row r M m k v IN) in X. discriminate X.
        * intros [b w''] [[X Y] Z]. cbn [fst snd] in *. split; [exact X|]. cbn [fst snd]. intros Q. apply Y. congruence.
  Qed.

  Definition ready_for (l : Z) (w : win) : Prop :=
    between l [] w \/ (wstack w = [] /\ same_doc l w /\ wlog w = [] /\ wfound w = false /\ wup w = None /\ wdown w = None).
  Lemma next_between l w : ready_for l w -> wstack w <> [] \/ wlog w = [] -> ok any (drew l) (draw_next h sc coll dm w).
  Proof.
    intros T NE. unfold draw_next. destruct (wstack w) as [|[i c] t] eqn:ST.
    - destruct NE as [NE|NE]; [contradiction|].
      assert (DR : drawn_rows w = []) by (unfold drawn_rows; rewrite NE; reflexivity).
      destruct T as [(D & S & A & E)|(_ & D & _ & F & U & DN)].
      + exfalso. rewrite ST, DR in E. discriminate E.
      + assert (RO : wroot w = r) by apply D. rewrite RO. apply elem_between; [exact D|rewrite ST; constructor|unfold adj; rewrite F, DR, U, DN; auto|rewrite DR, ST; unfold rows; cbn [app to_come flat_map]; rewrite app_nil_r; reflexivity|apply root_in|apply (root_row r M)].
    - destruct T as [(D & S & A & E)|(X & _)]; [|rewrite ST in X; discriminate X]. rewrite ST in *. inversion S as [|? ? (S1 & S2) S3]; subst. cbn [fst snd] in S1, S2. cbn [to_come flat_map fst snd app] in E. fold (to_come coll t) in E.
      destruct (i + 1 =? Z.of_nat (length (children c))) eqn:EL.
      + unfold close_container. rewrite skipn_all2 in E by lia. cbn [rowsL flat_map app] in E.
        eapply ok_bind; [apply put_rest|]. intros w' L. apply (between_drew l []); [|reflexivity].
        eapply logged_more; [|left; reflexivity|exact L]. split; [exact D|]. split; [exact S3|]. split; [exact A|exact E].
      + destruct (nth_error (children c) (Z.to_nat (i + 1))) as [e|] eqn:NTH; [|exact Logic.I]. assert (J := nth_error_In _ _ NTH).
        apply elem_between; [exact D|constructor; [split; [cbn; lia|exact S2]|exact S3]|exact A| |exact (kid_in r c e S2 J)|exact (kid_row r M c e S2 J)].
        assert (SK : skipn (Z.to_nat (i + 1)) (children c) = e :: skipn (Z.to_nat (i + 1 + 1)) (children c)).
        { replace (Z.to_nat (i + 1 + 1)) with (Datatypes.S (Z.to_nat (i + 1))) by lia. clear - NTH. revert NTH. generalize (Z.to_nat (i + 1)). generalize (children c).
          induction l as [|x l IH]; intros [|n]; try discriminate; [intros [= ->]; reflexivity|apply IH]. }
        rewrite SK in E. cbn [rowsL flat_map] in E. rewrite <- app_assoc in E. exact E.
  Qed.

  (** The window is drawn: [q] follows the last selection [l], [rest] is not drawn. *)
  Definition drawn_all (l : Z) (w : win) : Prop :=
    same_doc l w /\ exists pre q rest, drawn_rows w = pre ++ l :: q /\ R = pre ++ l :: q ++ rest /\ wup w = Some (hd l (rev pre)) /\
    exists d, wdown w = Some d /\ (d = hd l (q ++ rest) \/
      q = [] /\ (d = l \/ In d rest) /\ forall n, wsel w = Some l -> nid n = l -> In (ENode n) (elems r) -> inside coll n = []).
  Definition under_way (l : Z) (w : win) : Prop := ready_for l w /\ (wstack w <> [] \/ wlog w = []).


  Lemma place_split l pre rest : R = pre ++ l :: rest -> exists k e post, place r coll k pre e post /\ eid e = l /\ rest = inside coll (value_of e) ++ post.
  Proof.
    intros E. assert (I : In l R) by (rewrite E; apply in_or_app; right; left; reflexivity). destruct (place_of r coll l I) as (k & pre' & e & post & P & EI).
    assert (X := place_rows r _ _ _ _ _ P). rewrite E in X. unfold rows_elem in X. cbn [app] in X. rewrite EI in X.
    assert (Y : pre = pre' /\ rest = inside coll (value_of e) ++ post).
    { assert (N := rows_NoDup r M coll). rewrite E in N. clear - N X. revert pre' X N. induction pre as [|x pre IH]; intros [|y pre'] X N; cbn [app] in *.
      - injection X as X. auto.
      - injection X as <- X. exfalso. inversion N as [|? ? N1 _]; subst. apply N1, in_or_app. right. left. reflexivity.
      - injection X as -> X. exfalso. inversion N as [|? ? N1 _]; subst. apply N1, in_or_app. right. left. reflexivity.
      - injection X as <- X. inversion N as [|? ? _ N2]; subst. destruct (IH pre' X N2) as [-> ->]. auto. }
    destruct Y as [-> ->]. exists k, e, post. auto.
  Qed.

  Lemma one_rows l w : In l R -> under_way l w -> ok any (item_ok Z under_way drawn_all l) (one_item h sc coll dm w).
  Proof.
    intros IL [T NE]. unfold one_item. eapply ok_bind; [apply (next_between l w T NE)|]. intros [b w'] [(rest & BT) FIN]. cbn [fst snd] in *.
    destruct (negb b || _) eqn:EB; [|unfold ok, item_ok; split; [left; apply FIN; destruct b; [reflexivity|discriminate]|left; destruct (wstack w'); [destruct b; discriminate|discriminate]]].
    destruct (negb b && negb (wfound w')) eqn:E2; [exact Logic.I|].
    assert (FD : wfound w' = true).
    { destruct b; cbn [negb andb orb] in *; [|apply negb_false_iff, E2]. destruct (wfound w') eqn:F; [reflexivity|]. exfalso.
      destruct (FIN eq_refl) as (_ & _ & A & E). unfold adj in A. rewrite F in A. destruct (wstack w'); [|discriminate]. cbn [to_come flat_map app] in E. rewrite app_nil_r in E. rewrite E in IL. apply A, IL. }
    destruct BT as (D & _ & A & E). unfold adj in A. rewrite FD in A. destruct A as (pre & q & ED & U & DN). set (more := rest ++ to_come coll (wstack w')) in E. clearbody more.
    assert (ER : R = pre ++ l :: q ++ more) by (rewrite E, ED, <- app_assoc; reflexivity).
    assert (UP : match wup w' with Some u => Some u | None => wlast w' end = Some (hd l (rev pre))).
    { rewrite U. destruct D as (_ & -> & _). unfold last_error. destruct (rev pre); reflexivity. }
    destruct (place_split l pre _ ER) as (k & e & post & P & EI & ES). assert (IE := place_in r _ _ _ _ _ P).
    eapply ok_bind with (P := fun down => exists d, down = Some d /\ (d = hd l (q ++ more) \/
      q = [] /\ (d = l \/ In d more) /\ forall n, wsel w' = Some l -> nid n = l -> In (ENode n) (elems r) -> inside coll n = [])).
    - rewrite DN. destruct q as [|d q]; cbn [hd_error]; [|exists d; split; [reflexivity|left; reflexivity]]. cbn [app] in *.
      assert (LKE : lookup h l = Some e) by (rewrite <- EI; apply (lookup_h r h M LK), IE).
      assert (NXT : (forall n, wsel w' = Some l -> nid n = l -> In (ENode n) (elems r) -> inside coll n = []) ->
        ok any (fun down => exists d, down = Some d /\ (d = hd l more \/ @nil Z = [] /\ (d = l \/ In d more) /\ forall n, wsel w' = Some l -> nid n = l -> In (ENode n) (elems r) -> inside coll n = []))
          (i <~ lift (wlast w') ; next <~ lift (findNext (S (length h)) h i) ; Done (Some (match next with Some r => r | None => i end)))).
      { intros NC. destruct D as (_ & -> & _). cbn [lift SplitView.bind]. rewrite <- EI. rewrite (findNext_h r h M LK _ _ (elem_id r _ IE)).
        assert (DP : (k < S (length h))%nat). { assert (X := place_deep r _ _ _ _ _ P). unfold deep, mem_of in X. lia. }
        destruct (findNext_place r M _ _ _ _ _ P _ DP) as (o & -> & OO). cbn [lift SplitView.bind ok]. eexists. split; [reflexivity|]. right. split; [reflexivity|]. rewrite EI. split; [|exact NC].
        destruct OO as [->|(x & post' & -> & ->)]; [left; reflexivity|]. right. rewrite ES. apply in_or_app. right. left. reflexivity. }
      destruct (wsel w') as [i|] eqn:WS.
      + assert (i = l) by (destruct D as (_ & L & H); specialize (H i WS); congruence). subst i. rewrite LKE. cbn [lift SplitView.bind].
        destruct e as [n|mm kk v].
        * destruct (mem (nid n) coll) eqn:C.
          -- apply NXT. intros n' _ EN' IN'. assert (X : ENode n' = ENode n) by (apply (eid_inj r M); [exact IN'|exact IE|cbn [eid] in *; congruence]). injection X as ->. rewrite inside_children, C. reflexivity.
          -- destruct (children n) as [|c cs] eqn:CH.
             ++ apply NXT. intros n' _ EN' IN'. assert (X : ENode n' = ENode n) by (apply (eid_inj r M); [exact IN'|exact IE|cbn [eid] in *; congruence]). injection X as ->. rewrite inside_children, C, CH. reflexivity.
             ++ cbn [SplitView.bind ok]. exists (eid c). split; [reflexivity|]. left. rewrite ES. cbn [value_of]. rewrite inside_children, C, CH. reflexivity.
        * apply NXT. intros n' _ EN' IN'. exfalso. assert (X : ENode n' = EEntry mm kk v) by (apply (eid_inj r M); [exact IN'|exact IE|cbn [eid] in *; congruence]). discriminate X.
      + cbn [SplitView.bind]. apply NXT. intros n' X. discriminate X.
    - intros down (d & -> & DD). cbn [ok item_ok]. split; [exact D|]. exists pre, q, more. split; [exact ED|]. split; [exact ER|]. split; [exact UP|]. exists d. split; [reflexivity|exact DD].
  Qed.
  Lemma start_under_way l w : wroot w = r -> wlast w = Some l -> held w -> under_way l (start w).
  Proof. intros E L H. split; [right|right; reflexivity]. repeat split; assumption. Qed.
End Rows.


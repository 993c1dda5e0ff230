(** shortestPath, cleanMatrice and the making of the arrays. *)
From Coq Require Import Permutation Lia ZArith List.
From Verif Require Import Proofs.DiffProofs.
From Verif Require Import Spec.HeapSpec.
From Verif Require Import Model.Heap Model.DiffMem Proofs.HeapProofs Proofs.DiffMemProofs Proofs.DiffMemMatrix.
Open Scope Z_scope.
Open Scope mem_scope.

Section Path.
  Variables (X Y : Z) (Rs Ss : list Z) (h0 : heap) (res : Z) (la lb : list elem).
  Variables (t0 : list icell) (T1 : list (list icell)) (t : list (list cell)) (dist : option Z) (rel : option spec_float).
  Let n := length la.
  Let m := length lb.
  Hypothesis FT : Forall2 (Forall2 like) (t0 :: T1) t.
  Hypothesis LT : length T1 = n.
  Hypothesis FL : Forall (fun r => length r = S m) (t0 :: T1).
  Let G := map (map val) (t0 :: T1).
  Let P := map (fun r => map kept (tl r)) T1.

  Lemma cell_get i j : (i <= n)%nat -> (j <= m)%nat -> exists row c,
    nth_error (t0 :: T1) i = Some row /\ nth_error row j = Some c /\ like c (cell_at t i j).
  Proof.
    intros HI HJ. destruct (nth_some (t0 :: T1) i) as [row ER]; [cbn; lia|].
    destruct (F2_nth1 _ _ _ _ _ FT ER) as (trow & ET & FR).
    assert (LR : length row = S m). { rewrite Forall_forall in FL. apply FL. eapply nth_error_In; eauto. }
    destruct (nth_some row j) as [c EC]; [lia|]. destruct (F2_nth1 _ _ _ _ _ FR EC) as (c' & EC' & LK).
    exists row, c. split; [exact ER|]. split; [exact EC|]. unfold cell_at. erewrite (nth_error_nth t i []) by exact ET. erewrite (nth_error_nth trow j) by exact EC'. exact LK.
  Qed.
  Lemma read_cell i j ob h : (i <= n)%nat -> (j <= m)%nat -> St X Y Rs Ss h0 G P ob h ->
    read2 X (Z.of_nat i) (Z.of_nat j) h = Done (fst (cell_at t i j)) h.
  Proof.
    intros HI HJ HS. destruct (cell_get i j HI HJ) as (row & c & ER & EC & LK & _). rewrite <- LK.
    eapply St_read; [exact HS|unfold G; rewrite nth_error_map, ER; reflexivity|]. rewrite nth_error_map, EC. reflexivity.
  Qed.
  Lemma read_kept i j ob h : (i < n)%nat -> (j < m)%nat -> St X Y Rs Ss h0 G P ob h ->
    match snd (cell_at t (S i) (S j)) with
    | None => read2p Y (Z.of_nat i) (Z.of_nat j) h = Done None h
    | Some s => exists p o, read2p Y (Z.of_nat i) (Z.of_nat j) h = Done (Some p) h /\ In (p, BObj o) (objs T1) /\ tells o s
    end.
  Proof.
    intros HI HJ HS. destruct (cell_get (S i) (S j)) as (row & c & ER & EC & _ & LK); [lia|lia|]. cbn [nth_error] in ER.
    assert (ET : nth_error (tl row) j = Some c) by (destruct row; [discriminate|exact EC]).
    assert (R : read2p Y (Z.of_nat i) (Z.of_nat j) h = Done (option_map fst (snd c)) h).
    { eapply St_readp; [exact HS|unfold P; rewrite nth_error_map, ER; reflexivity|]. rewrite nth_error_map, ET. reflexivity. }
    destruct (snd c) as [[p o]|] eqn:SC; destruct (snd (cell_at t (S i) (S j))) as [s|]; try contradiction; [|exact R].
    exists p, o. split; [exact R|]. split; [|exact LK]. unfold objs. apply in_flat_map. exists c. split.
    - apply in_concat. exists (tl row). split; [|eapply nth_error_In; eauto]. apply in_map. eapply nth_error_In; eauto.
    - unfold obj_of. rewrite SC. now left.
  Qed.

  Lemma star_nth (l : list elem) i (h : heap) d : (i < length l)%nat -> star l (Some (Z.of_nat (S i) - 1)) h = Done (nth i l d) h.
  Proof.
    intros L. cbn [star]. replace (Z.of_nat (S i) - 1) with (Z.of_nat i) by lia. rewrite at_nat. destruct (nth_some l i L) as [x E]. rewrite E.
    now rewrite (nth_error_nth _ _ _ E).
  Qed.

  Definition going (ops : list (Z * op)) (eqs : list (Z * Z)) (h : heap) : Prop :=
    St X Y Rs Ss h0 G P ((res, BObj (Matrice ops eqs dist rel)) :: objs T1) h.
  Lemma change_ops f ops eqs h : going ops eqs h -> exists h', change res (set_ops f) h = Done tt h' /\ going (f ops) eqs h'.
  Proof. intros HS. exact (St_change _ _ _ _ _ _ _ _ _ _ _ (set_ops f) HS). Qed.
  Lemma change_eqv f ops eqs h : going ops eqs h -> exists h', change res (set_eqv f) h = Done tt h' /\ going ops (f eqs) h'.
  Proof. intros HS. exact (St_change _ _ _ _ _ _ _ _ _ _ _ (set_eqv f) HS). Qed.

  Lemma path_ok : forall fuel i j ops eqs h, (i <= n)%nat -> (j <= m)%nat -> (i + j <= fuel)%nat -> going ops eqs h ->
    wp (shortestPath res X Y la lb fuel (Z.of_nat i) (Z.of_nat j) (Some (Z.of_nat i - 1)) (Some (Z.of_nat j - 1))) h
      (fun _ h' => exists ops' eqs', walk t la lb fuel i j ops eqs = inl (ops', eqs') /\ going ops' eqs' h')
      (fun c => walk t la lb fuel i j ops eqs = inr c).
  Proof.
    induction fuel as [|fuel IH]; intros i j ops eqs h HI HJ HF HS.
    { assert (i = O) by lia. assert (j = O) by lia. subst. cbn. eauto. }
    cbn [shortestPath]. set (d := ENode (NPrim (mkMeta 0 None) PNull)).
    assert (RM : forall i', i = S i' -> forall W0, W0 = walk t la lb fuel i' j (mset (eid (nth i' la d)) OAdd ops) eqs ->
      wp (let! x := star la (Some (Z.of_nat i - 1)) in change res (set_ops (mset (eid x) OAdd)) >>>
        (let! i0 := dec (Some (Z.of_nat i - 1)) in shortestPath res X Y la lb fuel (Z.of_nat i - 1) (Z.of_nat j) i0 (Some (Z.of_nat j - 1)))) h
        (fun _ h' => exists ops' eqs', W0 = inl (ops', eqs') /\ going ops' eqs' h') (fun c => W0 = inr c)).
    { intros i' -> W0 ->. eapply wp_step; [apply (star_nth la i' h d); fold n; lia|].
      destruct (change_ops (mset (eid (nth i' la d)) OAdd) _ _ _ HS) as (h2 & E2 & HS2). eapply wp_step; [exact E2|].
      apply (wp_step _ _ _ (Some (Z.of_nat i' - 1)) h2); [cbn [dec]; unfold mret; repeat f_equal; lia|].
      replace (Z.of_nat (S i') - 1) with (Z.of_nat i') by lia. apply IH; auto; lia. }
    assert (INS : forall j', j = S j' -> forall W0, W0 = walk t la lb fuel i j' (mset (eid (nth j' lb d)) OAdd ops) eqs ->
      wp (let! y := star lb (Some (Z.of_nat j - 1)) in change res (set_ops (mset (eid y) OAdd)) >>>
        (let! j0 := dec (Some (Z.of_nat j - 1)) in shortestPath res X Y la lb fuel (Z.of_nat i) (Z.of_nat j - 1) (Some (Z.of_nat i - 1)) j0)) h
        (fun _ h' => exists ops' eqs', W0 = inl (ops', eqs') /\ going ops' eqs' h') (fun c => W0 = inr c)).
    { intros j' -> W0 ->. eapply wp_step; [apply (star_nth lb j' h d); fold m; lia|].
      destruct (change_ops (mset (eid (nth j' lb d)) OAdd) _ _ _ HS) as (h2 & E2 & HS2). eapply wp_step; [exact E2|].
      apply (wp_step _ _ _ (Some (Z.of_nat j' - 1)) h2); [cbn [dec]; unfold mret; repeat f_equal; lia|].
      replace (Z.of_nat (S j') - 1) with (Z.of_nat j') by lia. apply IH; auto; lia. }
    destruct i as [|i'], j as [|j'].
    - cbn. eauto.
    - replace (Z.of_nat (S j') =? 0) with false by (symmetry; apply Z.eqb_neq; lia). change (Z.of_nat 0 =? 0) with true. cbn [andb walk].
      eapply wp_step; [reflexivity|]. eapply wp_step; [reflexivity|]. apply (INS j' eq_refl _ eq_refl).
    - replace (Z.of_nat (S i') =? 0) with false by (symmetry; apply Z.eqb_neq; lia). change (Z.of_nat 0 =? 0) with true. cbn [andb walk].
      eapply wp_step; [reflexivity|]. apply (RM i' eq_refl _ eq_refl).
    - replace (Z.of_nat (S i') =? 0) with false by (symmetry; apply Z.eqb_neq; lia).
      replace (Z.of_nat (S j') =? 0) with false by (symmetry; apply Z.eqb_neq; lia). cbn [andb walk].
      fold d.
      apply (wp_step _ _ _ (fst (cell_at t i' (S j')) <? fst (cell_at t (S i') (S j'))) h).
      { erewrite bind_done by (eapply read_cell; [exact HI|exact HJ|exact HS]). replace (Z.of_nat (S i') - 1) with (Z.of_nat i') by lia.
        erewrite bind_done by (eapply read_cell; [|exact HJ|exact HS]; lia). reflexivity. }
      destruct (fst (cell_at t i' (S j')) <? fst (cell_at t (S i') (S j'))); [apply (RM i' eq_refl _ eq_refl)|].
      apply (wp_step _ _ _ (fst (cell_at t (S i') j') <? fst (cell_at t (S i') (S j'))) h).
      { erewrite bind_done by (eapply read_cell; [exact HI|exact HJ|exact HS]). replace (Z.of_nat (S j') - 1) with (Z.of_nat j') by lia.
        erewrite bind_done by (eapply read_cell; [exact HI| |exact HS]; lia). reflexivity. }
      destruct (fst (cell_at t (S i') j') <? fst (cell_at t (S i') (S j'))); [apply (INS j' eq_refl _ eq_refl)|].
      clear RM INS. eapply wp_step; [eapply read_cell; [exact HI|exact HJ|exact HS]|].
      replace (Z.of_nat (S i') - 1) with (Z.of_nat i') by lia. replace (Z.of_nat (S j') - 1) with (Z.of_nat j') by lia.
      eapply wp_step; [eapply (read_cell i' j'); [lia|lia|exact HS]|]. cbv zeta.
      set (o := if fst (cell_at t (S i') (S j')) =? fst (cell_at t i' j') then OEqu else OMod).
      apply (wp_step _ _ _ (nth i' la d) h).
      { replace (Z.of_nat i') with (Z.of_nat (S i') - 1) by lia. apply star_nth. fold n. lia. }
      apply (wp_step _ _ _ (nth j' lb d) h).
      { replace (Z.of_nat j') with (Z.of_nat (S j') - 1) by lia. apply star_nth. fold m. lia. }
      destruct (change_ops (fun ops => mset (eid (nth i' la d)) o (mset (eid (nth j' lb d)) o ops)) _ _ _ HS) as (h2 & E2 & HS2).
      eapply wp_step; [exact E2|]. clear h HS E2.
      pose proof (read_kept i' j' _ h2 ltac:(lia) ltac:(lia) HS2) as RK.
      destruct (snd (cell_at t (S i') (S j'))) as [s|].
      2:{ eapply wp_step; [exact RK|]. reflexivity. }
      destruct RK as (p & ob & RK & IO & (TA & TB & _ & _)). eapply wp_step; [exact RK|].
      eapply wp_step; [eapply St_obj; [exact HS2|right; exact IO]|]. rewrite TA, TB.
      destruct (change_ops (fold_left (fun l e => mset (fst e) (snd e) l) (mops s)) _ _ _ HS2) as (h3 & E3 & HS3). eapply wp_step; [exact E3|].
      destruct (change_eqv (fold_left (fun l e => mset (fst e) (snd e) l) (meqv s)) _ _ _ HS3) as (h4 & E4 & HS4). eapply wp_step; [exact E4|].
      destruct (change_eqv (mset (eid (nth i' la d)) (eid (nth j' lb d))) _ _ _ HS4) as (h5 & E5 & HS5). eapply wp_step; [exact E5|].
      eapply wp_step; [reflexivity|]. eapply wp_step; [reflexivity|]. apply IH; auto; lia.
  Qed.
End Path.

Lemma objs_cons row T1 : objs (row :: T1) = flat_map obj_of (tl row) ++ objs T1.
Proof. unfold objs. cbn [map concat]. apply flat_map_app. Qed.

Lemma clean_ok X Y Rs Ss h0 (G : list (list (option Z))) T1 n m r h (Q : unit -> heap -> Prop) D :
  length Rs = S n -> length T1 = n -> Forall (fun row => length row = S m) T1 ->
  St X Y Rs Ss h0 G (map (fun r => map kept (tl r)) T1) (r :: objs T1) h ->
  (forall h', owns [r] h0 h' -> Q tt h') -> wp (cleanMatrice X Y n m) h Q D.
Proof.
  intros LR LT FL (L1 & L2 & O) K. unfold cleanMatrice. rewrite map_length in L2.
  set (BG := map BInts G). set (BP := map BPtrs (map (fun r => map kept (tl r)) T1)).
  assert (LG : length BG = S n) by (unfold BG; rewrite map_length; lia).
  assert (LPP : length BP = n) by (unfold BP; rewrite !map_length; lia).
  set (px := (X, BPtrs (map ok Rs))). set (py := (Y, BPtrs (map ok Ss))).
  apply wp_bind. eapply wp_mono; [eapply (for_ok (fun k _ h => owns (px :: py :: combine (skipn k Rs) (skipn k BG) ++ combine (skipn k Ss) (skipn k BP) ++ objs (skipn k T1) ++ [r]) h0 h) D)|..].
  - eapply owns_perm; [|exact O]. unfold blocks. fold px py BG BP. do 2 apply perm_skip. cbn [skipn]. do 2 apply Permutation_app_head. apply Permutation_cons_append.
  - clear h O. intros k [] h HK O. cbn [Z.add].
    destruct (nth_some Rs k) as [rk RK]; [lia|]. destruct (nth_some BG k) as [bk EB]; [lia|].
    rewrite (skipn_nth _ _ _ RK), (skipn_nth _ _ _ EB) in O. cbn [combine app] in O.
    apply wp_bind. eapply wp_step; [eapply read_ptr_ok; [exact O|now left|rewrite nth_error_map, RK; reflexivity]|]. cbn [deref].
    apply (wp_step _ _ _ rk h); [reflexivity|].
    assert (O' : owns ((rk, bk) :: px :: py :: combine (skipn (k + 1) Rs) (skipn (k + 1) BG) ++ combine (skipn k Ss) (skipn k BP) ++ objs (skipn k T1) ++ [r]) h0 h).
    { eapply owns_perm; [|exact O]. eapply perm_trans; [apply perm_skip; apply perm_swap|apply perm_swap]. }
    destruct (delete_array_ok _ _ _ _ _ O') as (h2 & E2 & O2).
    { unfold BG in EB. rewrite nth_error_map in EB. destruct (nth_error G k); [|discriminate]. injection EB as <-. exact Logic.I. }
    eapply wp_done; [exact E2|]. clear h O O' E2.
    destruct (Z.eqb_spec (Z.of_nat k) (Z.of_nat n)) as [EK|NK].
    + assert (k = n) by lia. subst k. apply wp_ret.
      rewrite (skipn_all2 Ss), (skipn_all2 T1) in O2 by lia. rewrite (skipn_all2 Ss (n := (n + 1)%nat)), (skipn_all2 T1 (n := (n + 1)%nat)) by lia. exact O2.
    + assert (KN : (k < n)%nat) by lia. destruct (nth_some T1 k) as [row ER]; [lia|]. destruct (nth_some Ss k) as [sk SK]; [lia|].
      assert (EP : nth_error BP k = Some (BPtrs (map kept (tl row)))) by (unfold BP; rewrite !nth_error_map, ER; reflexivity).
      assert (LRow : length (tl row) = m).
      { rewrite Forall_forall in FL. specialize (FL row (nth_error_In _ _ ER)). destruct row; cbn in *; lia. }
      rewrite (skipn_nth _ _ _ SK), (skipn_nth _ _ _ EP), (skipn_nth _ _ _ ER), objs_cons, <- app_assoc in O2. cbn [combine] in O2.
      set (CR := combine (skipn (k + 1) Rs) (skipn (k + 1) BG)) in *. set (CS := combine (skipn (k + 1) Ss) (skipn (k + 1) BP)) in *.
      set (bs := (sk, BPtrs (map kept (tl row)))) in *. set (rest := objs (skipn (k + 1) T1) ++ [r]) in *.
      apply wp_bind. eapply wp_mono; [eapply (for_ok (fun j _ h => owns (px :: py :: CR ++ (bs :: CS) ++ flat_map obj_of (skipn j (tl row)) ++ rest) h0 h) D)|..].
      * exact O2.
      * clear h2 O2. intros j [] h HJ O. cbn [Z.add]. destruct (nth_some (tl row) j) as [c EC]; [lia|].
        eapply wp_step; [eapply (read2p_ok _ _ _ Y (map ok Ss) k sk (map kept (tl row)) j); [exact O|right; now left|rewrite nth_error_map, SK; reflexivity| |rewrite nth_error_map, EC; reflexivity]|].
        { right. right. apply in_or_app. right. now left. }
        rewrite (skipn_nth _ _ _ EC) in O. cbn [flat_map] in O. unfold obj_of at 1 in O.
        destruct (snd c) as [[p o]|]; cbn [option_map fst]; [|apply wp_ret; exact O].
        rewrite <- app_assoc in O. cbn [app] in O.
        assert (O' : owns ((p, BObj o) :: px :: py :: CR ++ (bs :: CS) ++ flat_map obj_of (skipn (j + 1) (tl row)) ++ rest) h0 h).
        { eapply owns_perm; [|exact O]. symmetry. eapply perm_trans; [apply perm_swap|]. apply perm_skip. eapply perm_trans; [apply perm_swap|]. apply perm_skip.
          change (bs :: CS ++ ?l) with ((bs :: CS) ++ l). rewrite !(app_assoc CR (bs :: CS)). apply Permutation_middle. }
        destruct (delete_obj_ok _ _ _ _ _ O') as (h3 & E3 & O3). eapply wp_done; [exact E3|exact O3].
      * clear h2 O2. cbn beta. intros [] h O. rewrite skipn_all2 in O by lia. cbn [flat_map app] in O.
        eapply wp_step; [eapply read_ptr_ok; [exact O|right; now left|rewrite nth_error_map, SK; reflexivity]|]. cbn [deref].
        apply (wp_step _ _ _ sk h); [reflexivity|].
        assert (O' : owns (bs :: px :: py :: CR ++ CS ++ rest) h0 h).
        { eapply owns_perm; [|exact O]. symmetry. eapply perm_trans; [apply perm_swap|]. apply perm_skip. eapply perm_trans; [apply perm_swap|]. apply perm_skip.
          apply Permutation_middle. }
        destruct (delete_array_ok _ _ _ _ _ O' Logic.I) as (h3 & E3 & O3). eapply wp_done; [exact E3|exact O3].
      * auto.
  - clear h O. cbn beta. intros [] h O. rewrite (skipn_all2 Rs), (skipn_all2 Ss), (skipn_all2 T1) in O by lia. cbn [combine app objs map concat flat_map] in O.
    destruct (delete_array_ok _ _ _ _ _ O Logic.I) as (h2 & E2 & O2). eapply wp_step; [exact E2|].
    destruct (delete_array_ok _ _ _ _ _ O2 Logic.I) as (h3 & E3 & O3). eapply wp_done; [exact E3|]. apply K. exact O3.
  - auto.
Qed.

(** The arrays when they have been made. *)
Definition row0 (W : Z) (m : nat) : list icell := map (fun j => (Z.of_nat j mod W, None)) (seq 0 (S m)).
Lemma row0_len W m : length (row0 W m) = S m.
Proof. unfold row0. now rewrite map_length, seq_length. Qed.
Lemma row0_at W m k : (k <= m)%nat -> nth_error (row0 W m) k = Some (Z.of_nat k mod W, None).
Proof.
  intros K. unfold row0. rewrite nth_error_map. rewrite (nth_error_nth' (seq 0 (S m)) O) by (rewrite seq_length; lia).
  rewrite seq_nth by lia. reflexivity.
Qed.
Lemma row0_like W m : Forall2 like (row0 W m) (dp_row0 W m).
Proof. unfold row0, dp_row0. induction (seq 0 (S m)); cbn; constructor; auto. split; [reflexivity|exact Logic.I]. Qed.

Lemma first_row_ok X n m W own h0 h (Q : unit -> heap -> Prop) D : owns ((X, BPtrs (repeat null (S n))) :: own) h0 h ->
  (forall r h', owns ((X, BPtrs (map ok [r] ++ repeat null n)) :: (r, BInts (map val (row0 W m))) :: own) h0 h' -> Q tt h') ->
  wp (first_row W X m) h Q D.
Proof.
  intros O K. unfold first_row, new_ints. apply wp_bind. change 0 with (Z.of_nat (@length Z [])) at 1.
  eapply (new_row_ok X [] n); [exact O|]. clear h O. cbn [app]. intros r h O.
  set (px := (X, BPtrs (map ok [r] ++ repeat null n))) in *.
  eapply wp_mono; [eapply (for_ok (fun k _ h => owns ((r, BInts (filled val None (row0 W m) k)) :: px :: own) h0 h) D)|..].
  - rewrite filled_0, row0_len. replace (S m) with (Z.to_nat (Z.of_nat m + 1)) by lia. exact O.
  - clear h O. intros k [] h HK O. cbn [Z.add].
    destruct (write2_ok _ _ _ X (map ok [r] ++ repeat null n) 0 r _ k (Z.of_nat k mod W) O) as (h2 & E2 & O2);
      [now left|reflexivity|rewrite filled_length; rewrite row0_len; lia|].
    eapply wp_done; [exact E2|]. rewrite <- filled_set with (v := ((Z.of_nat k mod W, None) : icell)); [exact O2|]. apply row0_at. lia.
  - clear h O. cbn beta. intros [] h O. rewrite filled_all in O by (rewrite row0_len; lia). apply (K r).
    eapply owns_perm; [apply perm_swap|exact O].
  - auto.
Qed.

Lemma perm4 {A} (bs py br px : A) c s o : Permutation (bs :: py :: br :: px :: c ++ s ++ o) (px :: py :: c ++ br :: s ++ bs :: o).
Proof.
  transitivity (px :: py :: br :: bs :: c ++ s ++ o).
  - transitivity (px :: bs :: py :: br :: c ++ s ++ o).
    + change (Permutation ([bs; py; br] ++ px :: c ++ s ++ o) (px :: [bs; py; br] ++ c ++ s ++ o)). symmetry. apply Permutation_middle.
    + apply perm_skip. change (Permutation (bs :: [py; br] ++ c ++ s ++ o) ([py; br] ++ bs :: c ++ s ++ o)). apply Permutation_middle.
  - do 2 apply perm_skip. transitivity (br :: c ++ s ++ bs :: o); [|apply Permutation_middle]. apply perm_skip.
    rewrite !app_assoc. apply Permutation_middle.
Qed.
Lemma other_rows_ok X Y n m W t0 r0 own h0 h (Q : unit -> heap -> Prop) D :
  owns ((X, BPtrs (map ok [r0] ++ repeat null n)) :: (r0, BInts (map val t0)) :: (Y, BPtrs (repeat null n)) :: own) h0 h ->
  (forall Rs Ss h', length Rs = S n -> length Ss = n ->
    St X Y Rs Ss h0 (map val t0 :: map (later W m) (seq 1 n)) (repeat (repeat null m) n) own h' -> Q tt h') ->
  wp (other_rows W X Y n m) h Q D.
Proof.
  intros O K. unfold other_rows.
  set (G := fun k => map val t0 :: map (later W m) (seq 1 k)). set (P := fun k => repeat (repeat null m) k).
  set (I := fun (k : nat) (_ : unit) (h : heap) => exists Rs Ss, length Rs = S k /\ length Ss = k /\
    owns ((X, BPtrs (map ok Rs ++ repeat null (n - k))) :: (Y, BPtrs (map ok Ss ++ repeat null (n - k))) ::
      combine Rs (map BInts (G k)) ++ combine Ss (map BPtrs (P k)) ++ own) h0 h).
  eapply wp_mono; [eapply (for_ok I D)|..].
  - exists [r0], []. split; [reflexivity|]. split; [reflexivity|]. rewrite Nat.sub_0_r. eapply owns_perm; [|exact O]. apply perm_skip. apply perm_swap.
  - clear h O. intros k [] h HK (Rs & Ss & LR & LS & O).
    replace (1 + Z.of_nat k) with (Z.of_nat (length Rs)) by lia. replace (Z.of_nat (length Rs) - 1) with (Z.of_nat (length Ss)) by lia.
    unfold new_ints, new_ptrs. apply wp_bind. replace (n - k)%nat with (S (n - (k + 1))) in O by lia.
    eapply (new_row_ok X Rs (n - (k + 1))); [exact O|]. clear h O. intros r h O.
    set (px := (X, BPtrs (map ok (Rs ++ [r]) ++ repeat null (n - (k + 1))))) in *.
    set (CR := combine Rs (map BInts (G k))) in *. set (CS := combine Ss (map BPtrs (P k))) in *.
    change 0 with (Z.of_nat 0) at 1.
    edestruct (write2_ok _ _ _ X (map ok (Rs ++ [r]) ++ repeat null (n - (k + 1))) (length Rs) r _ 0 (Z.of_nat (length Rs) mod W) O) as (h2 & E2 & O2);
      [now left|apply ptrs_nth|rewrite repeat_length; lia|].
    eapply wp_step; [exact E2|]. clear h O E2.
    replace (Z.to_nat (Z.of_nat m + 1)) with (S m) in O2 by lia. cbn [repeat set_nth] in O2. rewrite LR in O2. replace (S k) with (k + 1)%nat in O2 by lia. fold (later W m (k + 1)) in O2.
    set (br := (r, BInts (later W m (k + 1)))) in *.
    assert (O3 : owns ((Y, BPtrs (map ok Ss ++ repeat null (S (n - (k + 1))))) :: br :: px :: CR ++ CS ++ own) h0 h2).
    { eapply owns_perm; [|exact O2]. eapply perm_trans; [apply perm_skip; apply perm_swap|apply perm_swap]. }
    apply wp_bind. eapply (new_row_ok Y Ss (n - (k + 1))); [exact O3|]. clear h2 O2 O3. intros s h O.
    rewrite Nat2Z.id in O. set (tail := (Y, BPtrs (map ok (Ss ++ [s]) ++ repeat null (n - (k + 1)))) :: br :: px :: CR ++ CS ++ own) in *.
    set (nul := repeat (None : ptr) m). assert (LN : length nul = m) by apply repeat_length.
    eapply wp_mono; [eapply (for_ok (fun j _ h => owns ((s, BPtrs (filled Some None nul j)) :: tail) h0 h) D)|..].
    + rewrite filled_0, LN. exact O.
    + clear h O. intros j [] h HJ O. cbn [Z.add].
      edestruct (write2p_ok _ _ _ Y (map ok (Ss ++ [s]) ++ repeat null (n - (k + 1))) (length Ss) s _ j None O) as (h2 & E2 & O2);
        [now left|apply ptrs_nth|rewrite filled_length; lia|].
      eapply wp_done; [exact E2|]. rewrite <- filled_set with (v := (None : ptr)); [exact O2|]. unfold nul. apply nth_error_repeat. exact HJ.
    + clear h O. cbn beta. intros [] h O. rewrite filled_all in O by lia.
      assert (EN : map (@Some ptr) nul = repeat null m) by (unfold nul; clear; induction m; cbn; [reflexivity|now f_equal]).
      rewrite EN in O. exists (Rs ++ [r]), (Ss ++ [s]). rewrite !app_length. cbn [length]. split; [lia|]. split; [lia|].
      assert (EG : combine (Rs ++ [r]) (map BInts (G (k + 1)%nat)) = CR ++ [br]).
      { unfold G. replace (k + 1)%nat with (S k) by lia. rewrite seq_S. cbn [Nat.add]. rewrite map_app, app_comm_cons, map_app.
        rewrite combine_app by (rewrite map_length; cbn [length]; rewrite map_length, seq_length; lia). unfold CR, br, G. replace (k + 1)%nat with (S k) by lia. reflexivity. }
      assert (ES : combine (Ss ++ [s]) (map BPtrs (P (k + 1)%nat)) = CS ++ [(s, BPtrs (repeat null m))]).
      { unfold P. replace (k + 1)%nat with (S k) by lia. rewrite repeat_snoc, map_app.
        rewrite combine_app by (rewrite map_length, repeat_length; lia). reflexivity. }
      rewrite EG, ES. fold px. eapply owns_perm; [|exact O]. unfold tail. rewrite <- !app_assoc. cbn [app].
      set (bs := (s, BPtrs (repeat null m))). set (py := (Y, BPtrs (map ok (Ss ++ [s]) ++ repeat null (n - (k + 1))))).
      apply perm4.
    + auto.
  - clear h O. cbn beta. intros [] h (Rs & Ss & LR & LS & O). rewrite Nat.sub_diag in O. cbn [repeat] in O. rewrite !app_nil_r in O.
    apply (K Rs Ss h LR LS). split; [cbn [length]; rewrite map_length, seq_length; exact LR|]. split; [rewrite repeat_length; exact LS|]. exact O.
  - auto.
Qed.

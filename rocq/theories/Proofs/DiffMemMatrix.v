(** LevenshteinMatrice::build of Model/DiffMem.v: its arrays and what they hold. *)
From Coq Require Import Permutation Lia ZArith List.
From Verif Require Import Proofs.DiffProofs.
From Verif Require Import Spec.HeapSpec.
From Verif Require Import Model.Heap Model.DiffMem Proofs.HeapProofs Proofs.DiffMemProofs.
Open Scope Z_scope.
Open Scope mem_scope.

Definition refines (call : M Z) (o : outcome mat) : Prop := forall h, wf h ->
  wp call h (fun p h' => exists m ob, o = inl m /\ tells ob m /\ owns [(p, BObj ob)] h h') (fun c => o = inr c).

(** Rows of arrays, split at one. *)
Lemma set_nth_map {A B} (f : A -> B) i x l : map f (set_nth i x l) = set_nth i (f x) (map f l).
Proof. revert i. induction l; destruct i; cbn; auto. now f_equal. Qed.
Lemma combine_split {A B} (l : list A) (m : list B) i a b : nth_error l i = Some a -> nth_error m i = Some b ->
  exists rest, Permutation (combine l m) ((a, b) :: rest) /\ forall b', Permutation (combine l (set_nth i b' m)) ((a, b') :: rest).
Proof.
  revert m i. induction l as [|x l IH]; intros [|y m] [|i] E1 E2; cbn in E1, E2; try discriminate.
  - injection E1 as <-. injection E2 as <-. exists (combine l m). split; [apply Permutation_refl|]. intros b'. apply Permutation_refl.
  - destruct (IH m i E1 E2) as (rest & P1 & P2). exists ((x, y) :: rest). cbn [combine set_nth]. split.
    + eapply perm_trans; [apply perm_skip; exact P1|apply perm_swap].
    + intros b'. eapply perm_trans; [apply perm_skip; apply P2|apply perm_swap].
Qed.

Section Matrix.
  Variables (X Y : Z) (Rs Ss : list Z) (h0 : heap).

  Definition blocks (G : list (list (option Z))) (P : list (list (option ptr))) (ob : list (Z * block)) : list (Z * block) :=
    (X, BPtrs (map ok Rs)) :: (Y, BPtrs (map ok Ss)) :: combine Rs (map BInts G) ++ combine Ss (map BPtrs P) ++ ob.
  Definition St G P ob h : Prop := length Rs = length G /\ length Ss = length P /\ owns (blocks G P ob) h0 h.

  Lemma St_perm G P ob ob' h : Permutation ob ob' -> St G P ob h -> St G P ob' h.
  Proof.
    intros Q (L1 & L2 & O). split; [exact L1|]. split; [exact L2|]. eapply owns_perm; [|exact O]. unfold blocks.
    do 2 apply perm_skip. do 2 apply Permutation_app_head. exact Q.
  Qed.
  Lemma ok_nth (l : list Z) i r : nth_error l i = Some r -> nth_error (map ok l) i = Some (Some (Some r)).
  Proof. intros E. now rewrite nth_error_map, E. Qed.
  Lemma St_read G P ob h i j row v : St G P ob h -> nth_error G i = Some row -> nth_error row j = Some (Some v) ->
    read2 X (Z.of_nat i) (Z.of_nat j) h = Done v h.
  Proof.
    intros (L1 & L2 & O) E1 E2. destruct (nth_some Rs i) as [r R]; [rewrite L1; eapply nth_lt; eauto|].
    eapply read2_ok; [exact O|now left|apply ok_nth, R| |exact E2]. do 2 right. apply in_or_app. left.
    eapply combine_nth_in; [exact R|]. now rewrite nth_error_map, E1.
  Qed.
  Lemma St_readp G P ob h i j row v : St G P ob h -> nth_error P i = Some row -> nth_error row j = Some (Some v) ->
    read2p Y (Z.of_nat i) (Z.of_nat j) h = Done v h.
  Proof.
    intros (L1 & L2 & O) E1 E2. destruct (nth_some Ss i) as [r R]; [rewrite L2; eapply nth_lt; eauto|].
    eapply read2p_ok; [exact O|right; now left|apply ok_nth, R| |exact E2]. do 2 right. apply in_or_app. right. apply in_or_app. left.
    eapply combine_nth_in; [exact R|]. now rewrite nth_error_map, E1.
  Qed.
  Lemma St_write G P ob h i j row v : St G P ob h -> nth_error G i = Some row -> (j < length row)%nat ->
    exists h', write2 X (Z.of_nat i) (Z.of_nat j) v h = Done tt h' /\ St (set_nth i (set_nth j (Some v) row) G) P ob h'.
  Proof.
    intros (L1 & L2 & O) E1 L. destruct (nth_some Rs i) as [r R]; [rewrite L1; eapply nth_lt; eauto|].
    assert (EB : nth_error (map BInts G) i = Some (BInts row)) by now rewrite nth_error_map, E1.
    destruct (combine_split _ _ _ _ _ R EB) as (rest & P1 & P2).
    assert (PP : forall b B, Permutation B ((r, b) :: rest) ->
      Permutation ((X, BPtrs (map ok Rs)) :: (Y, BPtrs (map ok Ss)) :: B ++ combine Ss (map BPtrs P) ++ ob)
                  ((r, b) :: (X, BPtrs (map ok Rs)) :: (Y, BPtrs (map ok Ss)) :: rest ++ combine Ss (map BPtrs P) ++ ob)).
    { intros b B PB. eapply perm_trans; [do 2 apply perm_skip; apply Permutation_app_tail; exact PB|]. cbn [app].
      eapply perm_trans; [apply perm_skip; apply perm_swap|apply perm_swap]. }
    edestruct (write2_ok _ _ _ X (map ok Rs) i r row j v (owns_perm _ _ _ _ (PP _ _ P1) O)) as (h' & E & O'); [now left|apply ok_nth, R|exact L|].
    exists h'. split; [exact E|]. split; [now rewrite set_nth_length|]. split; [exact L2|]. unfold blocks. rewrite set_nth_map.
    eapply owns_perm; [|exact O']. symmetry. apply PP. apply P2.
  Qed.
  Lemma St_writep G P ob h i j row v : St G P ob h -> nth_error P i = Some row -> (j < length row)%nat ->
    exists h', write2p Y (Z.of_nat i) (Z.of_nat j) v h = Done tt h' /\ St G (set_nth i (set_nth j (Some v) row) P) ob h'.
  Proof.
    intros (L1 & L2 & O) E1 L. destruct (nth_some Ss i) as [r R]; [rewrite L2; eapply nth_lt; eauto|].
    assert (EB : nth_error (map BPtrs P) i = Some (BPtrs row)) by now rewrite nth_error_map, E1.
    destruct (combine_split _ _ _ _ _ R EB) as (rest & P1 & P2).
    assert (PP : forall b B, Permutation B ((r, b) :: rest) ->
      Permutation ((X, BPtrs (map ok Rs)) :: (Y, BPtrs (map ok Ss)) :: combine Rs (map BInts G) ++ B ++ ob)
                  ((r, b) :: (X, BPtrs (map ok Rs)) :: (Y, BPtrs (map ok Ss)) :: combine Rs (map BInts G) ++ rest ++ ob)).
    { intros b B PB. eapply perm_trans; [do 2 apply perm_skip; apply Permutation_app_head; apply Permutation_app_tail; exact PB|]. cbn [app].
      symmetry. eapply perm_trans; [apply perm_swap|]. apply perm_skip. eapply perm_trans; [apply perm_swap|]. apply perm_skip. apply Permutation_middle. }
    edestruct (write2p_ok _ _ _ Y (map ok Ss) i r row j v (owns_perm _ _ _ _ (PP _ _ P1) O)) as (h' & E & O'); [right; now left|apply ok_nth, R|exact L|].
    exists h'. split; [exact E|]. split; [exact L1|]. split; [now rewrite set_nth_length|]. unfold blocks. rewrite set_nth_map.
    eapply owns_perm; [|exact O']. symmetry. apply PP. apply P2.
  Qed.

  (** The matrices owned besides. *)
  Lemma blocks_front G P x ob : Permutation (blocks G P (x :: ob)) (x :: blocks G P ob).
  Proof.
    unfold blocks. symmetry. eapply perm_trans; [apply perm_swap|]. apply perm_skip. eapply perm_trans; [apply perm_swap|]. apply perm_skip.
    rewrite !app_assoc. apply Permutation_middle.
  Qed.
  Lemma St_obj G P ob h p o : St G P ob h -> In (p, BObj o) ob -> read_obj p h = Done o h.
  Proof. intros (_ & _ & O) I. eapply read_obj_ok; [exact O|]. do 2 right. apply in_or_app. right. apply in_or_app. now right. Qed.
  Lemma St_call G P ob h call o (Q : Z -> heap -> Prop) (D : crash -> Prop) : St G P ob h -> refines call o ->
    (forall p m b h', o = inl m -> tells b m -> St G P ((p, BObj b) :: ob) h' -> Q p h') -> (forall c, o = inr c -> D c) -> wp call h Q D.
  Proof.
    intros (L1 & L2 & O) R K KD. eapply wp_mono; [apply R; eapply owns_wf; exact O| |exact KD].
    cbn beta. intros p h' (m & b & E & T & O'). eapply K; [exact E|exact T|]. split; [exact L1|]. split; [exact L2|].
    eapply owns_perm; [symmetry; apply blocks_front|]. exact (owns_trans _ _ _ _ _ O O').
  Qed.
  Lemma St_del G P ob h p o : St G P ((p, BObj o) :: ob) h -> exists h', delete_obj p h = Done tt h' /\ St G P ob h'.
  Proof.
    intros (L1 & L2 & O). destruct (delete_obj_ok _ _ _ _ _ (owns_perm _ _ _ _ (blocks_front _ _ _ _) O)) as (h' & E & O').
    exists h'. split; [exact E|]. split; [exact L1|]. split; [exact L2|exact O'].
  Qed.
  Lemma St_change G P ob h p o f : St G P ((p, BObj o) :: ob) h -> exists h', change p f h = Done tt h' /\ St G P ((p, BObj (f o)) :: ob) h'.
  Proof.
    intros (L1 & L2 & O). destruct (change_ok _ _ _ _ _ f (owns_perm _ _ _ _ (blocks_front _ _ _ _) O)) as (h' & E & O').
    exists h'. split; [exact E|]. split; [exact L1|]. split; [exact L2|]. eapply owns_perm; [symmetry; apply blocks_front|exact O'].
  Qed.
End Matrix.

(** Cells with the matrix kept for each. *)
Definition icell : Type := (Z * option (Z * obj))%type.
Definition val (c : icell) : option Z := Some (fst c).
Definition kept (c : icell) : option ptr := Some (option_map fst (snd c)).
Definition obj_of (c : icell) : list (Z * block) := match snd c with Some (p, o) => [(p, BObj o)] | None => [] end.
Definition objs (T1 : list (list icell)) : list (Z * block) := flat_map obj_of (concat (map (@tl icell) T1)).
Definition like (c : icell) (c' : cell) : Prop :=
  fst c = fst c' /\ match snd c, snd c' with None, None => True | Some (_, o), Some m => tells o m | _, _ => False end.

Lemma F2_length {A B} (R : A -> B -> Prop) l m : Forall2 R l m -> length l = length m.
Proof. induction 1; cbn; congruence. Qed.
Lemma F2_nth {A B} (R : A -> B -> Prop) l m i b : Forall2 R l m -> nth_error m i = Some b -> exists a, nth_error l i = Some a /\ R a b.
Proof. intros F. revert i. induction F; intros [|i] E; cbn in *; try discriminate; [injection E as <-; eauto|auto]. Qed.
Lemma F2_nth1 {A B} (R : A -> B -> Prop) l m i a : Forall2 R l m -> nth_error l i = Some a -> exists b, nth_error m i = Some b /\ R a b.
Proof. intros F. revert i. induction F; intros [|i] E; cbn in *; try discriminate; [injection E as <-; eauto|auto]. Qed.
Lemma F2_snoc {A B} (R : A -> B -> Prop) l m a b : Forall2 R l m -> R a b -> Forall2 R (l ++ [a]) (m ++ [b]).
Proof. intros F H. apply Forall2_app; auto. Qed.

Lemma dp_cells_snoc W s : forall ms pd left j up di le, length ms = j -> nth_error pd (j + 1) = Some up -> nth_error pd j = Some di ->
  nth_error (left :: map fst (dp_cells W ms pd left)) j = Some le ->
  dp_cells W (ms ++ [s]) pd left = dp_cells W ms pd left ++ [dp_cell W (fst up) le (fst di) s].
Proof.
  intros ms. induction ms as [|x ms IH]; intros [|d [|u pd]] left j up di le L EU ED EL; cbn in L; subst j; cbn in EU; try discriminate.
  - cbn in *. congruence.
  - rewrite Nat.add_comm in EU. discriminate.
  - cbn [app dp_cells]. f_equal. cbn [nth_error] in ED. eapply IH with (j := length ms); [reflexivity|exact EU|exact ED|exact EL].
Qed.
Lemma dp_cells_length W ms pd left : (length ms < length pd)%nat -> length (dp_cells W ms pd left) = length ms.
Proof.
  revert pd left. induction ms as [|x ms IH]; intros [|d [|u pd]] left L; cbn in L; try lia; [reflexivity|reflexivity|].
  cbn [dp_cells length]. f_equal. apply IH. cbn. lia.
Qed.
Lemma dp_rows_snoc W r : forall s i prev D pd, prev :: dp_rows W i s prev = D ++ [pd] ->
  prev :: dp_rows W i (s ++ [r]) prev = D ++ [pd] ++ [((i + Z.of_nat (length s)) mod W, None) :: dp_cells W r pd ((i + Z.of_nat (length s)) mod W)].
Proof.
  intros s. induction s as [|x s IH]; intros i prev D pd E.
  - cbn [dp_rows] in E. destruct D as [|d [|d' D]]; cbn in E; try discriminate. injection E as <-. cbn. now rewrite Z.add_0_r.
  - cbn [dp_rows app] in *. destruct D as [|d D]; [discriminate|]. cbn [app] in E. injection E as <- E. cbn [app]. f_equal.
    etransitivity; [exact (IH (i + 1) _ D pd E)|]. cbn [length]. replace (i + 1 + Z.of_nat (length s)) with (i + Z.of_nat (S (length s))) by lia. reflexivity.
Qed.

(** Outcomes of calls one after the other. *)
Lemma seqd_all {A} (l : list A) : seqd (map inl l) = inl l.
Proof. induction l as [|x l IH]; [reflexivity|]. cbn [map seqd dbind]. rewrite IH. reflexivity. Qed.
Lemma seqd_crash {A} (l : list A) c rest : seqd (map inl l ++ inr c :: rest) = inr c.
Proof. induction l as [|x l IH]; [reflexivity|]. cbn [map app seqd dbind]. rewrite IH. reflexivity. Qed.
Lemma split_nth {A} (l : list A) k x : nth_error l k = Some x -> l = firstn k l ++ x :: skipn (k + 1) l.
Proof. intros E. rewrite <- (skipn_nth _ _ _ E). symmetry. apply firstn_skipn. Qed.

(** The cells. *)
Section Cells.
  Variables (X Y : Z) (Rs Ss : list Z) (h0 : heap) (W : Z) (n m : nat).
  Variables (subs : list (list (M Z))) (outs : list (list (outcome mat))) (res : Z * block).
  Hypothesis SO : Forall2 (Forall2 refines) subs outs.
  Hypothesis LO : length outs = n.
  Hypothesis LM : forall l, In l outs -> length l = m.
  Let St := St X Y Rs Ss h0.

  Definition later (k : nat) : list (option Z) := Some (Z.of_nat k mod W) :: repeat None m.
  Definition cur_vals (cur : list icell) (j : nat) : list (option Z) := map val cur ++ repeat None (m - j).
  Definition cur_kept (cur : list icell) (j : nat) : list (option ptr) := map kept (tl cur) ++ repeat null (m - j).

  Lemma set_end {A B} (f : A -> B) l (x : A) d t : set_nth (length l) (f x) (map f l ++ repeat d (S t)) = map f (l ++ [x]) ++ repeat d t.
  Proof. cbn [repeat]. rewrite <- (map_length f l) at 1. rewrite set_nth_app, map_app, <- app_assoc. reflexivity. Qed.

  Variable k : nat.
  Variables (T : list (list icell)) (T1 : list (list icell)) (pr : list icell) (pd : list cell).
  Hypothesis HK : (k < n)%nat.
  Hypothesis LT : length T = k.
  Hypothesis LT1 : length T1 = k.
  Hypothesis HP : Forall2 like pr pd.
  Hypothesis LP : length pr = S m.
  Let left := Z.of_nat (k + 1) mod W.
  Variables (callr : list (M Z)) (outr : list (outcome mat)).
  Hypothesis EC : nth_error subs k = Some callr.
  Hypothesis EO : nth_error outs k = Some outr.

  Definition row_state (j : nat) (b : iter) (h : heap) : Prop := exists cur ms,
    length ms = j /\ map inl ms = firstn j outr /\ Forall2 like cur ((left, None) :: dp_cells W ms pd left) /\ b = Some (Z.of_nat j) /\
    St (map (map val) T ++ map val pr :: cur_vals cur j :: map later (seq (k + 2) (n - k - 1)))
       (map (fun r => map kept (tl r)) T1 ++ cur_kept cur j :: repeat (repeat null m) (n - k - 1))
       (res :: objs T1 ++ flat_map obj_of (tl cur)) h.

  Lemma cell_ok j b h : (j < m)%nat -> row_state j b h ->
    wp (one_cell W X Y subs (Z.of_nat (k + 1)) (Some (Z.of_nat k)) (1 + Z.of_nat j) b) h (row_state (j + 1)) (fun c => seqd outr = inr c).
  Proof.
    intros J (cur & ms & LMS & EM & FL & -> & HS).
    assert (F2R : Forall2 refines callr outr) by (destruct (F2_nth1 _ _ _ _ _ SO EC) as (o' & E' & F); congruence).
    assert (LOR : length outr = m) by (apply LM; eapply nth_error_In; eauto).
    assert (LPD : length pd = S m) by (rewrite <- (F2_length _ _ _ HP); exact LP).
    assert (LCUR : length cur = S j) by (rewrite (F2_length _ _ _ FL); cbn [length]; rewrite dp_cells_length; lia).
    destruct (nth_some outr j) as [o EJ]; [lia|]. destruct (F2_nth _ _ _ _ _ F2R EJ) as (call & ECJ & RC).
    unfold one_cell. apply (wp_step _ _ _ callr h); [cbn [star]; rewrite at_nat, EC; reflexivity|].
    apply (wp_step _ _ _ call h); [cbn [star]; rewrite at_nat, ECJ; reflexivity|].
    apply wp_bind. eapply St_call; [exact HS|exact RC| |].
    2:{ intros c ->. rewrite (split_nth _ _ _ EJ), <- EM. apply seqd_crash. }
    clear h HS. intros p s ob h -> TL HS.
    (* what is read *)
    destruct (nth_some pr j) as [di ED]; [lia|]. destruct (nth_some pr (j + 1)) as [up EU]; [lia|]. destruct (nth_some cur j) as [le EL]; [lia|].
    destruct (F2_nth1 _ _ _ _ _ HP ED) as (di' & ED' & HD & _). destruct (F2_nth1 _ _ _ _ _ HP EU) as (up' & EU' & HU & _).
    destruct (F2_nth1 _ _ _ _ _ FL EL) as (le' & EL' & HL & _).
    assert (NPR : forall c, nth_error (map (map val) T ++ map val pr :: c) k = Some (map val pr)).
    { intros c. rewrite <- LT. rewrite <- (map_length (map val) T) at 1. apply nth_error_mid. }
    assert (NCU : forall x c, nth_error (map (map val) T ++ map val pr :: x :: c) (k + 1) = Some x).
    { intros x c. change (map val pr :: x :: c) with ([map val pr] ++ x :: c). rewrite app_assoc.
      replace (k + 1)%nat with (length (map (map val) T ++ [map val pr])) by (rewrite app_length, map_length; cbn [length]; lia). apply nth_error_mid. }
    assert (SCU : forall y x c, set_nth (k + 1) y (map (map val) T ++ map val pr :: x :: c) = map (map val) T ++ map val pr :: y :: c).
    { intros y x c. change (map val pr :: x :: c) with ([map val pr] ++ x :: c). rewrite app_assoc.
      replace (k + 1)%nat with (length (map (map val) T ++ [map val pr])) by (rewrite app_length, map_length; cbn [length]; lia).
      rewrite set_nth_app, <- app_assoc. reflexivity. }
    assert (NKE : forall x c, nth_error (map (fun r => map kept (tl r)) T1 ++ x :: c) k = Some x).
    { intros x c. rewrite <- LT1. rewrite <- (map_length (fun r => map kept (tl r)) T1) at 1. apply nth_error_mid. }
    assert (SKE : forall y x c, set_nth k y (map (fun r => map kept (tl r)) T1 ++ x :: c) = map (fun r => map kept (tl r)) T1 ++ y :: c).
    { intros y x c. rewrite <- LT1. rewrite <- (map_length (fun r => map kept (tl r)) T1) at 1. apply set_nth_app. }
    assert (R1 : nth_error (map val pr) j = Some (Some (fst di))) by now rewrite nth_error_map, ED.
    assert (R2 : nth_error (map val pr) (j + 1) = Some (Some (fst up))) by now rewrite nth_error_map, EU.
    assert (R3 : nth_error (cur_vals cur j) j = Some (Some (fst le))).
    { unfold cur_vals. rewrite nth_error_app1 by (rewrite map_length; lia). now rewrite nth_error_map, EL. }
    assert (LCV : length (cur_vals cur j) = S m) by (unfold cur_vals; rewrite app_length, map_length, repeat_length; lia).
    assert (LTL : length (tl cur) = j) by (destruct cur; cbn in *; lia).
    assert (LCK : length (cur_kept cur j) = m) by (unfold cur_kept; rewrite app_length, map_length, repeat_length; lia).
    assert (EQL : nth_error (left :: map fst (dp_cells W ms pd left)) j = Some (fst le)).
    { rewrite HL. exact (map_nth_error (fst : cell -> Z) j _ EL'). }
    assert (DC := dp_cells_snoc W s ms pd left j up' di' (fst le) LMS EU' ED' EQL).
    assert (EM' : map inl (ms ++ [s]) = firstn (j + 1) outr) by (rewrite (firstn_snoc _ _ _ EJ), map_app, EM; reflexivity).
    assert (LMS' : length (ms ++ [s]) = (j + 1)%nat) by (rewrite app_length; cbn; lia).
    destruct TL as (T1' & T2' & T3' & T4').
    replace (Z.of_nat (k + 1) - 1) with (Z.of_nat k) by lia. replace (1 + Z.of_nat j - 1) with (Z.of_nat j) by lia.
    replace (1 + Z.of_nat j) with (Z.of_nat (j + 1)) by lia.
    eapply wp_step; [eapply St_read; [exact HS|apply NPR|exact R1]|].
    eapply wp_step; [eapply St_obj; [exact HS|now left]|].
    apply (wp_step _ _ _ (msimilar s) h); [rewrite T4'; reflexivity|].
    apply (wp_step _ _ _ (if msimilar s then 0 else mresult s) h); [rewrite T3'; destruct (msimilar s); reflexivity|].
    cbv zeta. set (ch := (fst di + (if msimilar s then 0 else mresult s)) mod W).
    eapply wp_step; [eapply St_read; [exact HS|apply NPR|exact R2]|].
    apply (wp_step _ _ _ ((ch <=? plus1 W (fst up)) && (ch <=? plus1 W (fst le))) h).
    { destruct (ch <=? plus1 W (fst up)); [|reflexivity].
      erewrite bind_done by (eapply St_read; [exact HS|apply NCU|exact R3]). reflexivity. }
    unfold dp_cell in DC. rewrite <- HD, <- HU in DC. fold ch in DC.
    assert (FIN : forall c : icell, like c (if (ch <=? plus1 W (fst up)) && (ch <=? plus1 W (fst le)) then (ch, Some s) else ((Z.min (fst up) (fst le) + 1) mod W, None)) ->
      forall h', St (map (map val) T ++ map val pr :: cur_vals (cur ++ [c]) (j + 1) :: map later (seq (k + 2) (n - k - 1)))
         (map (fun r => map kept (tl r)) T1 ++ cur_kept (cur ++ [c]) (j + 1) :: repeat (repeat null m) (n - k - 1))
         (res :: objs T1 ++ flat_map obj_of (tl (cur ++ [c]))) h' -> wp (inc (Some (Z.of_nat j))) h' (row_state (j + 1)) (fun c => seqd outr = inr c)).
    { intros c LC h' HS'. apply wp_ret. exists (cur ++ [c]), (ms ++ [s]). split; [exact LMS'|]. split; [exact EM'|]. split.
      - rewrite DC. change ((left, None) :: dp_cells W ms pd left ++ ?x) with (((left, None) :: dp_cells W ms pd left) ++ x). apply F2_snoc; [exact FL|exact LC].
      - split; [f_equal; lia|exact HS']. }
    assert (SV : forall c : icell, set_nth (j + 1) (val c) (cur_vals cur j) = cur_vals (cur ++ [c]) (j + 1)).
    { intros c. unfold cur_vals. replace (m - j)%nat with (S (m - (j + 1))) by lia. replace (j + 1)%nat with (length cur) at 1 by lia. apply set_end. }
    assert (SK : forall c : icell, set_nth j (kept c) (cur_kept cur j) = cur_kept (cur ++ [c]) (j + 1)).
    { intros c. unfold cur_kept. replace (m - j)%nat with (S (m - (j + 1))) by lia. rewrite <- LTL at 1. rewrite set_end. destruct cur; [discriminate|reflexivity]. }
    assert (NK0 : forall v, cur_kept cur j = cur_kept (cur ++ [(v, None)]) (j + 1)).
    { intros v. unfold cur_kept. replace (m - j)%nat with (S (m - (j + 1))) by lia. cbn [repeat]. destruct cur; [discriminate|]. cbn [tl app].
      rewrite map_app, <- app_assoc. reflexivity. }
    assert (TLC : forall c, tl (cur ++ [c]) = tl cur ++ [c]) by (intros c; destruct cur; [discriminate|reflexivity]).
    destruct ((ch <=? plus1 W (fst up)) && (ch <=? plus1 W (fst le))).
    - apply wp_bind.
      destruct (St_write _ _ _ _ _ _ _ _ _ (k + 1) (j + 1) (cur_vals cur j) ch HS (NCU _ _)) as (h2 & E2 & HS2); [lia|].
      eapply wp_step; [exact E2|]. rewrite SCU in HS2. change (Some ch) with (val (ch, Some (p, ob))) in HS2. rewrite SV in HS2.
      destruct (St_writep _ _ _ _ _ _ _ _ _ k j (cur_kept cur j) (Some p) HS2 (NKE _ _)) as (h3 & E3 & HS3); [lia|].
      eapply wp_done; [exact E3|]. rewrite SKE in HS3. change (Some (Some p)) with (kept (ch, Some (p, ob))) in HS3. rewrite SK in HS3.
      apply (FIN (ch, Some (p, ob))); [split; [reflexivity|]; repeat split; assumption|].
      eapply St_perm; [|exact HS3]. rewrite TLC, flat_map_app. cbn [flat_map obj_of snd app].
      change (res :: objs T1 ++ flat_map obj_of (tl cur) ++ [(p, BObj ob)]) with ((res :: objs T1) ++ flat_map obj_of (tl cur) ++ [(p, BObj ob)]).
      rewrite app_assoc. apply Permutation_cons_append.
    - apply wp_bind. destruct (St_del _ _ _ _ _ _ _ _ _ _ _ HS) as (h2 & E2 & HS2). eapply wp_step; [exact E2|].
      eapply wp_step; [eapply St_read; [exact HS2|apply NPR|exact R2]|].
      eapply wp_step; [eapply St_read; [exact HS2|apply NCU|exact R3]|].
      set (v := (Z.min (fst up) (fst le) + 1) mod W) in *.
      destruct (St_write _ _ _ _ _ _ _ _ _ (k + 1) (j + 1) (cur_vals cur j) v HS2 (NCU _ _)) as (h3 & E3 & HS3); [lia|].
      eapply wp_done; [exact E3|]. rewrite SCU in HS3. change (Some v) with (val (v, None)) in HS3. rewrite SV, (NK0 v) in HS3.
      apply (FIN (v, None)); [split; [reflexivity|exact Logic.I]|].
      rewrite TLC, flat_map_app. cbn [flat_map obj_of snd]. rewrite !app_nil_r. exact HS3.
  Qed.
End Cells.

Lemma all_cells_ok X Y Rs Ss h0 W n m subs outs res t0 h :
  Forall2 (Forall2 refines) subs outs -> length outs = n -> (forall l, In l outs -> length l = m) ->
  Forall2 like t0 (dp_row0 W m) ->
  St X Y Rs Ss h0 (map val t0 :: map (later W m) (seq 1 n)) (repeat (repeat null m) n) [res] h ->
  wp (all_cells W X Y subs n m) h (fun ab h' => exists T1 ss, map (map inl) ss = outs /\ Forall2 (Forall2 like) (t0 :: T1) (dp_table W m ss) /\
    fst ab = Some (Z.of_nat n) /\ ((0 < n)%nat -> snd ab = Some (Z.of_nat m)) /\ length T1 = n /\ Forall (fun r => length r = S m) (t0 :: T1) /\
    St X Y Rs Ss h0 (map (map val) (t0 :: T1)) (map (fun r => map kept (tl r)) T1) (res :: objs T1) h')
    (fun c => seqd (map seqd outs) = inr c).
Proof.
  intros SO LO LM H0 HS. unfold all_cells.
  assert (L0 : length t0 = S m) by (rewrite (F2_length _ _ _ H0); unfold dp_row0; now rewrite map_length, seq_length).
  set (P := fun (k : nat) (ab : iter * iter) (h : heap) => exists T1 ss, length T1 = k /\ map (map inl) ss = firstn k outs /\
    Forall2 (Forall2 like) (t0 :: T1) (dp_row0 W m :: dp_rows W 1 ss (dp_row0 W m)) /\ fst ab = Some (Z.of_nat k) /\ ((0 < k)%nat -> snd ab = Some (Z.of_nat m)) /\
    Forall (fun r => length r = S m) (t0 :: T1) /\
    St X Y Rs Ss h0 (map (map val) (t0 :: T1) ++ map (later W m) (seq (k + 1) (n - k)))
      (map (fun r => map kept (tl r)) T1 ++ repeat (repeat null m) (n - k)) (res :: objs T1) h).
  eapply wp_mono; [eapply (for_ok P (fun c => seqd (map seqd outs) = inr c))| |auto].
  - exists [], []. split; [reflexivity|]. split; [reflexivity|]. split; [constructor; [exact H0|constructor]|]. split; [reflexivity|].
    split; [lia|]. split; [repeat constructor; exact L0|]. rewrite Nat.sub_0_r. exact HS.
  - clear h HS. intros k [a b] h HK (T1 & ss & LT & ES & FT & EA & EB & FLN & HS). cbn [fst snd] in *. subst a.
    destruct (@exists_last _ (t0 :: T1)) as (T & pr & ET); [discriminate|]. rewrite ET in FT, FLN, HS.
    destruct (Forall2_app_inv_l _ _ FT) as (D & Dl & FD & FL & ED). inversion FL as [|? pd ? ? HP FN EQ1 EQ2]; subst. inversion FN; subst. clear FL FN.
    set (k := length T1) in *.
    assert (LTT : length T = k) by (apply (f_equal (@length _)) in ET; rewrite app_length in ET; cbn in ET; lia).
    assert (LPR : length pr = S m) by (rewrite Forall_app in FLN; destruct FLN as [_ FLN]; inversion FLN; assumption).
    assert (LSS : length ss = k).
    { apply (f_equal (@length _)) in ES. rewrite map_length, firstn_length in ES. lia. }
    destruct (nth_some outs k HK) as [outr EO]. destruct (F2_nth _ _ _ _ _ SO EO) as (callr & EC & _).
    pose proof (dp_rows_snoc W) as SN.
    replace (1 + Z.of_nat k) with (Z.of_nat (k + 1)) by lia.
    rewrite map_app, <- app_assoc in HS. cbn [map app] in HS.
    replace (length outs - k)%nat with (S (length outs - k - 1)) in HS by lia. cbn [seq map repeat] in HS.
    replace (S (k + 1)) with (k + 2)%nat in HS by lia.
    apply wp_bind. eapply wp_mono.
    + eapply (for_ok (row_state X Y Rs Ss h0 W (length outs) m res k T T1 pr pd outr) (fun c => seqd outr = inr c)).
      * exists [(Z.of_nat (k + 1) mod W, None)], []. split; [reflexivity|]. split; [reflexivity|]. split; [constructor; [split; [reflexivity|exact Logic.I]|constructor]|].
        split; [reflexivity|]. unfold cur_vals, cur_kept. cbn [tl map flat_map app]. rewrite Nat.sub_0_r, app_nil_r. exact HS.
      * intros j s h1 LJ RS. replace (1 + Z.of_nat j) with (1 + Z.of_nat j) by lia.
        eapply cell_ok; eauto.
    + clear h HS. cbn beta. intros b' h (cur & ms & LMS & EM & FL & -> & HS). apply wp_bind. cbn [inc]. apply wp_ret. apply wp_ret.
      assert (LOR : length outr = m) by (apply LM; eapply nth_error_In; eauto).
      rewrite firstn_all2 in EM by lia.
      exists (T1 ++ [cur]), (ss ++ [ms]). cbn [fst snd]. rewrite app_length. cbn [length]. split; [reflexivity|].
      split; [rewrite (firstn_snoc _ _ _ EO), map_app, ES; cbn [map]; now rewrite EM|].
      assert (LPD : length pd = S m) by (rewrite <- (F2_length _ _ _ HP); exact LPR).
      assert (LCUR : length cur = S m) by (rewrite (F2_length _ _ _ FL); cbn [length]; rewrite dp_cells_length; lia).
      split.
      { rewrite (SN ms ss 1 (dp_row0 W m) D pd ED). rewrite app_comm_cons, ET. rewrite <- app_assoc. apply Forall2_app; [exact FD|]. apply Forall2_app; [repeat constructor; exact HP|].
        rewrite LSS. replace (1 + Z.of_nat k) with (Z.of_nat (k + 1)) by lia. constructor; [exact FL|constructor]. }
      split; [f_equal; lia|]. split; [reflexivity|]. split.
      { rewrite app_comm_cons, ET. apply Forall_app. split; [exact FLN|repeat constructor; exact LCUR]. }
      unfold cur_vals, cur_kept in HS. rewrite Nat.sub_diag in HS. cbn [repeat] in HS. rewrite !app_nil_r in HS.
      rewrite app_comm_cons, ET. rewrite !map_app. cbn [map]. rewrite <- !app_assoc. cbn [app].
      replace (k + 1 + 1)%nat with (k + 2)%nat by lia. replace (length outs - (k + 1))%nat with (length outs - k - 1)%nat by lia.
      unfold objs. rewrite map_app, concat_app, flat_map_app. cbn [map concat]. rewrite app_nil_r. exact HS.
    + intros c SC. rewrite (split_nth _ _ _ EO), map_app, <- ES. rewrite map_map. erewrite map_ext by (intros s; apply seqd_all). cbn [map]. rewrite SC. apply seqd_crash.
  - clear h HS. intros ab h (T1 & ss & LT & ES & FT & EA & EB & FLN & HS). exists T1, ss. rewrite firstn_all2 in ES by lia. rewrite Nat.sub_diag in HS. cbn [seq map repeat] in HS. rewrite !app_nil_r in HS.
    repeat (split; [assumption|]). exact HS.
Qed.

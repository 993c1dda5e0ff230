(** Model/DiffMem.v computes what Model/Diff.v tells, without a fault, and gives back
    all the memory it takes except for the matrix it returns. *)
From Coq Require Import Permutation Lia ZArith List.
From Verif Require Import Proofs.DiffProofs.
From Verif Require Import Spec.HeapSpec.
From Verif Require Import Model.Heap Model.DiffMem Proofs.HeapProofs.
Open Scope Z_scope.
Open Scope mem_scope.

Definition ok (r : Z) : option ptr := Some (Some r).
Definition null : option ptr := Some None.

(** An array of which the first [k] elements have been given. *)
Definition filled {A B} (f : A -> B) (d : B) (full : list A) (k : nat) : list B := map f (firstn k full) ++ repeat d (length full - k).
Lemma filled_0 {A B} (f : A -> B) d full : filled f d full 0 = repeat d (length full).
Proof. unfold filled. cbn. f_equal. lia. Qed.
Lemma filled_all {A B} (f : A -> B) d full k : (length full <= k)%nat -> filled f d full k = map f full.
Proof. intros L. unfold filled. rewrite firstn_all2 by exact L. replace (length full - k)%nat with O by lia. apply app_nil_r. Qed.
Lemma filled_length {A B} (f : A -> B) d full k : (k <= length full)%nat -> length (filled f d full k) = length full.
Proof. intros L. unfold filled. rewrite app_length, map_length, repeat_length, firstn_length. lia. Qed.
Lemma firstn_snoc {A} (l : list A) k v : nth_error l k = Some v -> firstn (k + 1) l = firstn k l ++ [v].
Proof.
  revert k. induction l as [|x l IH]; intros [|k] E; cbn in *; try discriminate; [congruence|].
  f_equal. apply IH. exact E.
Qed.
Lemma nth_lt {A} (l : list A) k v : nth_error l k = Some v -> (k < length l)%nat.
Proof. intros E. apply nth_error_Some. congruence. Qed.
Lemma filled_set {A B} (f : A -> B) d full k v : nth_error full k = Some v -> set_nth k (f v) (filled f d full k) = filled f d full (k + 1).
Proof.
  intros E. pose proof (nth_lt _ _ _ E) as L. unfold filled. rewrite (firstn_snoc _ _ _ E), map_app, <- app_assoc. cbn [map app].
  replace (length full - k)%nat with (S (length full - (k + 1)))%nat by lia. cbn [repeat].
  rewrite <- (firstn_length_le full (Nat.lt_le_incl _ _ L)) at 1. rewrite <- (map_length f). apply set_nth_app.
Qed.
Lemma filled_nth {A B} (f : A -> B) d full k j v : (j < k)%nat -> nth_error full j = Some v -> nth_error (filled f d full k) j = Some (f v).
Proof.
  intros L E. pose proof (nth_lt _ _ _ E). unfold filled. rewrite nth_error_app1 by (rewrite map_length, firstn_length; lia).
  rewrite nth_error_map. rewrite <- (firstn_skipn k full) in E. rewrite nth_error_app1 in E by (rewrite firstn_length; lia). now rewrite E.
Qed.

Lemma combine_app {A B} (l1 l2 : list A) (m1 m2 : list B) : length l1 = length m1 -> combine (l1 ++ l2) (m1 ++ m2) = combine l1 m1 ++ combine l2 m2.
Proof. revert m1. induction l1; destruct m1; cbn; intros; try discriminate; auto. f_equal. auto. Qed.
Lemma combine_nth_in {A B} (l : list A) (m : list B) i a b : nth_error l i = Some a -> nth_error m i = Some b -> In (a, b) (combine l m).
Proof.
  revert m i. induction l as [|x l IH]; intros [|y m] [|i] E1 E2; cbn in *; try discriminate.
  - injection E1 as <-. injection E2 as <-. now left.
  - right. eapply IH; eauto.
Qed.
Lemma skipn_nth {A} (l : list A) k v : nth_error l k = Some v -> skipn k l = v :: skipn (k + 1) l.
Proof. revert k. induction l as [|x l IH]; intros [|k] E; cbn in *; try discriminate; [congruence|]. now apply IH. Qed.

(** levenshtein *)
Lemma lev_rows_snoc a1 x i b prev : lev_rows (a1 ++ [x]) i b prev =
  (i + Z.of_nat (length a1)) :: lev_cells x b (lev_rows a1 i b prev) (i + Z.of_nat (length a1)).
Proof.
  revert i prev. induction a1 as [|y a1 IH]; intros i prev; cbn [app lev_rows length].
  - now rewrite Z.add_0_r.
  - rewrite IH. replace (i + 1 + Z.of_nat (length a1)) with (i + Z.of_nat (S (length a1))) by lia. reflexivity.
Qed.
Lemma lev_cells_length x b prev left : length prev = S (length b) -> length (lev_cells x b prev left) = length b.
Proof.
  revert prev left. induction b as [|y b IH]; intros [|d [|u prev]] left L; cbn in *; try discriminate; auto.
Qed.
Lemma lev_rows_length a i b prev : length prev = S (length b) -> length (lev_rows a i b prev) = S (length b).
Proof. revert i prev. induction a as [|x a IH]; intros i prev L; cbn [lev_rows]; auto. apply IH. cbn. now rewrite lev_cells_length. Qed.
Lemma lev_cells_nth x b prev left j y up le di : length prev = S (length b) -> nth_error b j = Some y ->
  nth_error prev (j + 1) = Some up -> nth_error (left :: lev_cells x b prev left) j = Some le -> nth_error prev j = Some di ->
  nth_error (left :: lev_cells x b prev left) (j + 1) = Some (lev_cell up le di (Ascii.eqb x y)).
Proof.
  revert prev left j. induction b as [|z b IH]; intros [|d [|u prev]] left j L EY EU EL ED; cbn in L; try discriminate.
  { destruct j; discriminate. }
  cbn [lev_cells]. destruct j as [|j].
  - cbn in *. congruence.
  - cbn [Nat.add nth_error]. cbn [Nat.add nth_error] in EY, EU, EL, ED. apply (IH (u :: prev)); auto.
Qed.
Lemma lev_cells_some x b prev left j : length prev = S (length b) -> (j <= length b)%nat ->
  exists v, nth_error (left :: lev_cells x b prev left) j = Some v.
Proof.
  intros L K. destruct (nth_error (left :: lev_cells x b prev left) j) eqn:E; [eauto|].
  apply nth_error_None in E. cbn in E. rewrite lev_cells_length in E by exact L. lia.
Qed.
Lemma nth_some {A} (l : list A) j : (j < length l)%nat -> exists v, nth_error l j = Some v.
Proof. intros L. destruct (nth_error l j) eqn:E; [eauto|]. apply nth_error_None in E. lia. Qed.
Lemma last_nth {A} (l : list A) d k v : nth_error l k = Some v -> length l = S k -> last l d = v.
Proof.
  revert k. induction l as [|x l IH]; intros k E L; [discriminate|]. cbn in L. destruct k as [|k].
  - destruct l; [|discriminate]. cbn in *. congruence.
  - cbn in E. injection L as L. destruct l as [|y l]; [discriminate|]. change (last (y :: l) d = v). eapply IH; eauto.
Qed.

(** Arrays given back one after the other. *)
Lemma delete_rows x Rs (B : list block) own h0 h (Q : unit -> heap -> Prop) D k :
  owns ((x, BPtrs (map ok Rs)) :: combine Rs B ++ own) h0 h -> length Rs = length B -> length Rs = k ->
  (forall b, In b B -> match b with BObj _ => False | _ => True end) ->
  (forall h', owns ((x, BPtrs (map ok Rs)) :: own) h0 h' -> Q tt h') ->
  wp (for_ k 0 (fun i _ => let! p := read_ptr x i in let! r := deref p in delete_array r) tt) h Q D.
Proof.
  intros O L <- K H. eapply wp_mono; [eapply (for_ok (fun k _ h => owns ((x, BPtrs (map ok Rs)) :: combine (skipn k Rs) (skipn k B) ++ own) h0 h) D)|..]; auto.
  - intros j _ h1 J O1. cbn [Z.add]. destruct (nth_some Rs j J) as [r R]. destruct (nth_some B j) as [b E]; [lia|].
    assert (E1 : nth_error (map ok Rs) j = Some (Some (Some r))) by (rewrite nth_error_map, R; reflexivity).
    eapply wp_step; [eapply read_ptr_ok; [exact O1|now left|exact E1]|]. cbn [deref]. apply (wp_step _ _ _ r h1); [reflexivity|].
    rewrite (skipn_nth _ _ _ R), (skipn_nth _ _ _ E) in O1. cbn [combine app] in O1.
    destruct (delete_array_ok _ _ _ _ b (owns_perm _ _ _ _ (perm_swap _ _ _) O1)) as (h2 & E2 & O2).
    { apply K. eapply nth_error_In; eauto. }
    eapply wp_done; [exact E2|exact O2].
  - intros [] h' O'. cbn beta in O'. rewrite !skipn_all2 in O' by lia. apply H. exact O'.
Qed.

Lemma row0_nth b k : (k <= length b)%nat -> nth_error (lev_row0 b) k = Some (Z.of_nat k).
Proof.
  intros K. unfold lev_row0. rewrite nth_error_map. rewrite (nth_error_nth' (seq 0 (S (length b))) O) by (rewrite seq_length; lia).
  rewrite seq_nth by lia. reflexivity.
Qed.
Lemma row0_length b : length (lev_row0 b) = S (length b).
Proof. unfold lev_row0. now rewrite map_length, seq_length. Qed.
Lemma repeat_snoc {A} (x : A) k : repeat x (S k) = repeat x k ++ [x].
Proof. induction k; cbn; [reflexivity|]. now f_equal. Qed.

(** The pointer array while the rows are being made. *)
Lemma ptrs_set Rs r t : set_nth (length Rs) (ok r) (map ok Rs ++ repeat null (S t)) = map ok (Rs ++ [r]) ++ repeat null t.
Proof. cbn [repeat]. rewrite <- (map_length ok Rs) at 1. rewrite set_nth_app, map_app, <- app_assoc. reflexivity. Qed.
Lemma ptrs_nth Rs r Rs' t : nth_error (map ok (Rs ++ r :: Rs') ++ repeat null t) (length Rs) = Some (ok r).
Proof. rewrite map_app, <- app_assoc. cbn [map app]. rewrite <- (map_length ok Rs) at 1. apply nth_error_mid. Qed.

(** A row made and put into the array. *)
Lemma new_row_ok x Rs t own b h0 h (Q : unit -> heap -> Prop) D : owns ((x, BPtrs (map ok Rs ++ repeat null (S t))) :: own) h0 h ->
  (forall r h', owns ((r, b) :: (x, BPtrs (map ok (Rs ++ [r]) ++ repeat null t)) :: own) h0 h' -> Q tt h') ->
  wp (let! r := new_ b in write_ptr x (Z.of_nat (length Rs)) (Some r)) h Q D.
Proof.
  intros O K. apply wp_bind. eapply new_ok; [exact O|]. intros r h1 O1. apply (owns_perm _ _ _ _ (perm_swap _ _ _)) in O1.
  destruct (write_ptr_ok _ _ _ _ _ (length Rs) (Some r) O1) as (h2 & E2 & O2).
  { rewrite app_length, map_length, repeat_length. lia. }
  eapply wp_done; [exact E2|]. apply K with (r := r). change (Some (Some r)) with (ok r) in O2. rewrite ptrs_set in O2.
  eapply owns_perm; [apply perm_swap|exact O2].
Qed.

Lemma levenshtein_ok own h0 h a b (Q : Z -> heap -> Prop) D : owns own h0 h ->
  (forall h', owns own h0 h' -> Q (levenshtein a b) h') -> wp (levenshtein_mem a b) h Q D.
Proof.
  intros O K. unfold levenshtein_mem, levenshtein in *. destruct (beqb a b); [apply K; exact O|].
  apply wp_bind. eapply new_ok; [exact O|]. intros x h1 O1. clear h O.
  apply wp_bind. unfold zlen, new_ints. change 0 with (Z.of_nat (@length Z [])) at 3.
  eapply (new_row_ok x [] (length a)).
  { cbn [map app]. replace (S (length a)) with (Z.to_nat (Z.of_nat (length a) + 1)) by lia. exact O1. }
  clear h1 O1. intros r0 h O. cbn [app] in O.
  apply wp_bind. eapply wp_mono; [eapply (for_ok (fun k _ h => owns ((r0, BInts (filled Some (Some 0) (lev_row0 b) k)) :: (x, BPtrs (map ok [r0] ++ repeat null (length a))) :: own) h0 h) D)|..]; auto.
  { rewrite filled_0, row0_length. replace (S (length b)) with (Z.to_nat (Z.of_nat (length b) + 1)) by lia. exact O. }
  { intros k _ h1 LK O1. cbn [Z.add].
    destruct (write2_ok _ _ _ x (map ok [r0] ++ repeat null (length a)) 0 r0 _ k (Z.of_nat k) O1) as (h2 & E2 & O2); [now left|reflexivity|rewrite filled_length; rewrite row0_length; lia|].
    eapply wp_done; [exact E2|]. rewrite <- filled_set with (v := Z.of_nat k); [exact O2|]. apply row0_nth. lia. }
  cbn beta. clear h O. intros _ h O. rewrite filled_all in O by (rewrite row0_length; lia).
  (* the rows *)
  set (P := fun (k : nat) (_ : unit) (h : heap) => exists Rs G rp,
    length Rs = length G /\ length Rs = k /\
    owns ((x, BPtrs (map ok (Rs ++ [rp]) ++ repeat null (length a - k))) ::
          combine (Rs ++ [rp]) (map BInts (G ++ [map Some (lev_rows (firstn k a) 1 b (lev_row0 b))])) ++ own) h0 h).
  apply wp_bind. eapply wp_mono; [eapply (for_ok P D)|..]; auto.
  { exists [], [], r0. split; [reflexivity|]. split; [reflexivity|]. rewrite Nat.sub_0_r. cbn [firstn lev_rows app map combine] in *.
    eapply owns_perm; [apply perm_swap|exact O]. }
  { intros k [] h1 LK (Rs & G & rp & L1 & L2 & O1). clear h O K Q.
    destruct (nth_some a k LK) as [ca EA]. set (prev := lev_rows (firstn k a) 1 b (lev_row0 b)) in *.
    assert (LP : length prev = S (length b)) by (apply lev_rows_length, row0_length).
    replace (1 + Z.of_nat k) with (Z.of_nat (length (Rs ++ [rp]))) by (rewrite app_length; cbn [length]; lia).
    apply wp_bind. eapply (new_row_ok x (Rs ++ [rp]) (length a - (k + 1))).
    { replace (S (length a - (k + 1))) with (length a - k)%nat by lia. exact O1. }
    clear h1 O1. intros r h O. replace (Z.of_nat (length (Rs ++ [rp]))) with (Z.of_nat (k + 1)) by (rewrite app_length; cbn [length]; lia).
    set (tail := (x, BPtrs (map ok ((Rs ++ [rp]) ++ [r]) ++ repeat null (length a - (k + 1)))) ::
                 combine (Rs ++ [rp]) (map BInts (G ++ [map Some prev])) ++ own) in *.
    set (full := Z.of_nat (k + 1) :: lev_cells ca b prev (Z.of_nat (k + 1))).
    assert (LF : length full = S (length b)) by (cbn; now rewrite lev_cells_length).
    assert (IX : In (x, BPtrs (map ok ((Rs ++ [rp]) ++ [r]) ++ repeat null (length a - (k + 1)))) tail) by now left.
    assert (NR : nth_error (map ok ((Rs ++ [rp]) ++ [r]) ++ repeat null (length a - (k + 1))) (k + 1) = Some (Some (Some r))).
    { replace (k + 1)%nat with (length (Rs ++ [rp])) by (rewrite app_length; cbn [length]; lia). apply ptrs_nth. }
    assert (NP : nth_error (map ok ((Rs ++ [rp]) ++ [r]) ++ repeat null (length a - (k + 1))) k = Some (Some (Some rp))).
    { rewrite <- app_assoc. cbn [app]. rewrite <- L2. apply ptrs_nth. }
    assert (IP : In (rp, BInts (map Some prev)) tail).
    { right. apply in_or_app. left. rewrite map_app, combine_app by (rewrite map_length; exact L1). apply in_or_app. right. now left. }
    apply wp_bind. change 0 with (Z.of_nat 0) at 2.
    destruct (write2_ok _ _ _ x _ (k + 1) r _ 0 (Z.of_nat (k + 1)) O IX NR) as (h2 & E2 & O2).
    { rewrite repeat_length. lia. }
    eapply wp_done; [exact E2|]. clear h O E2.
    assert (F1 : set_nth 0 (Some (Z.of_nat (k + 1))) (repeat (Some 0) (Z.to_nat (Z.of_nat (length b) + 1))) = filled Some (Some 0) full (0 + 1)).
    { rewrite <- filled_set with (v := Z.of_nat (k + 1)) by reflexivity. rewrite filled_0, LF. f_equal. f_equal. lia. }
    rewrite F1 in O2. clear F1.
    eapply wp_mono; [eapply (for_ok (fun j _ h => owns ((r, BInts (filled Some (Some 0) full (j + 1))) :: tail) h0 h) D)|..]; [exact O2| | |auto].
    - clear h2 O2. intros j [] h LJ O. destruct (nth_some b j LJ) as [cb EB].
      destruct (nth_some prev (j + 1)) as [up EU]; [lia|]. destruct (nth_some prev j) as [di ED]; [lia|].
      destruct (nth_some full j) as [le EL]; [lia|].
      pose proof (lev_cells_nth ca b prev (Z.of_nat (k + 1)) j cb up le di LP EB EU EL ED) as EV. fold full in EV.
      replace (1 + Z.of_nat j) with (Z.of_nat (j + 1)) by lia.
      replace (Z.of_nat (k + 1) - 1) with (Z.of_nat k) by lia. replace (Z.of_nat (j + 1) - 1) with (Z.of_nat j) by lia.
      eapply wp_step; [eapply read2_ok; [exact O|right; exact IX|exact NP|right; exact IP|rewrite nth_error_map, EU; reflexivity]|].
      eapply wp_step; [eapply read2_ok; [exact O|right; exact IX|exact NR|now left|apply filled_nth; [|exact EL]; lia]|].
      eapply wp_step; [eapply read2_ok; [exact O|right; exact IX|exact NP|right; exact IP|rewrite nth_error_map, ED; reflexivity]|].
      apply (wp_step _ _ _ ca h); [unfold char_at; rewrite at_nat, EA; reflexivity|].
      apply (wp_step _ _ _ cb h); [unfold char_at; rewrite at_nat, EB; reflexivity|].
      destruct (write2_ok _ _ _ x _ (k + 1) r _ (j + 1) (lev_cell up le di (Ascii.eqb ca cb)) O IX NR) as (h3 & E3 & O3).
      { rewrite filled_length; lia. }
      eapply wp_done; [exact E3|]. rewrite <- filled_set with (v := lev_cell up le di (Ascii.eqb ca cb)) by exact EV. exact O3.
    - clear h2 O2. cbn beta. intros [] h O. rewrite filled_all in O by lia.
      exists (Rs ++ [rp]), (G ++ [map Some prev]), r. rewrite !app_length. cbn [length]. split; [lia|]. split; [lia|].
      rewrite (firstn_snoc _ _ _ EA), lev_rows_snoc, firstn_length_le by lia. fold prev.
      replace (1 + Z.of_nat k) with (Z.of_nat (k + 1)) by lia. fold full. rewrite (map_app BInts (G ++ [map Some prev]) [map Some full]).
      rewrite combine_app by (rewrite map_length, !app_length; cbn [length]; lia). cbn [map combine].
      rewrite <- (app_assoc (combine (Rs ++ [rp]) (map BInts (G ++ [map Some prev])))). cbn [app].
      unfold tail in O. eapply owns_perm; [|exact O]. eapply perm_trans; [apply perm_swap|]. apply perm_skip. apply Permutation_middle. }
  clear h O. intros [] h (Rs & G & rp & L1 & L2 & O). rewrite firstn_all in O. rewrite Nat.sub_diag in O. cbn [repeat] in O. rewrite app_nil_r in O.
  set (row := lev_rows a 1 b (lev_row0 b)) in *. assert (LR : length row = S (length b)) by (apply lev_rows_length, row0_length).
  destruct (nth_some row (length b)) as [v EV]; [lia|].
  unfold zlen. eapply wp_step.
  { eapply read2_ok with (r := rp) (row := map Some row); [exact O|now left| | |rewrite nth_error_map, EV; reflexivity].
    - rewrite <- L2. rewrite <- (app_nil_r (map ok (Rs ++ [rp]))). change (@nil (option ptr)) with (repeat null 0). apply ptrs_nth.
    - right. apply in_or_app. left. rewrite map_app, combine_app by (rewrite map_length; exact L1). apply in_or_app. right. now left. }
  apply wp_bind. eapply delete_rows; [exact O| | | |].
  { rewrite map_length, !app_length. cbn [length]. lia. }
  { rewrite app_length. cbn [length]. lia. }
  { intros c I. apply in_map_iff in I. destruct I as (l & <- & _). exact Logic.I. }
  clear h O. intros h O. destruct (delete_array_ok _ _ _ _ _ O Logic.I) as (h2 & E2 & O2). eapply wp_step; [exact E2|].
  apply wp_ret. rewrite <- (last_nth row 0 (length b) v EV LR). apply K. exact O2.
Qed.

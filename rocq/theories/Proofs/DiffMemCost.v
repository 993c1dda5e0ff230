(** How much memory a comparison asks for. *)
From Coq Require Import Lia ZArith List.
From Verif Require Import Proofs.DiffProofs Proofs.DiffMemBuild.
From Verif Require Import Spec.HeapSpec.
From Verif Require Import Model.Heap Model.DiffMem.
Open Scope Z_scope.
Open Scope mem_scope.

(** At most [k] numbers are given out; the value has [Q]. *)
Definition makes {A} (m : M A) (k : Z) (Q : A -> Prop) : Prop :=
  forall h a h', m h = Done a h' -> nxt h' <= nxt h + k /\ Q a.
Definition any {A} (a : A) : Prop := True.

Lemma makes_bind {A B} (m : M A) (f : A -> M B) k1 k2 (Q1 : A -> Prop) (Q2 : B -> Prop) :
  makes m k1 Q1 -> (forall a, Q1 a -> makes (f a) k2 Q2) -> makes (mbind m f) (k1 + k2) Q2.
Proof.
  intros H1 H2 h b h2. unfold mbind. destruct (m h) as [a h1|x|c] eqn:E; try discriminate. intros E2.
  destruct (H1 _ _ _ E) as [L1 Q]. destruct (H2 a Q _ _ _ E2) as [L2 Q']. split; [lia|exact Q'].
Qed.
Lemma makes_le {A} (m : M A) k k' (Q Q' : A -> Prop) : makes m k Q -> k <= k' -> (forall a, Q a -> Q' a) -> makes m k' Q'.
Proof. intros H L I h a h' E. destruct (H _ _ _ E). split; [lia|auto]. Qed.
Lemma makes_ret {A} (a : A) (Q : A -> Prop) : Q a -> makes (mret a) 0 Q.
Proof. intros H h b h' [= <- <-]. split; [lia|exact H]. Qed.
Lemma makes_fail {A} f k (Q : A -> Prop) : makes (mfail f) k Q.
Proof. intros h a h'. discriminate. Qed.
Lemma makes_die {A} f k (Q : A -> Prop) : makes (mdie f) k Q.
Proof. intros h a h'. discriminate. Qed.
Lemma makes_new b : makes (new_ b) (1 + cells b) any.
Proof. intros h a h' [= <- <-]. cbn [nxt]. split; [lia|exact Logic.I]. Qed.
Lemma makes_ints n v : 0 <= n -> makes (new_ints n v) (1 + n) any.
Proof. intros H. eapply makes_le with (Q := any); [apply makes_new| |auto]. cbn [cells]. rewrite repeat_length. lia. Qed.
Lemma makes_ptrs n v : 0 <= n -> makes (new_ptrs n v) (1 + n) any.
Proof. intros H. eapply makes_le with (Q := any); [apply makes_new| |auto]. cbn [cells]. rewrite repeat_length. lia. Qed.
Lemma makes_get p : makes (get p) 0 any.
Proof. intros h a h'. unfold get. destruct (blk h p); [intros [= <- <-]|discriminate]. split; [lia|exact Logic.I]. Qed.
Lemma makes_put p b : makes (put p b) 0 any.
Proof. intros h a h'. unfold put. destruct (blk h p); [intros [= <- <-]|discriminate]. cbn. split; [lia|exact Logic.I]. Qed.
Lemma makes_free p : makes (free p) 0 any.
Proof. intros h a h'. unfold free. destruct (blk h p); [intros [= <- <-]|discriminate]. cbn. split; [lia|exact Logic.I]. Qed.

(** Steps that make nothing. *)
Lemma none_bind {A B} (m : M A) (f : A -> M B) k (Q : B -> Prop) : makes m 0 any -> (forall a, makes (f a) k Q) -> makes (mbind m f) k Q.
Proof. intros H1 H2. eapply makes_le; [eapply makes_bind; [exact H1|intros a _; apply H2]|lia|auto]. Qed.
Lemma some_bind {A B} (m : M A) (f : A -> M B) c k (Q : B -> Prop) : makes m c any -> (forall a, makes (f a) (k - c) Q) -> makes (mbind m f) k Q.
Proof. intros H1 H2. eapply makes_le; [eapply makes_bind; [exact H1|intros a _; apply H2]|lia|auto]. Qed.
Lemma for_makes {S} (P : nat -> S -> Prop) (c : nat -> Z) (body : Z -> S -> M S) : forall n start s,
  P O s -> (forall k s, (k < n)%nat -> P k s -> makes (body (start + Z.of_nat k) s) (c k) (P (k + 1)%nat)) ->
  makes (for_ n start body s) (fold_right Z.add 0 (map c (seq 0 n))) (P n).
Proof.
  intros n. revert P c. induction n as [|n IH]; intros P c start s H0 HS; cbn [for_].
  - apply makes_ret. exact H0.
  - cbn [seq map fold_right]. eapply makes_bind.
    + pose proof (HS O s ltac:(lia) H0) as H. rewrite Z.add_0_r in H. exact H.
    + intros s1 P1. cbn beta in P1. rewrite <- seq_shift, map_map. apply (IH (fun k => P (Datatypes.S k)) (fun k => c (Datatypes.S k))); [exact P1|].
      intros k s2 K P2. replace (start + 1 + Z.of_nat k) with (start + Z.of_nat (Datatypes.S k)) by lia. apply HS; [lia|exact P2].
Qed.
Lemma sum_const k n : fold_right Z.add 0 (map (fun _ => k) (seq 0 n)) = k * Z.of_nat n.
Proof. generalize O. induction n as [|n IH]; intros s; cbn [seq map fold_right]; [lia|]. rewrite IH. lia. Qed.
Lemma for_each {S} k (body : Z -> S -> M S) n start s : (forall i s, makes (body i s) k any) -> makes (for_ n start body s) (k * Z.of_nat n) any.
Proof.
  intros H. rewrite <- sum_const. apply (for_makes (fun _ => any) (fun _ => k)); [exact Logic.I|]. intros j t _ _. apply H.
Qed.
Lemma for_none {S} (body : Z -> S -> M S) n start s : (forall i s, makes (body i s) 0 any) -> makes (for_ n start body s) 0 any.
Proof. intros H. exact (for_each 0 body n start s H). Qed.

Ltac nothing :=
  repeat lazymatch goal with
  | |- makes (match ?x with _ => _ end) _ _ => destruct x
  | |- makes (mbind _ _) _ _ => apply none_bind; [|intros]
  | |- makes (mret _) _ _ => apply makes_ret; exact Logic.I
  | |- makes (mfail _) _ _ => apply makes_fail
  | |- makes (mdie _) _ _ => apply makes_die
  | |- makes (get _) _ _ => apply makes_get
  | |- makes (put _ _) _ _ => apply makes_put
  | |- makes (free _) _ _ => apply makes_free
  | |- makes (for_ _ _ _ _) 0 _ => apply for_none; intros
  | |- makes _ _ _ => progress unfold read2, write2, read2p, write2p, read_int, read_ptr, write_int, write_ptr, deref, element, delete_array, delete_obj,
      change, write_obj, read_obj, inc, dec, star, given, char_at
  end.

Lemma zlen_nonneg {A} (l : list A) : 0 <= zlen l.
Proof. unfold zlen. lia. Qed.
Lemma row_makes X i c : 0 <= c -> forall v, makes (let! r := new_ints c v in write_ptr X i (Some r)) (1 + c) any.
Proof. intros H v. eapply some_bind; [apply makes_ints; exact H|]. intros r. rewrite Z.sub_diag. nothing. Qed.
Lemma rowp_makes X i c : 0 <= c -> forall v, makes (let! r := new_ptrs c v in write_ptr X i (Some r)) (1 + c) any.
Proof. intros H v. eapply some_bind; [apply makes_ptrs; exact H|]. intros r. rewrite Z.sub_diag. nothing. Qed.

Definition text_cost (a b : bytes) : Z := zlen a + 2 + (zlen a + 1) * (zlen b + 2).
Lemma levenshtein_makes a b : makes (levenshtein_mem a b) (text_cost a b) any.
Proof.
  pose proof (zlen_nonneg a) as LA. pose proof (zlen_nonneg b) as LB.
  unfold levenshtein_mem, text_cost. destruct (beqb a b); [eapply makes_le with (Q := any); [apply makes_ret; exact Logic.I|nia|auto]|].
  eapply some_bind; [apply makes_ptrs; lia|]. intros x. eapply some_bind; [apply row_makes; lia|].
  intros _. apply none_bind; [nothing|]. intros _.
  eapply makes_le with (Q := any) (k := (1 + (zlen b + 1)) * Z.of_nat (length a) + 0); [|unfold zlen in *; nia|intros v H; exact H].
  eapply makes_bind.
  - apply for_each. intros i _. eapply some_bind; [apply row_makes; lia|]. intros _. rewrite Z.sub_diag. nothing.
  - intros _ _. nothing.
Qed.

Lemma percent_makes a b : makes (levenshteinPercent_mem a b) (text_cost a b) any.
Proof.
  assert (P : 0 <= text_cost a b) by (pose proof (zlen_nonneg a); pose proof (zlen_nonneg b); unfold text_cost; nia).
  unfold levenshteinPercent_mem.
  assert (H : makes (let! d := levenshtein_mem a b in mret (percent_of d (Z.max (zlen a) (zlen b)))) (text_cost a b) any).
  { eapply makes_le with (Q := any) (k := text_cost a b + 0); [|lia|auto]. eapply makes_bind; [apply levenshtein_makes|]. intros d _. nothing. }
  destruct a; [destruct b|]; auto. eapply makes_le with (Q := any) (k := 0); [nothing|exact P|auto].
Qed.
Lemma scored_makes r a b s : makes (scored_mem r a b s) 1 any.
Proof. apply makes_new. Qed.
Lemma manual_makes c o : makes (manual_mem c o) 1 any.
Proof. unfold manual_mem. eapply some_bind; [apply makes_new|]. intros p. cbn [cells]. replace (1 - (1 + 0)) with 0 by lia. nothing. Qed.

Lemma path_makes res X Y la lb fuel : forall i j x y, makes (shortestPath res X Y la lb fuel i j x y) 0 any.
Proof. induction fuel as [|fuel IH]; intros i j x y; cbn [shortestPath]; cbv zeta; nothing; apply IH. Qed.
Lemma clean_makes X Y n m : makes (cleanMatrice X Y n m) 0 any.
Proof. unfold cleanMatrice. nothing. Qed.
Lemma first_makes W X m : makes (first_row W X m) (2 + Z.of_nat m) any.
Proof.
  unfold first_row. eapply some_bind; [apply row_makes; lia|]. intros _. replace (2 + Z.of_nat m - (1 + (Z.of_nat m + 1))) with 0 by lia. nothing.
Qed.
Lemma others_makes W X Y n m : makes (other_rows W X Y n m) ((3 + 2 * Z.of_nat m) * Z.of_nat n) any.
Proof.
  unfold other_rows. apply for_each. intros i _. eapply some_bind; [apply row_makes; lia|]. intros _.
  apply none_bind; [nothing|]. intros _. eapply some_bind; [apply rowp_makes; lia|]. intros _.
  replace (3 + 2 * Z.of_nat m - (1 + (Z.of_nat m + 1)) - (1 + Z.of_nat m)) with 0 by lia. nothing.
Qed.

Definition sum (l : list Z) : Z := fold_right Z.add 0 l.
Lemma sum_nth (l : list Z) : sum (map (fun k => nth k l 0) (seq 0 (length l))) = sum l.
Proof.
  unfold sum. induction l as [|x l IH]; [reflexivity|]. cbn [length seq map fold_right]. cbn [nth]. rewrite <- seq_shift, map_map. cbn [nth]. now rewrite IH.
Qed.
(** [ks] tells how much each call asks for. *)
Lemma cells_make W X Y subs n m ks : Forall2 (Forall2 (fun call k => makes call k any)) subs ks -> length ks = n -> (forall l, In l ks -> length l = m) ->
  makes (all_cells W X Y subs n m) (sum (map sum ks)) any.
Proof.
  intros F L LM. subst n. unfold all_cells.
  rewrite <- (map_length sum ks). rewrite <- (sum_nth (map sum ks)).
  eapply makes_le with (Q := (fun (k : nat) (ab : iter * iter) => fst ab = Some (Z.of_nat k)) (length (map sum ks))); [|apply Z.le_refl|intros; exact Logic.I].
  eapply (for_makes (fun k ab => fst ab = Some (Z.of_nat k)) (fun k => nth k (map sum ks) 0)); [reflexivity|].
  intros k [a b] HK EA. cbn [fst] in *. subst a. rewrite map_length in HK.
  destruct (DiffMemProofs.nth_some ks k HK) as [kr EK]. destruct (DiffMemMatrix.F2_nth _ _ _ _ _ F EK) as (callr & EC & FR).
  assert (LK : length kr = m) by (apply LM; eapply nth_error_In; eauto).
  rewrite (nth_error_nth (map sum ks) k 0 (x := sum kr)) by now rewrite nth_error_map, EK.
  replace (sum kr) with (sum kr + 0) by lia. eapply makes_bind with (Q1 := fun b => b = Some (Z.of_nat m)).
  - rewrite <- LK. rewrite <- (sum_nth kr). eapply (for_makes (fun j b => b = Some (Z.of_nat j)) (fun j => nth j kr 0)); [reflexivity|].
    intros j b' HJ ->. destruct (DiffMemProofs.nth_some kr j HJ) as [c ECJ]. destruct (DiffMemMatrix.F2_nth _ _ _ _ _ FR ECJ) as (call & EJ & MC).
    rewrite (nth_error_nth kr j 0 ECJ). unfold one_cell.
    replace c with (0 + (0 + (c + 0))) by lia.
    eapply makes_bind with (Q1 := eq callr). { cbn [star]. rewrite HeapProofs.at_nat, EC. apply makes_ret. reflexivity. } intros r <-.
    eapply makes_bind with (Q1 := eq call). { cbn [star]. rewrite HeapProofs.at_nat, EJ. apply makes_ret. reflexivity. } intros r <-.
    eapply makes_bind; [exact MC|]. intros s _. cbv zeta.
    do 6 (apply none_bind; [nothing|]; intros ?). apply none_bind; [nothing|]. intros _. cbn [inc]. apply makes_ret. f_equal. lia.
  - intros b' ->. cbn [inc]. replace 0 with (0 + 0) by lia. eapply makes_bind with (Q1 := eq (Some (Z.of_nat (k + 1)))). { apply makes_ret. f_equal. lia. }
    intros x <-. apply makes_ret. reflexivity.
Qed.

Lemma containers_make a b subs ks : Forall2 (Forall2 (fun call k => makes call k any)) subs ks ->
  length ks = length (children a) -> (forall l, In l ks -> length l = length (children b)) ->
  makes (containers_mem a b subs) (6 + 5 * zlen (children a) + zlen (children b) + 2 * zlen (children a) * zlen (children b) + sum (map sum ks)) any.
Proof.
  intros F L LM. unfold containers_mem, build_matrice. cbv zeta. set (K := sum (map sum ks)).
  replace (6 + 5 * zlen (children a) + zlen (children b) + 2 * zlen (children a) * zlen (children b) + K)
    with (6 + 5 * zlen (children a) + zlen (children b) + 2 * zlen (children a) * zlen (children b) + K + 0) by lia.
  eapply makes_bind with (Q1 := any).
  - eapply some_bind; [apply makes_new|]. intros res. cbn [cells]. eapply some_bind; [apply makes_ptrs; lia|]. intros X.
    eapply some_bind; [apply makes_ptrs; lia|]. intros Y. eapply some_bind; [apply first_makes|]. intros _.
    eapply makes_le with (Q := any) (k := (3 + 2 * Z.of_nat (length (children b))) * Z.of_nat (length (children a)) + (K + 0)); [|unfold zlen; lia|auto].
    eapply makes_bind; [apply others_makes|]. intros _ _. eapply makes_bind; [eapply cells_make; eauto|]. intros ab _.
    apply none_bind; [nothing|]. intros dist. destruct (Z.max _ _ =? 0); [apply makes_die|]. apply none_bind; [nothing|]. intros _.
    apply none_bind. { destruct (f_gt _ _); [|nothing]. apply none_bind; [nothing|]. intros ?. apply none_bind; [nothing|]. intros ?. apply path_makes. }
    intros _. apply none_bind; [apply clean_makes|]. intros _. nothing.
  - intros res _. unfold addRoot. nothing.
Qed.

(** The bound. *)
Lemma weight_children n : is_container n = true -> weight n = 1 + sum (map (fun x => weight (sub_nodes x)) (children n)).
Proof. destruct n; [discriminate| |]; intros _; cbn [weight children]; unfold sum; rewrite map_map; reflexivity. Qed.
Lemma weight_pos n : 1 <= weight n.
Proof.
  induction n as [m p|m l IH|m l IH] using node_ind'; cbn [weight]; [lia| |].
  - assert (0 <= fold_right Z.add 0 (map weight l)); [|lia]. induction IH; cbn; lia.
  - assert (0 <= fold_right Z.add 0 (map (fun x => weight (snd x)) l)); [|lia]. induction IH; cbn; lia.
Qed.
Lemma sum_ge_length {A} (f : A -> Z) l : (forall x, 1 <= f x) -> zlen l <= sum (map f l).
Proof. intros H. unfold zlen, sum. induction l as [|x l IH]; cbn [map fold_right length]; [lia|]. specialize (H x). lia. Qed.
Lemma sum_scale {A} (f : A -> Z) c l : sum (map (fun x => c * f x) l) = c * sum (map f l).
Proof. unfold sum. induction l as [|x l IH]; cbn [map fold_right]; [lia|]. rewrite IH. lia. Qed.

Lemma sum_shift {A} (f : A -> Z) c l : sum (map (fun x => f x - c) l) = sum (map f l) - c * zlen l.
Proof. unfold sum, zlen. induction l as [|x l IH]; cbn [map fold_right length]; [lia|]. rewrite IH. lia. Qed.

(** Two of the numbers allowed for a pair are for its places in the arrays of its parents. *)
Lemma build_makes : forall a b, makes (build_mem a b) (8 * weight a * weight b - 2) any.
Proof.
  intros a. induction a as [a IH] using node_children_ind. intros b. pose proof (weight_pos a) as WA. pose proof (weight_pos b) as WB.
  assert (POS : 1 <= 8 * weight a * weight b - 2) by nia.
  destruct (is_container a) eqn:CA.
  2:{ destruct a as [ma pa| |]; try discriminate. cbn [build_mem]. destruct b as [mb pb|mb lb|mb lb];
        [|eapply makes_le with (Q := any); [apply manual_makes|exact POS|auto]..].
      eapply makes_le with (Q := any) (k := text_cost (prim_string pa) (prim_string pb) + 1); [|cbn [weight] in *; unfold text_cost, zlen; nia|auto].
      eapply makes_bind; [apply percent_makes|]. intros s _. apply scored_makes. }
  destruct (is_container b) eqn:CB.
  2:{ destruct b as [mb pb| |]; try discriminate. destruct a; [discriminate| |]; cbn [build_mem is_container]; (eapply makes_le with (Q := any); [apply manual_makes|exact POS|auto]). }
  rewrite build_mem_containers by assumption.
  eapply makes_le with (Q := any); [eapply (containers_make a b _ (map (fun x => map (fun y => 8 * weight (sub_nodes x) * weight (sub_nodes y) - 2) (children b)) (children a)))| |auto].
  - apply F2_map. intros x IX. apply F2_map. intros y _. destruct x as [n|mx k v], y as [n'|my k' v']; cbn [pair_mem node_with_mem entry_with_mem sub_nodes].
    + apply (IH _ IX).
    + eapply makes_le with (Q := any) (k := 1); [destruct (is_container n); [apply manual_makes|apply scored_makes]| |auto]. pose proof (weight_pos n). pose proof (weight_pos v'). nia.
    + eapply makes_le with (Q := any) (k := 1); [destruct (is_container n'); [apply manual_makes|apply scored_makes]| |auto]. pose proof (weight_pos n'). pose proof (weight_pos v). nia.
    + destruct (beqb k k'); [apply (IH _ IX)|]. eapply makes_le with (Q := any) (k := 1); [apply scored_makes| |auto]. pose proof (weight_pos v). pose proof (weight_pos v'). nia.
  - apply map_length.
  - intros l I. apply in_map_iff in I. destruct I as (x & <- & _). apply map_length.
  - rewrite map_map. set (B := sum (map (fun y => weight (sub_nodes y)) (children b))).
    erewrite map_ext with (g := fun x => 8 * B * weight (sub_nodes x) - 2 * zlen (children b)).
    2:{ intros x. rewrite sum_shift, sum_scale. fold B. lia. }
    rewrite sum_shift, sum_scale. set (A := sum (map (fun x => weight (sub_nodes x)) (children a))).
    rewrite (weight_children a CA), (weight_children b CB). fold A B.
    pose proof (sum_ge_length (fun x => weight (sub_nodes x)) (children a) (fun x => weight_pos _)) as LA. fold A in LA.
    pose proof (sum_ge_length (fun x => weight (sub_nodes x)) (children b) (fun x => weight_pos _)) as LB. fold B in LB.
    pose proof (zlen_nonneg (children a)). pose proof (zlen_nonneg (children b)). nia.
Qed.

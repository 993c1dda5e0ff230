(** Comparison of documents: no crash but for empty containers; bounds. *)
From Verif Require Export Proofs.DiffTable Proofs.TreeProofs.
From Coq Require Import Lia.
Open Scope Z_scope.

(** * The comparison of two elements *)
Definition pair (x y : elem) : outcome mat :=
  match x with ENode n => node_with (build n) n y | EEntry m k v => entry_with (build v) m k y end.

Lemma build_containers a b : is_container a = true -> is_container b = true ->
  build a b = dbind (seqd (map (fun x => seqd (map (pair x) (children b))) (children a))) (container_mat a b).
Proof.
  intros A B. destruct a as [ma pa|ma la|ma la]; [discriminate| |]; cbn [build]; rewrite B; cbn [children]; rewrite map_map; reflexivity.
Qed.

Definition sub_nodes (x : elem) : node := match x with ENode n => n | EEntry _ _ v => v end.

(** Induction along a comparison. *)
Lemma node_children_ind (P : node -> Prop) :
  (forall n, (forall x, In x (children n) -> P (sub_nodes x)) -> P n) -> forall n, P n.
Proof.
  intros H. induction n as [m p|m l IH|m l IH] using node_ind'; apply H; cbn [children]; intros x I.
  - destruct I.
  - apply in_map_iff in I. destruct I as (y & <- & I). rewrite Forall_forall in IH. apply IH, I.
  - apply in_map_iff in I. destruct I as (y & <- & I). rewrite Forall_forall in IH. apply (IH y), I.
Qed.

Lemma seqd_inl {A} (l : list (outcome A)) r : seqd l = inl r <-> l = map inl r.
Proof.
  revert r. induction l as [|x l IH]; intros r; cbn [seqd].
  - split; [intros [= <-]; reflexivity|]. destruct r; [reflexivity|discriminate].
  - destruct x as [a|c]; cbn [dbind].
    + destruct (seqd l) as [t|c]; cbn [dbind].
      * split.
        -- intros [= <-]. cbn [map]. f_equal. apply IH. reflexivity.
        -- destruct r as [|a' r]; [discriminate|]. intros [= <- E]. apply IH in E. injection E as ->. reflexivity.
      * split; [discriminate|]. destruct r as [|a' r]; [discriminate|]. intros [= <- E]. apply IH in E. discriminate.
    + split; [discriminate|]. destruct r; discriminate.
Qed.

Lemma seqd_inr {A} (l : list (outcome A)) c : seqd l = inr c -> In (inr c) l.
Proof.
  induction l as [|x l IH]; cbn [seqd]; [discriminate|]. destruct x as [a|c']; cbn [dbind].
  - destruct (seqd l); cbn [dbind]; [discriminate|]. intros [= ->]. right. apply IH. reflexivity.
  - intros [= ->]. left. reflexivity.
Qed.

Lemma seqd_bad {A} (l : list (outcome A)) c : In (inr c) l -> exists c', seqd l = inr c'.
Proof.
  intros I. destruct (seqd l) as [r|c'] eqn:E; [|eauto]. apply seqd_inl in E. subst l. apply in_map_iff in I. destruct I as (? & ? & _). discriminate.
Qed.

(** The matrices of the children of two containers. *)
Definition subs_of (a b : node) (subs : list (list mat)) : Prop :=
  length subs = length (children a) /\ Forall (fun r => length r = length (children b)) subs /\
  forall i j x y s, nth_error (children a) i = Some x -> nth_error (children b) j = Some y -> sub_at subs i j = Some s -> pair x y = inl s.

Lemma subs_ok a b subs : seqd (map (fun x => seqd (map (pair x) (children b))) (children a)) = inl subs -> subs_of a b subs.
Proof.
  intros E. apply seqd_inl in E. split; [rewrite <- (map_length (fun x => seqd (map (pair x) (children b)))), E, map_length; reflexivity|].
  assert (K : forall i r, nth_error subs i = Some r -> exists x, nth_error (children a) i = Some x /\ map (pair x) (children b) = map inl r).
  { intros i r H. assert (H2 : nth_error (map (@inl (list mat) crash) subs) i = Some (inl r)) by (rewrite nth_error_map, H; reflexivity).
    rewrite <- E, nth_error_map in H2. destruct (nth_error (children a) i) as [x|]; [|discriminate]. injection H2 as H2. apply seqd_inl in H2. eauto. }
  split.
  - rewrite Forall_forall. intros r I. apply In_nth_error in I. destruct I as (i & I). destruct (K i r I) as (x & _ & H).
    rewrite <- (map_length (@inl mat crash)), <- H, map_length. reflexivity.
  - intros i j x y s Hx Hy Hs. unfold sub_at in Hs. destruct (nth_error subs i) as [r|] eqn:ER; [|discriminate].
    destruct (K i r ER) as (x' & Hx' & H). rewrite Hx in Hx'. injection Hx' as <-.
    assert (H2 : nth_error (map (@inl mat crash) r) j = Some (inl s)) by (rewrite nth_error_map, Hs; reflexivity).
    rewrite <- H, nth_error_map, Hy in H2. injection H2 as H2. exact H2.
Qed.

(** * Relative distance: 1, 0 or enormous *)
Lemma rel_similar d mx : 0 < mx -> 0 <= d <= 2 * mx ->
  let rel := f32_of_Z (rel_size d mx) in
  f_gt rel sensibility = negb (d / mx =? 1) /\ f_gt sensibility rel = (d / mx =? 1) /\ f_gt f32_one rel = (d / mx =? 1).
Proof.
  intros M D. unfold rel_size.
  assert (Q : d / mx = 0 \/ d / mx = 1 \/ d / mx = 2).
  { assert (0 <= d / mx) by (apply Z.div_pos; lia). assert (d / mx <= 2); [|lia].
    apply Z.div_le_upper_bound; lia. }
  destruct Q as [-> |[-> | ->]]; vm_compute; auto.
Qed.

(** * Crashes *)
Definition fits_memory (n : node) : Prop := all_containers (fun k => Z.of_nat k < 2 ^ 31) n.

Lemma size_children n : is_container n = true -> size_of n = Some (length (children n)).
Proof. destruct n; [discriminate| |]; intros _; cbn [size_of children]; rewrite map_length; reflexivity. Qed.

Lemma fits_size n : fits_memory n -> Z.of_nat (length (children n)) < 2 ^ 31.
Proof. destruct 1; cbn [children length]; rewrite ?map_length; try assumption. reflexivity. Qed.

Lemma fits_child (P : nat -> Prop) n x : all_containers P n -> In x (children n) -> all_containers P (sub_nodes x).
Proof.
  destruct 1 as [|m l _ F|m l _ F]; cbn [children]; [intros []| |]; intros I; apply in_map_iff in I; destruct I as (y & <- & I);
    rewrite Forall_forall in F; apply (F y), I.
Qed.

(** The table of two containers that are not both empty yields a matrix. *)
Lemma container_ok a b subs : subs_of a b subs -> fits_memory a -> fits_memory b ->
  0 < Z.max (Z.of_nat (length (children a))) (Z.of_nat (length (children b))) -> exists m, container_mat a b subs = inl m.
Proof.
  intros (L1 & L2 & HR) FA FB MX. apply fits_size in FA, FB. unfold container_mat.
  destruct (Z.max _ _ =? 0) eqn:E; [lia|]. clear E.
  set (n := length (children a)) in *. set (m := length (children b)) in *.
  set (W := width (Z.of_nat n) (Z.of_nat m)).
  destruct (walk_route subs (children a) (children b) L1 L2 ltac:(fold n m; lia) (fun x y s => pair x y = inl s)
    HR (n + m) n m [] [] ltac:(unfold n; lia) ltac:(unfold m; lia) ltac:(lia)) as (st & _ & WE).
  fold n m W in WE.
  match goal with |- context [f32_of_Z ?r] => set (rel := f32_of_Z r) end.
  destruct (f_gt rel sensibility).
  - rewrite WE. cbn [dbind]. destruct (fold_left run_step st ([], [])) as [ops eqs]. destruct (f_gt sensibility rel); eauto.
  - cbn [dbind]. destruct (f_gt sensibility rel); eauto.
Qed.

Lemma pair_cases x y : (exists m, pair x y = inl m) \/
  (exists a b, x = ENode a /\ y = ENode b /\ pair x y = build a b) \/
  (exists ma mb k va vb, x = EEntry ma k va /\ y = EEntry mb k vb /\ pair x y = build va vb).
Proof.
  destruct x as [a|ma k va]; destruct y as [b|mb k' vb]; cbn [pair node_with entry_with].
  - right. left. eauto 6.
  - left. destruct (is_container a); eauto.
  - left. destruct (is_container b); eauto.
  - destruct (beqb k k') eqn:E; [|left; eauto]. apply beqb_eq in E. subst k'. right. right. eauto 10.
Qed.

Lemma meets_sizes x y : meets_empty x y -> size_of x <> None /\ size_of y <> None.
Proof. destruct 1; split; try congruence; discriminate. Qed.

Lemma build_outcome : forall a b, fits_memory a -> fits_memory b ->
  (exists m, build a b = inl m /\ ~ meets_empty a b) \/ (build a b = inr DivByZero /\ meets_empty a b).
Proof.
  induction a as [a IH] using node_children_ind. intros b FA FB.
  destruct (is_container a) eqn:CA.
  2:{ left. destruct a as [ma pa| |]; try discriminate. cbn [build].
      assert (N : ~ meets_empty (NPrim ma pa) b) by (intros Q; apply meets_sizes in Q; destruct Q as [Q1 Q2]; apply Q1; reflexivity).
      destruct b; eauto. }
  destruct (is_container b) eqn:CB.
  2:{ left. destruct b as [mb pb| |]; try discriminate.
      assert (N : ~ meets_empty a (NPrim mb pb)) by (intros Q; apply meets_sizes in Q; destruct Q as [Q1 Q2]; apply Q2; reflexivity).
      destruct a; [discriminate| |]; cbn [build is_container]; eauto. }
  rewrite build_containers by assumption.
  assert (MC : meets_empty a b <-> (children a = [] /\ children b = []) \/ exists x y c, In x (children a) /\ In y (children b) /\ pair x y = inr c).
  { split.
    - intros Q. inversion Q as [? ? S1 S2|ma la mb lb x y I1 I2 M|ma la mb lb ex ey k x y I1 I2 M]; subst.
      + rewrite size_children in S1, S2 by assumption. injection S1 as S1. injection S2 as S2. left. split; apply length_zero_iff_nil; assumption.
      + right. assert (IX : In (ENode x) (children (NArr ma la))) by (apply in_map, I1). assert (IY : In (ENode y) (children (NArr mb lb))) by (apply in_map, I2).
        exists (ENode x), (ENode y). cbn [pair node_with].
        destruct (IH _ IX y (fits_child _ _ _ FA IX) (fits_child _ _ _ FB IY)) as [(m & _ & NM)|(E & _)]; [contradiction|]. eauto.
      + right. assert (IX : In (EEntry ex k x) (children (NObj ma la))) by (apply in_map_iff; exists (ex, k, x); auto).
        assert (IY : In (EEntry ey k y) (children (NObj mb lb))) by (apply in_map_iff; exists (ey, k, y); auto).
        exists (EEntry ex k x), (EEntry ey k y). cbn [pair entry_with]. rewrite beqb_refl.
        destruct (IH _ IX y (fits_child _ _ _ FA IX) (fits_child _ _ _ FB IY)) as [(m & _ & NM)|(E & _)]; [contradiction|]. eauto.
    - intros [[E1 E2]|(x & y & c & I1 & I2 & E)].
      + apply ME_here; rewrite size_children, ?E1, ?E2 by assumption; reflexivity.
      + destruct (pair_cases x y) as [(m & Q)|[(x' & y' & -> & -> & Q)|(mx & my & k & x' & y' & -> & -> & Q)]]; [congruence| |].
        * rewrite Q in E. destruct (IH _ I1 y' (fits_child _ _ _ FA I1) (fits_child _ _ _ FB I2)) as [(m & E2 & _)|(_ & M)]; [cbn in E2; congruence|].
          destruct a as [|ma la|ma la]; [discriminate| |]; cbn [children] in I1; apply in_map_iff in I1; destruct I1 as (u & EU & I1); [|discriminate].
          destruct b as [|mb lb|mb lb]; [discriminate| |]; cbn [children] in I2; apply in_map_iff in I2; destruct I2 as (v & EV & I2); [|discriminate].
          injection EU as ->. injection EV as ->. eapply ME_arr; eauto.
        * rewrite Q in E. destruct (IH _ I1 y' (fits_child _ _ _ FA I1) (fits_child _ _ _ FB I2)) as [(m & E2 & _)|(_ & M)]; [cbn in E2; congruence|].
          destruct a as [|ma la|ma la]; [discriminate| |]; cbn [children] in I1; apply in_map_iff in I1; destruct I1 as (u & EU & I1); [discriminate|].
          destruct b as [|mb lb|mb lb]; [discriminate| |]; cbn [children] in I2; apply in_map_iff in I2; destruct I2 as (v & EV & I2); [discriminate|].
          destruct u as [[u1 u2] u3]. destruct v as [[v1 v2] v3]. cbn [fst snd] in EU, EV. injection EU as -> -> ->. injection EV as -> -> ->. eapply ME_obj; eauto. }
  assert (ALL : forall x y c, In x (children a) -> In y (children b) -> pair x y = inr c -> c = DivByZero).
  { intros x y c I1 I2 E. destruct (pair_cases x y) as [(m & Q)|[(x' & y' & -> & -> & Q)|(mx & my & k & x' & y' & -> & -> & Q)]]; [congruence| |];
      rewrite Q in E; destruct (IH _ I1 y' (fits_child _ _ _ FA I1) (fits_child _ _ _ FB I2)) as [(m & E2 & _)|(E2 & _)]; cbn in E2; congruence. }
  destruct (seqd (map (fun x => seqd (map (pair x) (children b))) (children a))) as [subs|c] eqn:ES.
  - apply subs_ok in ES. cbn [dbind].
    destruct (Z.eq_dec (Z.max (Z.of_nat (length (children a))) (Z.of_nat (length (children b)))) 0) as [E0|E0].
    + right. unfold container_mat. rewrite E0. split; [reflexivity|]. apply MC. left. split; apply length_zero_iff_nil; lia.
    + left. destruct (container_ok a b subs ES FA FB ltac:(lia)) as (m & E). exists m. split; [exact E|].
      rewrite MC. intros [[E1 E2]|(x & y & c & I1 & I2 & EP)]; [rewrite E1, E2 in E0; cbn in E0; lia|].
      destruct ES as (L1 & L2 & HR). apply In_nth_error in I1, I2. destruct I1 as (i & I1). destruct I2 as (j & I2).
      assert (Hi : (i < length (children a))%nat) by (apply nth_error_Some; congruence).
      assert (Hj : (j < length (children b))%nat) by (apply nth_error_Some; congruence).
      destruct (sub_some subs _ _ L1 L2 i j Hi Hj) as (s & Q). rewrite (HR i j x y s I1 I2 Q) in EP. discriminate.
  - right. cbn [dbind]. apply seqd_inr in ES. apply in_map_iff in ES. destruct ES as (x & ES & I1). apply seqd_inr in ES. apply in_map_iff in ES.
    destruct ES as (y & ES & I2). rewrite (ALL x y c I1 I2 ES) in *. split; [reflexivity|]. apply MC. right. eauto 8.
Qed.

(** * Bounds *)
Lemma container_result a b subs m : container_mat a b subs = inl m ->
  mresult m = fst (cell_at (dp_table (width (Z.of_nat (length (children a))) (Z.of_nat (length (children b)))) (length (children b)) subs)
                     (length (children a)) (length (children b))).
Proof.
  unfold container_mat. destruct (_ =? 0); [discriminate|]. intros H.
  match type of H with dbind ?x _ = _ => destruct x as [[ops eqs]|c]; [|discriminate] end. cbn [dbind] in H.
  destruct (f_gt sensibility _); injection H as <-; reflexivity.
Qed.

Lemma build_subs a b m : is_container a = true -> is_container b = true -> build a b = inl m ->
  exists subs, subs_of a b subs /\ container_mat a b subs = inl m.
Proof.
  intros A B. rewrite build_containers by assumption.
  destruct (seqd _) as [subs|c] eqn:E; [|discriminate]. cbn [dbind]. intros H. exists subs. split; [apply subs_ok, E|exact H].
Qed.

Lemma build_upper a b m : is_container a = true -> is_container b = true -> fits_memory a -> fits_memory b -> build a b = inl m ->
  0 <= mresult m <= Z.of_nat (length (children a)) + Z.of_nat (length (children b)).
Proof.
  intros A B FA FB H. destruct (build_subs a b m A B H) as (subs & (L1 & L2 & HR) & HC). rewrite (container_result a b subs m HC).
  apply fits_size in FA, FB.
  pose proof (cv_bound _ subs _ _ L1 L2 eq_refl ltac:(lia) _ _ (le_n _) (le_n _)) as K. unfold cv in K. lia.
Qed.

Lemma cv_lower W subs n m : length subs = n -> Forall (fun r => length r = m) subs -> W = width (Z.of_nat n) (Z.of_nat m) ->
  Z.of_nat n + Z.of_nat m < 2 ^ 32 ->
  (forall i j s, sub_at subs i j = Some s -> 0 <= mresult s /\ Z.of_nat n + Z.of_nat m + mresult s < W) ->
  forall i j, (i <= n)%nat -> (j <= m)%nat -> Z.abs (Z.of_nat i - Z.of_nat j) <= cv W subs m i j.
Proof.
  intros Ln Lm HW HS HC. induction i as [|i IHi].
  - intros j _ L. rewrite (cv_row0 W subs n m Ln j L), (small_fits W subs n m Ln HW HS) by auto. lia.
  - induction j as [|j IHj]; intros L1 L2.
    + rewrite (cv_col0 W subs n m Ln Lm) by exact L1. rewrite (small_fits W subs n m Ln HW HS) by auto. lia.
    + destruct (cell_cases W subs n m Ln Lm HW HS i j ltac:(lia) ltac:(lia)) as (s & E & C).
      specialize (IHj L1 ltac:(lia)). pose proof (IHi (S j) ltac:(lia) L2) as U. pose proof (IHi j ltac:(lia) ltac:(lia)) as D.
      destruct (HC i j s E) as [R1 R2]. pose proof (cv_bound W subs n m Ln Lm HW HS i j ltac:(lia) ltac:(lia)) as B.
      unfold cv at 1. destruct C as [(-> & _)|(-> & _)]; cbn [fst]; [|lia].
      unfold cost. destruct (msimilar s); rewrite Z.mod_small by lia; lia.
Qed.

Definition smaller (K : Z) (n : node) : Prop := all_containers (fun k => Z.of_nat k < K) n.

Lemma smaller_le K K' n : K <= K' -> smaller K n -> smaller K' n.
Proof.
  intros L. unfold smaller. induction n as [m p|m l IH|m l IH] using node_ind'; intros S; inversion S as [|? ? P F|? ? P F]; subst.
  - constructor.
  - constructor; [lia|]. rewrite Forall_forall in *. auto.
  - constructor; [lia|]. rewrite Forall_forall in *. auto.
Qed.

Lemma children_scalar n : is_container n = false -> children n = [].
Proof. destruct n; [reflexivity|discriminate|discriminate]. Qed.

Lemma build_result K a b m : 0 <= K <= 2 ^ 31 -> smaller K a -> smaller K b -> build a b = inl m -> 0 <= mresult m <= 2 * K + 1.
Proof.
  intros HK SA SB H. assert (FA : fits_memory a) by (apply (smaller_le K); auto; lia). assert (FB : fits_memory b) by (apply (smaller_le K); auto; lia).
  assert (LA : Z.of_nat (length (children a)) <= K) by (inversion SA; cbn [children length]; rewrite ?map_length; lia).
  assert (LB : Z.of_nat (length (children b)) <= K) by (inversion SB; cbn [children length]; rewrite ?map_length; lia).
  destruct (is_container a) eqn:A; [destruct (is_container b) eqn:B|].
  - pose proof (build_upper a b m A B FA FB H). lia.
  - destruct a; [discriminate| |]; destruct b; try discriminate; cbn [build is_container] in H; injection H as <-; unfold manual, mresult; lia.
  - destruct a; [|discriminate|discriminate]; destruct b; cbn [build] in H; injection H as <-; unfold manual, scored, mresult;
      [destruct (score_similar _); lia|lia|lia].
Qed.

Lemma pair_result K x y m : 0 <= K <= 2 ^ 31 -> smaller K (sub_nodes x) -> smaller K (sub_nodes y) -> pair x y = inl m -> 0 <= mresult m <= 2 * K + 1.
Proof.
  intros HK SX SY.
  assert (L : forall n, smaller K n -> Z.of_nat (length (children n)) <= K) by (destruct 1; cbn [children length]; rewrite ?map_length; lia).
  destruct x as [a|ma k va]; destruct y as [b|mb k' vb]; cbn [pair node_with entry_with sub_nodes] in *.
  - apply build_result; auto.
  - destruct (is_container a); intros [= <-]; unfold manual, scored, mresult; [specialize (L a SX); lia|destruct score0; lia].
  - destruct (is_container b); intros [= <-]; unfold manual, scored, mresult; [specialize (L b SY); lia|destruct score0; lia].
  - destruct (beqb k k'); [apply build_result; auto|]. intros [= <-]; unfold scored, mresult. destruct score0; lia.
Qed.

Definition sum_sizes (a b : node) : Z := Z.of_nat (length (children a)) + Z.of_nat (length (children b)).

Lemma build_lower K a b m : 0 <= K <= 2 ^ 31 -> is_container a = true -> is_container b = true ->
  (forall x, In x (children a) -> smaller K (sub_nodes x)) -> (forall y, In y (children b) -> smaller K (sub_nodes y)) ->
  sum_sizes a b + 2 * K + 1 < width (Z.of_nat (length (children a))) (Z.of_nat (length (children b))) ->
  build a b = inl m ->
  Z.abs (Z.of_nat (length (children a)) - Z.of_nat (length (children b))) <= mresult m.
Proof.
  intros HK A B SA SB HW H. destruct (build_subs a b m A B H) as (subs & (L1 & L2 & HR) & HC). rewrite (container_result a b subs m HC).
  unfold sum_sizes in HW. assert (W32 : width (Z.of_nat (length (children a))) (Z.of_nat (length (children b))) <= 2 ^ 32).
  { unfold width. destruct (_ && _); [lia|]. destruct (_ && _); lia. }
  apply (cv_lower _ subs _ _ L1 L2 eq_refl); [lia| |lia|lia].
  intros i j s E.
  assert (Hi : (i < length (children a))%nat).
  { unfold sub_at in E. destruct (nth_error subs i) eqn:Q; [|discriminate]. rewrite <- L1. apply nth_error_Some. congruence. }
  assert (Hj : (j < length (children b))%nat).
  { unfold sub_at in E. destruct (nth_error subs i) as [r|] eqn:Q; [|discriminate]. rewrite Forall_forall in L2. rewrite <- (L2 r) by (eapply nth_error_In; eauto).
    apply nth_error_Some. congruence. }
  destruct (nth_error (children a) i) as [x|] eqn:EX; [|apply nth_error_None in EX; lia].
  destruct (nth_error (children b) j) as [y|] eqn:EY; [|apply nth_error_None in EY; lia].
  pose proof (HR i j x y s EX EY E) as P. apply (pair_result K) in P; auto; [lia|apply SA; eapply nth_error_In; eauto|apply SB; eapply nth_error_In; eauto].
Qed.

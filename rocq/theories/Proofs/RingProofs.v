From Verif Require Import Model.WrappedBuffer Spec.Window Spec.RingOps.
From Coq Require Import Lia ZifyBool ZifyClasses Zify.
Open Scope Z_scope.

(** * Arrays *)
Lemma list_set_spec {A} (l : list A) i x :
  (i < length l)%nat ->
  exists l', list_set l i x = Some l' /\ length l' = length l /\
    forall j, nth_error l' j = if Nat.eqb j i then Some x else nth_error l j.
Proof.
  revert i; induction l as [|a l IH]; simpl; intros i H; [lia|].
  destruct i as [|i].
  - eexists; split; [reflexivity|]; split; [reflexivity|].
    intros [|j]; reflexivity.
  - destruct (IH i ltac:(lia)) as (l' & E & EL & EN).
    rewrite E; simpl. eexists; split; [reflexivity|]; split; [simpl; lia|].
    intros [|j]; simpl; [reflexivity|apply EN].
Qed.

Lemma cell_set_spec {A} (l : list (option A)) i x :
  0 <= i < Z.of_nat (length l) ->
  exists l', cell_set l i x = Some l' /\ length l' = length l /\
    forall j, cell_get l' j = if j =? i then Some (Some x) else cell_get l j.
Proof.
  intros H. unfold cell_set, cell_get.
  destruct (i <? 0) eqn:E; [lia|].
  destruct (list_set_spec l (Z.to_nat i) (Some x) ltac:(lia)) as (l' & E1 & E2 & E3).
  exists l'; split; [exact E1|]; split; [exact E2|].
  intros j. destruct (j <? 0) eqn:Ej.
  - destruct (j =? i) eqn:Eji; [lia|reflexivity].
  - rewrite E3. destruct (Nat.eqb (Z.to_nat j) (Z.to_nat i)) eqn:E4;
      destruct (j =? i) eqn:E5; try reflexivity; lia.
Qed.

Lemma cells_copy_spec {A} n : forall (l : list (option A)) at_ items,
  0 <= at_ -> at_ + Z.of_nat n <= Z.of_nat (length l) -> (n <= length items)%nat ->
  exists l', cells_copy l at_ items n = Some l' /\ length l' = length l /\
    forall j, cell_get l' j =
      if (at_ <=? j) && (j <? at_ + Z.of_nat n)
      then option_map Some (nth_error items (Z.to_nat (j - at_)))
      else cell_get l j.
Proof.
  induction n as [|n IH]; intros l at_ items H0 H1 H2.
  - exists l; split; [reflexivity|]; split; [reflexivity|].
    intros j. destruct ((at_ <=? j) && (j <? at_ + Z.of_nat 0)) eqn:E; [lia|reflexivity].
  - destruct items as [|x items]; simpl in H2; [lia|]. cbn [cells_copy].
    destruct (cell_set_spec l at_ x ltac:(lia)) as (l1 & E1 & E2 & E3).
    rewrite E1.
    destruct (IH l1 (at_ + 1) items ltac:(lia) ltac:(lia) ltac:(lia)) as (l2 & E4 & E5 & E6).
    exists l2; split; [exact E4|]; split; [lia|].
    intros j. rewrite E6, E3.
    destruct ((at_ + 1 <=? j) && (j <? at_ + 1 + Z.of_nat n)) eqn:C1.
    + destruct ((at_ <=? j) && (j <? at_ + Z.of_nat (S n))) eqn:C2; [|lia].
      replace (Z.to_nat (j - at_)) with (S (Z.to_nat (j - (at_ + 1)))) by lia. reflexivity.
    + destruct (j =? at_) eqn:C3.
      * destruct ((at_ <=? j) && (j <? at_ + Z.of_nat (S n))) eqn:C2; [|lia].
        replace (Z.to_nat (j - at_)) with O by lia. reflexivity.
      * destruct ((at_ <=? j) && (j <? at_ + Z.of_nat (S n))) eqn:C2; [lia|reflexivity].
Qed.

Lemma put_skip_noop {A} f SIZE (items : list A) count :
  count <= SIZE -> put_skip f SIZE items count = (items, count).
Proof. intros H. destruct f; simpl; [reflexivity|]. destruct (SIZE <? count) eqn:E; [lia|reflexivity]. Qed.

Lemma put_skip_bounds {A} f : forall SIZE (items : list A) count,
  0 < SIZE -> 0 < count -> count <= Z.of_nat f -> Z.of_nat (length items) = count ->
  exists items' c, put_skip f SIZE items count = (items', c) /\ 0 < c <= SIZE /\
    Z.of_nat (length items') = c.
Proof.
  induction f as [|f IH]; intros SIZE items count H0 H1 H2 H3; [lia|].
  simpl. destruct (SIZE <? count) eqn:E.
  - apply IH; try lia. rewrite skipn_length. lia.
  - exists items, count. repeat split; lia.
Qed.

Lemma zrange_length a b : Z.of_nat (length (zrange a b)) = Z.max 0 (b - a).
Proof. unfold zrange. rewrite map_length, seq_length. lia. Qed.

Lemma zrange_In a b i : In i (zrange a b) <-> a <= i < b.
Proof.
  unfold zrange. rewrite in_map_iff. split.
  - intros (k & <- & H). apply in_seq in H. lia.
  - intros H. exists (Z.to_nat (i - a)). split; [lia|]. apply in_seq. lia.
Qed.

Lemma map_seq_ext {A B} (f : nat -> B) (g : A -> B) : forall l k,
  (forall i x, nth_error l i = Some x -> f (k + i)%nat = g x) ->
  map f (seq k (length l)) = map g l.
Proof.
  induction l as [|x l IH]; intros k H; simpl; [reflexivity|].
  f_equal.
  - rewrite <- (H 0%nat x eq_refl). f_equal; lia.
  - apply IH. intros i y E. rewrite <- (H (S i) y E). f_equal; lia.
Qed.

Lemma zrange_map {A B} (f : Z -> B) (g : A -> B) l a b :
  Z.of_nat (length l) = b - a ->
  (forall i x, nth_error l i = Some x -> f (a + Z.of_nat i) = g x) ->
  map f (zrange a b) = map g l.
Proof.
  intros HL H. unfold zrange. rewrite map_map.
  replace (Z.to_nat (b - a)) with (length l) by lia.
  apply map_seq_ext. intros i x E. apply (H i x E).
Qed.

(** * Lists *)
Lemma lastn_length {A} n (l : list A) : length (lastn n l) = Nat.min n (length l).
Proof. unfold lastn. rewrite skipn_length. lia. Qed.

Lemma nth_error_skipn {A} n : forall (l : list A) i, nth_error (skipn n l) i = nth_error l (n + i).
Proof.
  induction n as [|n IH]; intros l i; [reflexivity|].
  destruct l as [|x l]; [destruct i; reflexivity|]. simpl. apply IH.
Qed.

Lemma nth_error_firstn_lt {A} n : forall (l : list A) i,
  (i < n)%nat -> nth_error (firstn n l) i = nth_error l i.
Proof.
  induction n as [|n IH]; intros l i H; [lia|].
  destruct l as [|x l]; [destruct i; reflexivity|].
  destruct i; simpl; [reflexivity|]. apply IH. lia.
Qed.

Lemma nth_error_lastn {A} n (l : list A) i :
  nth_error (lastn n l) i = nth_error l (length l - n + i).
Proof. apply nth_error_skipn. Qed.

Lemma removelast_firstn {A} (l : list A) : removelast l = firstn (length l - 1) l.
Proof.
  induction l as [|x [|y l] IH]; try reflexivity.
  change (removelast (x :: y :: l)) with (x :: removelast (y :: l)). rewrite IH. cbn [length].
  replace (S (S (length l)) - 1)%nat with (S (S (length l) - 1)) by lia. reflexivity.
Qed.

Lemma removelast_length {A} (l : list A) : length (removelast l) = (length l - 1)%nat.
Proof. rewrite removelast_firstn, firstn_length. lia. Qed.

Lemma nth_error_removelast {A} (l : list A) i x :
  nth_error (removelast l) i = Some x -> nth_error l i = Some x.
Proof.
  intros H. assert (i < length (removelast l))%nat by (apply nth_error_Some; congruence).
  rewrite removelast_length in H0. rewrite removelast_firstn in H.
  rewrite nth_error_firstn_lt in H by lia. exact H.
Qed.

Lemma nth_error_lt {A} (l : list A) i x : nth_error l i = Some x -> (i < length l)%nat.
Proof. intros H. apply nth_error_Some. congruence. Qed.

(** * Well-formedness: holds for every history *)
Definition ring_wf {A} (S : nat) (r : ring A) : Prop :=
  length (cells r) = S /\ -1 <= curW r < Z.of_nat S /\ 0 <= curR r <= Z.of_nat S.

Lemma ring_init_wf {A} S : (0 < S)%nat -> ring_wf S (@ring_init A S).
Proof. intros H. unfold ring_wf, ring_init; cbn [cells curR curW]. rewrite repeat_length. lia. Qed.

Lemma ring_put_wf {A} S (r : ring A) x : (0 < S)%nat -> ring_wf S r ->
  exists r', ring_put (Z.of_nat S) r x = Some r' /\ ring_wf S r'.
Proof.
  intros HS (H1 & H2 & H3). unfold ring_put.
  destruct (curW r + 1 =? Z.of_nat S) eqn:E1; [|destruct (curW r =? -1) eqn:E2].
  - destruct (cell_set_spec (cells r) 0 x ltac:(lia)) as (l' & -> & EL & _).
    eexists; split; [reflexivity|]. unfold ring_wf; cbn [cells curR curW ring_reset]. lia.
  - destruct (cell_set_spec (cells r) 0 x ltac:(lia)) as (l' & -> & EL & _).
    eexists; split; [reflexivity|]. unfold ring_wf; cbn [cells curR curW ring_reset]. lia.
  - destruct (cell_set_spec (cells r) (curW r + 1) x ltac:(lia)) as (l' & -> & EL & _).
    eexists; split; [reflexivity|]. unfold ring_wf; cbn [cells curR curW].
    destruct (curR r =? curW r + 1) eqn:E3; [destruct (Z.of_nat S <? curR r + 1) eqn:E4|]; lia.
Qed.

Lemma ring_put_many_wf_gen {A} S (r : ring A) mem count : (0 < S)%nat -> ring_wf S r ->
  0 <= count -> count <= Z.of_nat S -> count <= Z.of_nat (length mem) ->
  exists r', ring_put_many (Z.of_nat S) r mem count = Some r' /\ ring_wf S r'.
Proof.
  intros HS (H1 & H2 & H3) H4 H5 H6. unfold ring_put_many.
  destruct (count =? 0) eqn:E0.
  { exists r. split; [reflexivity|]. repeat split; lia. }
  rewrite put_skip_noop by lia.
  destruct (Z.of_nat S <=? curW r + count) eqn:E1.
  - destruct (curW r + 1 =? Z.of_nat S) eqn:E2; cbn [negb].
    + destruct (cells_copy_spec (Z.to_nat count) (cells r) (-1 + 1) mem ltac:(lia) ltac:(lia) ltac:(lia))
        as (l' & -> & EL & _).
      destruct (-1 + count =? Z.of_nat S) eqn:E3; [|destruct (Z.of_nat S <=? ring_size (Z.of_nat S) r + count) eqn:E4];
        (eexists; split; [reflexivity|]); unfold ring_wf; cbn [cells curR curW]; try lia.
      split; [lia|]. split; [lia|].
      pose proof (Z.mod_pos_bound (-1 + count + 1) (Z.of_nat S)). lia.
    + destruct (cells_copy_spec (Z.to_nat (Z.of_nat S - curW r - 1)) (cells r) (curW r + 1) mem
                  ltac:(lia) ltac:(lia) ltac:(lia)) as (l1 & -> & EL1 & _).
      destruct (cells_copy_spec (Z.to_nat (count - (Z.of_nat S - curW r - 1))) l1 (-1 + 1)
                  (skipn (Z.to_nat (Z.of_nat S - curW r - 1)) mem)
                  ltac:(lia) ltac:(lia) ltac:(rewrite skipn_length; lia)) as (l2 & -> & EL2 & _).
      match goal with |- context [if ?c =? Z.of_nat S then _ else _] => destruct (c =? Z.of_nat S) eqn:E3 end;
      [|destruct (Z.of_nat S <=? ring_size (Z.of_nat S) r + count) eqn:E4];
        (eexists; split; [reflexivity|]); unfold ring_wf; cbn [cells curR curW]; try lia.
      split; [lia|]. split; [lia|].
      match goal with |- context [?c mod _] => pose proof (Z.mod_pos_bound c (Z.of_nat S)) end. lia.
  - destruct (cells_copy_spec (Z.to_nat count) (cells r) (curW r + 1) mem ltac:(lia) ltac:(lia) ltac:(lia))
        as (l' & -> & EL & _).
    destruct (curW r + count =? Z.of_nat S) eqn:E3; [|destruct (Z.of_nat S <=? ring_size (Z.of_nat S) r + count) eqn:E4];
        (eexists; split; [reflexivity|]); unfold ring_wf; cbn [cells curR curW]; try lia.
    split; [lia|]. split; [lia|].
    match goal with |- context [?c mod _] => pose proof (Z.mod_pos_bound c (Z.of_nat S)) end. lia.
Qed.

Lemma ring_put_many_skip {A} S (r : ring A) mem count mem' c : 
  0 < c -> 0 < count -> c <= Z.of_nat S ->
  put_skip (Z.to_nat count) (Z.of_nat S) mem count = (mem', c) ->
  forall r1, ring_put_many (Z.of_nat S) r mem' c = Some r1 -> ring_wf S r1 -> ring_wf S r -> (0 < S)%nat ->
  exists r', ring_put_many (Z.of_nat S) r mem count = Some r' /\ ring_wf S r'.
Proof.
  intros Hc Hcount HcS E r1. unfold ring_put_many.
  destruct (c =? 0) eqn:E0; [lia|]. destruct (count =? 0) eqn:E1; [lia|].
  rewrite (put_skip_noop _ _ mem' c HcS). rewrite E.
  match goal with |- match ?W with _ => _ end = _ -> _ => destruct W as [[[[cs it] ct] cw]|]; [|discriminate] end.
  destruct (cells_copy cs (cw + 1) it (Z.to_nat ct)) as [cs'|]; [|discriminate].
  intros E2 (W1 & W2 & W3) W HS.
  destruct (cw + ct =? Z.of_nat S) eqn:E3.
  - eexists; split; [reflexivity|]. injection E2 as <-. unfold ring_wf in *; cbn [cells curR curW] in *; lia.
  - assert (length cs' = S /\ -1 <= cw + ct < Z.of_nat S) as [Q1 Q2].
    { destruct (Z.of_nat S <=? ring_size (Z.of_nat S) r + c); injection E2 as <-; cbn [cells curR curW] in *; lia. }
    destruct (Z.of_nat S <=? ring_size (Z.of_nat S) r + count);
      (eexists; split; [reflexivity|]); unfold ring_wf in *; cbn [cells curR curW]; [|lia].
    pose proof (Z.mod_pos_bound (cw + ct + 1) (Z.of_nat S)). lia.
Qed.

Lemma ring_put_many_wf {A} S (r : ring A) xs : (0 < S)%nat -> ring_wf S r ->
  exists r', ring_put_many (Z.of_nat S) r xs (Z.of_nat (length xs)) = Some r' /\ ring_wf S r'.
Proof.
  intros HS W.
  destruct (Z.eq_dec (Z.of_nat (length xs)) 0) as [E|E].
  { apply ring_put_many_wf_gen; auto; lia. }
  destruct (put_skip_bounds (Z.to_nat (Z.of_nat (length xs))) (Z.of_nat S) xs (Z.of_nat (length xs)))
    as (m & c & Es & Hc & Hm); try lia.
  destruct (ring_put_many_wf_gen S r m c) as (r1 & E1 & W1); auto; try lia.
  eapply ring_put_many_skip; eauto; lia.
Qed.

Lemma ring_pop_wf {A} S (r : ring A) : (0 < S)%nat -> ring_wf S r -> ring_wf S (ring_pop (Z.of_nat S) r).
Proof.
  intros HS (H1 & H2 & H3). unfold ring_pop, ring_size, ring_wf.
  destruct (curW r =? -1) eqn:E0; [cbn; lia|].
  destruct (curW r <? curR r) eqn:E1.
  - destruct (Z.of_nat S - curR r + curW r + 1 =? 0) eqn:E2; [simpl; lia|].
    destruct (Z.of_nat S - curR r + curW r + 1 =? 1) eqn:E3; simpl; [lia|].
    destruct (curW r - 1 <? 0) eqn:E4; lia.
  - destruct (curW r - curR r + 1 =? 0) eqn:E2; [simpl; lia|].
    destruct (curW r - curR r + 1 =? 1) eqn:E3; simpl; [lia|].
    destruct (curW r - 1 <? 0) eqn:E4; lia.
Qed.

Lemma ring_reset_wf {A} S (r : ring A) : (0 < S)%nat -> ring_wf S r -> ring_wf S (ring_reset r).
Proof. intros HS (H1 & H2 & H3). unfold ring_wf; cbn [cells curR curW ring_reset]. lia. Qed.

Lemma ring_step_wf {A} S (r : ring A) op : (0 < S)%nat -> ring_wf S r ->
  exists r', ring_step S (Some r) op = Some r' /\ ring_wf S r'.
Proof.
  intros HS W. destruct op; cbn [ring_step].
  - apply ring_put_wf; auto.
  - apply ring_put_many_wf; auto.
  - eexists; split; [reflexivity|]. apply ring_pop_wf; auto.
  - eexists; split; [reflexivity|]. apply ring_reset_wf; auto.
Qed.

Lemma ring_run_wf {A} S (ops : list (bufop A)) : (0 < S)%nat ->
  exists r, ring_run S ops = Some r /\ ring_wf S r.
Proof.
  intros HS. unfold ring_run.
  assert (G : forall r, ring_wf S r -> exists r', fold_left (ring_step S) ops (Some r) = Some r' /\ ring_wf S r').
  { induction ops as [|op ops IH]; intros r W; simpl; [eauto|].
    destruct (ring_step_wf S r op HS W) as (r' & E & W').
    unfold ring_step in E. rewrite E. apply IH. exact W'. }
  apply G. apply ring_init_wf; auto.
Qed.

Lemma ring_wf_size {A} S (r : ring A) : ring_wf S r ->
  0 <= ring_size (Z.of_nat S) r <= Z.of_nat S.
Proof.
  intros (H1 & H2 & H3). unfold ring_size.
  destruct (curW r =? -1) eqn:E; [lia|]. destruct (curW r <? curR r) eqn:E2; lia.
Qed.

Lemma ring_wf_toString_length {A} S (r : ring A) : (0 < S)%nat -> ring_wf S r ->
  Z.of_nat (length (ring_toString (Z.of_nat S) r)) = ring_size (Z.of_nat S) r.
Proof.
  intros HS (H1 & H2 & H3). unfold ring_toString.
  destruct (ring_size (Z.of_nat S) r =? 0) eqn:E0; [simpl; lia|].
  rewrite map_length, app_length, Nat2Z.inj_add, !zrange_length. revert E0.
  unfold ring_size.
  destruct (curW r =? -1) eqn:E1; [lia|].
  destruct (curR r =? Z.of_nat S) eqn:E2;
  destruct (curW r <? curR r) eqn:E3; intros E0; try lia.
  - destruct (0 <=? curW r) eqn:E4; lia.
  - destruct (curR r <=? curW r) eqn:E4; lia.
  - destruct (curR r <=? curW r) eqn:E4; lia.
Qed.

Lemma cell_get_inbounds {A} (l : list (option A)) i :
  0 <= i < Z.of_nat (length l) -> cell_get l i <> None.
Proof.
  intros H. unfold cell_get. destruct (i <? 0) eqn:E; [lia|].
  apply nth_error_Some. lia.
Qed.

Lemma ring_wf_toString_inbounds {A} S (r : ring A) : (0 < S)%nat -> ring_wf S r ->
  Forall (fun c => c <> None) (ring_toString (Z.of_nat S) r).
Proof.
  intros HS (H1 & H2 & H3). unfold ring_toString.
  destruct (ring_size (Z.of_nat S) r =? 0) eqn:E0; [constructor|].
  rewrite Forall_map, Forall_forall. intros i Hi.
  apply cell_get_inbounds. rewrite in_app_iff, !zrange_In in Hi.
  destruct (curR r =? Z.of_nat S) eqn:E2.
  - destruct (0 <=? curW r) eqn:E5; lia.
  - destruct (curR r <=? curW r) eqn:E5; lia.
Qed.

(** * Refinement: the ring holds the window *)
Definition pos (S : Z) (cw n i : Z) : Z :=
  let q := cw - n + 1 + i in if q <? 0 then q + S else q.

Definition ring_rep {A} (S : nat) (r : ring A) (l : list A) : Prop :=
  ring_wf S r /\
  let n := Z.of_nat (length l) in
  n <= Z.of_nat S /\
  (curW r = -1 -> n = 0 /\ curR r = 0) /\
  (0 <= curW r -> 1 <= n /\
     (curR r = curW r - n + 1 \/ curR r = curW r - n + 1 + Z.of_nat S)) /\
  (forall i x, nth_error l i = Some x ->
     cell_get (cells r) (pos (Z.of_nat S) (curW r) n (Z.of_nat i)) = Some (Some x)).

Lemma ring_rep_size {A} S (r : ring A) l : ring_rep S r l ->
  ring_size (Z.of_nat S) r = Z.of_nat (length l).
Proof.
  intros ((H1 & H2 & H3) & H4 & H5 & H6 & H7). unfold ring_size.
  destruct (curW r =? -1) eqn:E; [lia|]. destruct (curW r <? curR r) eqn:E2; lia.
Qed.

Lemma ring_rep_toString {A} S (r : ring A) l : (0 < S)%nat -> ring_rep S r l ->
  ring_toString (Z.of_nat S) r = map (fun x => Some (Some x)) l.
Proof.
  intros HS R. pose proof (ring_rep_size S r l R) as ES.
  destruct R as ((H1 & H2 & H3) & H4 & H5 & H6 & H7).
  unfold ring_toString. rewrite ES.
  destruct (Z.of_nat (length l) =? 0) eqn:E0.
  { destruct l; [reflexivity|simpl in E0; lia]. }
  assert (C : 0 <= curW r) by lia. specialize (H6 C).
  set (b := curW r - Z.of_nat (length l) + 1) in *.
  set (n := Z.of_nat (length l)) in *.
  assert (CASE : 0 <= b \/ b < 0) by lia. destruct CASE as [Hb|Hb].
  - (* no wrap *)
    replace (if curR r =? Z.of_nat S then 0 else curR r) with b.
    2:{ destruct (curR r =? Z.of_nat S) eqn:E; lia. }
    destruct (b <=? curW r) eqn:E1; [|lia].
    replace (Z.of_nat (length (zrange b (curW r + 1)))) with n by (rewrite zrange_length; lia).
    replace (zrange 0 (Z.min (curW r + 1) (n - n))) with (@nil Z).
    2:{ unfold zrange. replace (Z.to_nat _) with O by lia. reflexivity. }
    rewrite app_nil_r. apply zrange_map; [lia|].
    intros i x E. specialize (H7 i x E). unfold pos in H7. cbv zeta in H7. fold b in H7.
    destruct (b + Z.of_nat i <? 0) eqn:E2; [lia|]. exact H7.
  - (* wrap *)
    destruct (curR r =? Z.of_nat S) eqn:E; [lia|].
    destruct (curR r <=? curW r) eqn:E1; [lia|].
    replace (Z.of_nat (length (zrange (curR r) (Z.of_nat S)))) with (- b) by (rewrite zrange_length; lia).
    replace (Z.min (curW r + 1) (n - - b)) with (curW r + 1) by lia.
    rewrite map_app.
    rewrite <- (firstn_skipn (Z.to_nat (- b)) l) at 1. rewrite map_app. f_equal.
    + apply zrange_map; [rewrite firstn_length; lia|].
      intros i x Ei. pose proof (nth_error_lt _ _ _ Ei) as Li. rewrite firstn_length in Li.
      rewrite nth_error_firstn_lt in Ei by lia.
      specialize (H7 i x Ei). unfold pos in H7. cbv zeta in H7. fold b in H7.
      destruct (b + Z.of_nat i <? 0) eqn:E2; [|lia].
      rewrite <- H7. f_equal. lia.
    + apply zrange_map; [rewrite skipn_length; lia|].
      intros i x Ei. rewrite nth_error_skipn in Ei.
      specialize (H7 _ x Ei). unfold pos in H7. cbv zeta in H7. fold b in H7.
      destruct (b + Z.of_nat (Z.to_nat (- b) + i) <? 0) eqn:E2; [lia|].
      rewrite <- H7. f_equal. lia.
Qed.

(** The states in which a single put is right: full, one short of full, or
    never wrapped. *)
Definition ring_ready {A} (S : nat) (slack : Z) (r : ring A) (l : list A) : Prop :=
  Z.of_nat S - slack <= Z.of_nat (length l) \/ Z.of_nat (length l) = curW r + 1.

Lemma ring_init_rep {A} S : (0 < S)%nat -> ring_rep S (@ring_init A S) [] /\ ring_ready S 0 (@ring_init A S) [].
Proof.
  intros H. split; [split; [apply ring_init_wf; auto|]|right; reflexivity].
  simpl. repeat split; try lia. intros i x E. destruct i; discriminate.
Qed.

Lemma ring_reset_rep {A} S (r : ring A) : (0 < S)%nat -> ring_wf S r ->
  ring_rep S (ring_reset r) [] /\ ring_ready S 0 (ring_reset r) [].
Proof.
  intros H W. split; [split; [apply ring_reset_wf; auto|]|right; reflexivity].
  simpl. repeat split; try lia. intros i x E. destruct i; discriminate.
Qed.

Lemma ring_put_rep {A} S (r : ring A) l x : (0 < S)%nat ->
  ring_rep S r l -> ring_ready S 1 r l ->
  exists r', ring_put (Z.of_nat S) r x = Some r' /\
    ring_rep S r' (lastn S (l ++ [x])) /\ ring_ready S 0 r' (lastn S (l ++ [x])).
Proof.
  intros HS R G. destruct (ring_put_wf S r x HS (proj1 R)) as (r' & E & W').
  exists r'; split; [exact E|].
  destruct R as ((H1 & H2 & H3) & H4 & H5 & H6 & H7).
  assert (LL : length (lastn S (l ++ [x])) = Nat.min S (length l + 1))
    by (rewrite lastn_length, app_length; reflexivity).
  unfold ring_ready in *.
  assert (NTH : forall i y, nth_error (lastn S (l ++ [x])) i = Some y ->
     let k := (length l + 1 - S + i)%nat in
     (k < length l /\ nth_error l k = Some y)%nat \/ (k = length l /\ y = x)).
  { intros i y. rewrite nth_error_lastn, app_length. intros Ei k. subst k. cbn [length] in Ei.
    destruct (Nat.lt_ge_cases (length l + 1 - S + i) (length l)) as [L|L].
    - left. rewrite nth_error_app1 in Ei by exact L. auto.
    - right. rewrite nth_error_app2 in Ei by exact L.
      remember (length l + 1 - S + i - length l)%nat as d eqn:Ed.
      destruct d as [|d]; [simpl in Ei; split; [lia|congruence]|].
      destruct d; discriminate. }
  unfold ring_put in E. unfold ring_rep.
  destruct (curW r + 1 =? Z.of_nat S) eqn:E1; [|destruct (curW r =? -1) eqn:E2].
  - destruct (cell_set_spec (cells r) 0 x ltac:(lia)) as (cs & Ec & EL & EG).
    rewrite Ec in E; simpl in E; injection E as <-. rewrite LL. cbn [curW curR cells] in *.
    assert (0 <= curW r \/ curW r = -1) as [C|C] by lia.
    + specialize (H6 C). split; [|left; lia]. split; [exact W'|].
      split; [lia|]. split; [lia|]. split; [lia|].
      intros i y Ei. pose proof (nth_error_lt _ _ _ Ei) as Li. rewrite LL in Li.
      destruct (NTH i y Ei) as [[L1 L2]|[L1 ->]].
      * specialize (H7 _ _ L2). rewrite EG. unfold pos in *. cbv zeta in *.
        match goal with |- context [if ?c then _ else _] => destruct c eqn:Q1 end.
        { exfalso. match type of Q1 with context [if ?c then _ else _] => destruct c eqn:Q2 end; lia. }
        rewrite <- H7. f_equal.
        match goal with |- context [if ?c then _ else _] => destruct c eqn:Q2 end;
        match goal with |- context [if ?c then _ else _] => destruct c eqn:Q3 end; lia.
      * rewrite EG. unfold pos. cbv zeta.
        match goal with |- context [if ?c then ?c1 + _ else _] => destruct c eqn:Q2 end; [lia|].
        match goal with |- context [if ?c then _ else _] => destruct c eqn:Q3 end; [reflexivity|lia].
    + specialize (H5 C). assert (length l = 0)%nat by lia. destruct l; [|discriminate].
      assert (S = 1)%nat by lia. subst S. 
      split; [|left; simpl; lia]. split; [exact W'|]. simpl length.
      split; [lia|]. split; [lia|]. split; [lia|].
      intros i y Ei. destruct (NTH i y Ei) as [[L1 L2]|[L1 ->]]; simpl in L1; [lia|].
      assert (i = 0)%nat by lia. subst i. rewrite H0. unfold pos; simpl. rewrite EG. reflexivity.
  - assert (C : curW r = -1) by lia. specialize (H5 C). assert (length l = 0)%nat by lia. destruct l; [|discriminate].
    destruct (cell_set_spec (cells r) 0 x ltac:(lia)) as (cs & Ec & EL & EG).
    rewrite Ec in E; simpl in E; injection E as <-. rewrite LL. cbn [curW curR cells] in *. simpl length in *.
    split; [|right; lia]. split; [exact W'|].
    split; [lia|]. split; [lia|]. split; [lia|].
    intros i y Ei. destruct (NTH i y Ei) as [[L1 L2]|[L1 ->]]; simpl in L1; [lia|].
    assert (i = 0)%nat by lia. subst i. unfold pos; simpl.
    replace (Z.of_nat (Nat.min S 1)) with 1 by lia. rewrite EG. reflexivity.
  - destruct (cell_set_spec (cells r) (curW r + 1) x ltac:(lia)) as (cs & Ec & EL & EG).
    rewrite Ec in E; simpl in E; injection E as <-. rewrite LL. cbn [curW curR cells] in *.
    assert (C : 0 <= curW r) by lia. specialize (H6 C).
    split; [|lia]. split; [exact W'|].
    split; [lia|]. split; [lia|]. split.
    { intros _. split; [lia|].
      destruct (curR r =? curW r + 1) eqn:Q; [|lia].
      destruct (Z.of_nat S <? curR r + 1) eqn:Q1; lia. }
    intros i y Ei. pose proof (nth_error_lt _ _ _ Ei) as Li. rewrite LL in Li.
    destruct (NTH i y Ei) as [[L1 L2]|[L1 ->]].
    + specialize (H7 _ _ L2). rewrite EG. unfold pos in *. cbv zeta in *.
      match goal with |- context [if ?c =? curW r + 1 then _ else _] => destruct (c =? curW r + 1) eqn:Q1 end.
      { exfalso. match type of Q1 with context [if ?c then _ else _] => destruct c eqn:Q2 end; lia. }
      rewrite <- H7. f_equal.
      match goal with |- context [if ?c then _ else _] => destruct c eqn:Q2 end;
      match goal with |- context [if ?c then _ else _] => destruct c eqn:Q3 end; lia.
    + rewrite EG. unfold pos. cbv zeta.
      match goal with |- context [if ?c then ?c1 + _ else _] => destruct c eqn:Q2 end; [lia|].
      match goal with |- context [if ?c then _ else _] => destruct c eqn:Q3 end; [reflexivity|lia].
Qed.

Lemma ring_pop_rep {A} S (r : ring A) l : (0 < S)%nat ->
  ring_rep S r l -> ring_rep S (ring_pop (Z.of_nat S) r) (removelast l) /\
  (ring_ready S 0 r l -> ring_ready S 1 (ring_pop (Z.of_nat S) r) (removelast l)).
Proof.
  intros HS R. pose proof (ring_pop_wf S r HS (proj1 R)) as W'.
  pose proof (ring_rep_size S r l R) as ES.
  destruct R as ((H1 & H2 & H3) & H4 & H5 & H6 & H7).
  unfold ring_rep, ring_ready. rewrite removelast_length. revert W'.
  unfold ring_pop. rewrite ES.
  destruct (Z.of_nat (length l) =? 0) eqn:E0; [|destruct (Z.of_nat (length l) =? 1) eqn:E1];
    cbn [curW curR cells]; intros W'.
  - destruct l; [|simpl in E0; lia]. simpl length in *. simpl removelast.
    split; [|lia]. split; [exact W'|]. split; [lia|]. split; [exact H5|]. split; [lia|].
    intros i x E. destruct i; discriminate.
  - destruct l as [|a [|b l]]; cbn [length] in E0, E1; try lia. simpl length. simpl removelast.
    split; [|lia]. split; [exact W'|]. split; [lia|]. split; [lia|]. split; [lia|].
    intros i x E. destruct i; discriminate.
  - assert (C : 0 <= curW r) by lia. specialize (H6 C).
    destruct (curW r - 1 <? 0) eqn:E2.
    + split; [|intros [G|G]; [left; lia|right; lia]]. split; [exact W'|]. split; [lia|]. split; [lia|]. split; [lia|].
      intros i x E. pose proof (nth_error_lt _ _ _ E) as Li. rewrite removelast_length in Li.
      apply nth_error_removelast in E. rewrite <- (H7 _ _ E). f_equal. unfold pos; cbv zeta.
      match goal with |- context [if ?c then _ else _] => destruct c eqn:Q2 end;
      match goal with |- context [if ?c then _ else _] => destruct c eqn:Q3 end; lia.
    + split; [|intros [G|G]; [left; lia|right; lia]]. split; [exact W'|]. split; [lia|]. split; [lia|]. split; [lia|].
      intros i x E. pose proof (nth_error_lt _ _ _ E) as Li. rewrite removelast_length in Li.
      apply nth_error_removelast in E. rewrite <- (H7 _ _ E). f_equal. unfold pos; cbv zeta.
      match goal with |- context [if ?c then _ else _] => destruct c eqn:Q2 end;
      match goal with |- context [if ?c then _ else _] => destruct c eqn:Q3 end; lia.
Qed.

(** A batch put of at most SIZE items is right in every state. [mem] may be
    longer than [count]. *)
Lemma ring_put_many_rep {A} S (r : ring A) l mem count : (0 < S)%nat ->
  ring_rep S r l -> (count <= S)%nat -> (count <= length mem)%nat ->
  exists r', ring_put_many (Z.of_nat S) r mem (Z.of_nat count) = Some r' /\
    ring_rep S r' (lastn S (l ++ firstn count mem)) /\
    (forall k, ring_ready S k r l ->
       ring_ready S (if Nat.eqb count 0 then k else Z.max 0 (k - 1)) r' (lastn S (l ++ firstn count mem))).
Proof.
  intros HS R HcS Hcm.
  destruct (ring_put_many_wf_gen S r mem (Z.of_nat count) HS (proj1 R) ltac:(lia) ltac:(lia) ltac:(lia)) as (r' & E & W').
  exists r'; split; [exact E|].
  pose proof (ring_rep_size S r l R) as ES.
  pose proof R as R0.
  destruct R as ((H1 & H2 & H3) & H4 & H5 & H6 & H7).
  assert (LL : length (lastn S (l ++ firstn count mem)) = Nat.min S (length l + count))
    by (rewrite lastn_length, app_length, firstn_length; lia).
  assert (NTH : forall i y, nth_error (lastn S (l ++ firstn count mem)) i = Some y ->
     let k := (length l + count - S + i)%nat in
     (k < length l /\ nth_error l k = Some y)%nat \/
     (length l <= k < length l + count /\ nth_error mem (k - length l) = Some y)%nat).
  { intros i y. rewrite nth_error_lastn, app_length, firstn_length.
    replace (Nat.min count (length mem)) with count by lia. intros Ei k.
    pose proof (nth_error_lt _ _ _ Ei) as Q. rewrite app_length, firstn_length in Q.
    fold k in Ei, Q.
    destruct (Nat.lt_ge_cases k (length l)) as [L|L].
    - left. rewrite nth_error_app1 in Ei by exact L. auto.
    - right. rewrite nth_error_app2 in Ei by exact L. split; [lia|].
      rewrite nth_error_firstn_lt in Ei by lia. exact Ei. }
  unfold ring_put_many in E. rewrite ES in E.
  destruct (Z.of_nat count =? 0) eqn:E0.
  { assert (count = 0)%nat by lia. subst count. injection E as <-.
    simpl firstn. rewrite app_nil_r. unfold lastn. replace (length l - S)%nat with O by lia.
    simpl. auto. }
  destruct (Nat.eqb count 0) eqn:E00; [lia|].
  rewrite put_skip_noop in E by lia.
  assert (MAIN : exists cs' cw', length cs' = S /\ 
     (cw' = curW r + Z.of_nat count \/ cw' = curW r + Z.of_nat count - Z.of_nat S) /\
     0 <= cw' < Z.of_nat S /\
     (forall j, 0 <= j < Z.of_nat S -> cell_get cs' j =
        let d := if j <=? curW r then j + Z.of_nat S - curW r - 1 else j - curW r - 1 in
        if d <? Z.of_nat count then option_map Some (nth_error mem (Z.to_nat d)) else cell_get (cells r) j) /\
     cells r' = cs' /\ curW r' = cw' /\
     curR r' = (if Z.of_nat S <=? Z.of_nat (length l) + Z.of_nat count then (cw' + 1) mod Z.of_nat S else curR r)).
  { destruct (Z.of_nat S <=? curW r + Z.of_nat count) eqn:E1.
    - destruct (curW r + 1 =? Z.of_nat S) eqn:E2; cbn [negb] in E.
      + destruct (cells_copy_spec (Z.to_nat (Z.of_nat count)) (cells r) (-1 + 1) mem ltac:(lia) ltac:(lia) ltac:(lia))
          as (cs & Ec & EL & EG). rewrite Ec in E.
        destruct (-1 + Z.of_nat count =? Z.of_nat S) eqn:E3; [lia|].
        exists cs, (-1 + Z.of_nat count).
        split; [lia|]. split; [lia|]. split; [lia|]. split.
        { intros j Hj. rewrite EG. cbv zeta.
          destruct (j <=? curW r) eqn:Q1; [|lia].
          match goal with |- context [if ?c then _ else _] => destruct c eqn:Q2 end;
          match goal with |- context [if ?c then _ else _] => destruct c eqn:Q3 end; try lia; try reflexivity.
          f_equal. f_equal. lia. }
        destruct (Z.of_nat S <=? Z.of_nat (length l) + Z.of_nat count); injection E as <-; auto.
      + destruct (cells_copy_spec (Z.to_nat (Z.of_nat S - curW r - 1)) (cells r) (curW r + 1) mem
                  ltac:(lia) ltac:(lia) ltac:(lia)) as (l1 & Ec1 & EL1 & EG1). rewrite Ec1 in E.
        destruct (cells_copy_spec (Z.to_nat (Z.of_nat count - (Z.of_nat S - curW r - 1))) l1 (-1 + 1)
                  (skipn (Z.to_nat (Z.of_nat S - curW r - 1)) mem)
                  ltac:(lia) ltac:(lia) ltac:(rewrite skipn_length; lia)) as (l2 & Ec2 & EL2 & EG2). rewrite Ec2 in E.
        destruct (-1 + (Z.of_nat count - (Z.of_nat S - curW r - 1)) =? Z.of_nat S) eqn:E3; [lia|].
        exists l2, (-1 + (Z.of_nat count - (Z.of_nat S - curW r - 1))).
        split; [lia|]. split; [lia|]. split; [lia|]. split.
        { intros j Hj. rewrite EG2, EG1, nth_error_skipn. cbv zeta.
          destruct (j <=? curW r) eqn:Q1.
          - match goal with |- context [if ?c then _ else _] => destruct c eqn:Q2 end.
            + match goal with |- context [if ?c then _ else _] => destruct c eqn:Q3 end; [|lia].
              f_equal. f_equal. lia.
            + match goal with |- context [if ?c then _ else _] => destruct c eqn:Q3 end; [lia|].
              match goal with |- context [if ?c then _ else _] => destruct c eqn:Q4 end; [lia|reflexivity].
          - match goal with |- context [if ?c then _ else _] => destruct c eqn:Q2 end; [lia|].
            match goal with |- context [if ?c then _ else _] => destruct c eqn:Q3 end; [|lia].
            match goal with |- context [if ?c then _ else _] => destruct c eqn:Q4 end; [|lia].
            f_equal. f_equal. lia. }
        destruct (Z.of_nat S <=? Z.of_nat (length l) + Z.of_nat count); injection E as <-; auto.
    - destruct (cells_copy_spec (Z.to_nat (Z.of_nat count)) (cells r) (curW r + 1) mem ltac:(lia) ltac:(lia) ltac:(lia))
          as (cs & Ec & EL & EG). rewrite Ec in E.
      destruct (curW r + Z.of_nat count =? Z.of_nat S) eqn:E3; [lia|].
      exists cs, (curW r + Z.of_nat count).
      split; [lia|]. split; [lia|]. split; [lia|]. split.
      { intros j Hj. rewrite EG. cbv zeta.
        destruct (j <=? curW r) eqn:Q1;
        match goal with |- context [if ?c then _ else _] => destruct c eqn:Q2 end;
        match goal with |- context [if ?c then _ else _] => destruct c eqn:Q3 end; try lia; try reflexivity.
        f_equal. f_equal. lia. }
      destruct (Z.of_nat S <=? Z.of_nat (length l) + Z.of_nat count); injection E as <-; auto. }
  clear E. destruct MAIN as (cs & cw & M1 & M2 & M3 & M4 & M5 & M6 & M7).
  assert (MODR : (cw + 1) mod Z.of_nat S = if cw + 1 =? Z.of_nat S then 0 else cw + 1).
  { destruct (cw + 1 =? Z.of_nat S) eqn:Q.
    - replace (cw + 1) with (Z.of_nat S) by lia. apply Z.mod_same. lia.
    - apply Z.mod_small. lia. }
  split.
  - split; [exact W'|]. rewrite LL, M5, M6, M7. split; [lia|]. split; [lia|]. split.
    { intros _. split; [lia|].
      destruct (Z.of_nat S <=? Z.of_nat (length l) + Z.of_nat count) eqn:Q.
      - rewrite MODR. destruct (cw + 1 =? Z.of_nat S) eqn:Q2; lia.
      - assert (0 <= curW r \/ curW r = -1) as [C|C] by lia.
        + specialize (H6 C). assert (Z.of_nat S - curW r - 1 < Z.of_nat count \/ Z.of_nat count <= Z.of_nat S - curW r - 1) as [D|D] by lia.
          * assert (cw = curW r + Z.of_nat count - Z.of_nat S) by lia. lia.
          * assert (cw = curW r + Z.of_nat count) by lia. lia.
        + specialize (H5 C). lia. }
    intros i y Ei. pose proof (nth_error_lt _ _ _ Ei) as Li. rewrite LL in Li.
    set (p := pos (Z.of_nat S) cw (Z.of_nat (Nat.min S (length l + count))) (Z.of_nat i)).
    assert (Pr : 0 <= p < Z.of_nat S).
    { subst p. unfold pos; cbv zeta. 
      match goal with |- context [if ?c then _ else _] => destruct c eqn:Q2 end; lia. }
    rewrite (M4 p Pr). cbv zeta.
    destruct (NTH i y Ei) as [[L1 L2]|[L1 L2]].
    + specialize (H7 _ _ L2). 
      assert (0 <= curW r \/ curW r = -1) as [C|C] by lia; [|specialize (H5 C); lia].
      specialize (H6 C).
      assert (EP : p = pos (Z.of_nat S) (curW r) (Z.of_nat (length l)) (Z.of_nat (length l + count - S + i))).
      { subst p. unfold pos; cbv zeta.
        match goal with |- context [if ?c then _ else _] => destruct c eqn:Q2 end;
        match goal with |- context [if ?c then _ else _] => destruct c eqn:Q3 end; lia. }
      rewrite <- EP in H7. rewrite H7.
      match goal with |- context [if ?c <? Z.of_nat count then _ else _] => destruct (c <? Z.of_nat count) eqn:Q end; [|reflexivity].
      exfalso. rewrite EP in Q. unfold pos in Q; cbv zeta in Q.
      repeat match type of Q with context [if ?c then _ else _] => destruct c eqn:? end; lia.
    + assert (ED : (if p <=? curW r then p + Z.of_nat S - curW r - 1 else p - curW r - 1)
                   = Z.of_nat (length l + count - S + i - length l)).
      { subst p. unfold pos; cbv zeta.
        match goal with |- context [if ?c <? 0 then _ else _] => destruct (c <? 0) eqn:Q2 end;
        match goal with |- context [if ?c then _ else _] => destruct c eqn:Q3 end; lia. }
      rewrite ED.
      match goal with |- context [if ?c <? Z.of_nat count then _ else _] => destruct (c <? Z.of_nat count) eqn:Q end; [|lia].
      rewrite Nat2Z.id, L2. reflexivity.
  - intros k. unfold ring_ready. rewrite LL, M6. lia.
Qed.

Lemma disciplined_run {A} S (ops : list (bufop A)) : (0 < S)%nat ->
  forall (just_put : bool) (r : ring A) l,
  ring_rep S r l -> ring_ready S (if just_put then 0 else 1) r l ->
  disciplined_from S just_put ops ->
  exists r', fold_left (ring_step S) ops (Some r) = Some r' /\
    ring_rep S r' (fold_left (window_step S) ops l).
Proof.
  intros HS. induction ops as [|op ops IH]; intros jp r l R G D; [simpl; eauto|].
  destruct op as [x|xs| |]; cbn [fold_left window_step].
  - destruct (ring_put_rep S r l x HS R) as (r' & E & R' & G').
    { unfold ring_ready in *; destruct jp; lia. }
    cbn [ring_step]. rewrite E. apply (IH true r' _ R' G' D).
  - destruct D as [D1 D2].
    destruct (ring_put_many_rep S r l xs (length xs) HS R D1 (le_n _)) as (r' & E & R' & G').
    cbn [ring_step]. rewrite E. rewrite firstn_all in R', G'. 
    eapply IH; [exact R'| |exact D2].
    specialize (G' _ G). unfold ring_ready in *.
    destruct (Nat.eqb (length xs) 0) eqn:Q; cbn [negb]; destruct jp; lia.
  - destruct D as [-> D2]. destruct (ring_pop_rep S r l HS R) as (R' & G').
    cbn [ring_step]. apply (IH false _ _ R' (G' G) D2).
  - destruct (ring_reset_rep S r HS (proj1 R)) as (R' & G').
    cbn [ring_step]. apply (IH true _ _ R' G' D).
Qed.

(** C16, restricted to disciplined histories. *)
Lemma ring_window {A} S (ops : list (bufop A)) : (0 < S)%nat -> disciplined S ops ->
  exists r, ring_run S ops = Some r /\
    ring_toString (Z.of_nat S) r = map (fun x => Some (Some x)) (window_run S ops).
Proof.
  intros HS D. destruct (ring_init_rep (A:=A) S HS) as (R & G).
  destruct (disciplined_run S ops HS true _ _ R G D) as (r' & E & R').
  exists r'; split; [exact E|]. apply ring_rep_toString; auto.
Qed.

(** C17. *)
Lemma ring_capacity {A} S (ops : list (bufop A)) : (0 < S)%nat ->
  exists r, ring_run S ops = Some r /\
    0 <= ring_size (Z.of_nat S) r <= Z.of_nat S /\
    Z.of_nat (length (ring_toString (Z.of_nat S) r)) = ring_size (Z.of_nat S) r /\
    Forall (fun c => c <> None) (ring_toString (Z.of_nat S) r).
Proof.
  intros HS. destruct (ring_run_wf S ops HS) as (r & E & W).
  exists r; split; [exact E|]. split; [apply ring_wf_size; auto|].
  split; [apply ring_wf_toString_length; auto|apply ring_wf_toString_inbounds; auto].
Qed.

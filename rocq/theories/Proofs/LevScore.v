(** Score of two texts. *)
From Verif Require Export Proofs.LevProofs Proofs.FloatProofs.
From Coq Require Import Reals Lra.
From Flocq Require Import Core BinarySingleNaN.
Open Scope R_scope.

Local Instance Hp24 : Prec_gt_0 24 := eq_refl _.
Local Instance Hm24 : Prec_lt_emax 24 128 := eq_refl _.
Notation r32 := (round radix2 (SpecFloat.fexp 24 128) ZnearestE).
Notation is32 := (isf 24 128).

Lemma exact32 z : (Z.abs z <= 2 ^ 24)%Z -> is32 (f32_of_Z z) (IZR z).
Proof.
  intros B. pose proof (rnd_int 24 128 _ z B ltac:(lia) ltac:(lia)) as E. rewrite <- E.
  apply (isf_of_Z 24 128 Hp24 Hm24). rewrite E. rewrite <- abs_IZR.
  apply Rle_lt_trans with (IZR (2 ^ 24)); [apply IZR_le, B|].
  change 2%Z with (radix_val radix2). rewrite (IZR_Zpower radix2) by lia. apply bpow_lt. lia.
Qed.

Lemma small32 x : Rabs x <= 1 -> Rabs (r32 x) < bpow radix2 128.
Proof.
  intros B. apply Rle_lt_trans with 1; [|change 1 with (bpow radix2 0); apply bpow_lt; lia].
  apply abs_round_le_generic; [typeclasses eauto..| |exact B].
  change 1 with (bpow radix2 0). apply generic_format_bpow. vm_compute. congruence.
Qed.

(** A quotient of exact integers, computed. *)
Lemma quot32 d m : (0 <= d <= m)%Z -> (1 <= m <= 2 ^ 24)%Z ->
  is32 (f32_div (f32_of_Z d) (f32_of_Z m)) (r32 (IZR d / IZR m)) /\ 0 <= IZR d / IZR m <= 1.
Proof.
  intros D M. assert (P : 0 < IZR m) by (apply IZR_lt; lia).
  assert (Q : 0 <= IZR d / IZR m <= 1).
  { split; [apply Rmult_le_pos; [apply IZR_le; lia|left; apply Rinv_0_lt_compat, P]|].
    apply Rmult_le_reg_r with (IZR m); [exact P|]. unfold Rdiv. rewrite Rmult_assoc, Rinv_l by lra. rewrite Rmult_1_l, Rmult_1_r. apply IZR_le. lia. }
  split; [|exact Q].
  apply (isf_div 24 128 Hp24 Hm24); [apply exact32; lia|apply exact32; lia|lra|].
  apply small32. rewrite Rabs_pos_eq; lra.
Qed.

Lemma r32_0 : r32 0 = 0. Proof. apply round_0. typeclasses eauto. Qed.
Lemma r32_1 : r32 1 = 1. Proof. exact (rnd_int 24 128 _ 1 ltac:(cbn; lia) ltac:(lia) ltac:(lia)). Qed.

Lemma percent32 d m : (0 <= d <= m)%Z -> (1 <= m <= 2 ^ 24)%Z ->
  is32 (percent_of d m) (r32 (1 - r32 (IZR d / IZR m))) /\ 0 <= r32 (IZR d / IZR m) <= 1.
Proof.
  intros D M. destruct (quot32 d m D M) as [Q B].
  assert (B' : 0 <= r32 (IZR d / IZR m) <= 1).
  { pose proof (rnd_le 24 128 Hp24 0 _ (proj1 B)) as K0. pose proof (rnd_le 24 128 Hp24 _ 1 (proj2 B)) as K1.
    rewrite r32_0 in K0. rewrite r32_1 in K1. split; assumption. }
  split; [|exact B']. apply (isf_sub 24 128 Hp24 Hm24); [apply exact32; cbn; lia|exact Q|].
  apply small32. rewrite Rabs_pos_eq; lra.
Qed.

(** Quotients and differences of given numbers. *)
Definition S30 : spec_float := S754_finite false 10066330 (-25).    (* 0.3f *)
Definition S30m : spec_float := S754_finite false 10066329 (-25).   (* the float before *)
Definition S70 : spec_float := S754_finite false 11744051 (-24).    (* 0.7f *)
Definition S70p : spec_float := S754_finite false 11744052 (-24).   (* the float after *)

Lemma sf2r m e : SF2R radix2 (S754_finite false m e) = IZR (Zpos m) * bpow radix2 e.
Proof. reflexivity. Qed.
Ltac bp := rewrite !sf2r; change (bpow radix2 (-24)) with (/ 16777216); change (bpow radix2 (-25)) with (/ 33554432).

Lemma sens32 : is32 sensibility (SF2R radix2 S70).
Proof. change sensibility with S70. apply isf_val; reflexivity. Qed.

Lemma r32_30 : r32 (IZR 3 / IZR 10) = SF2R radix2 S30.
Proof.
  destruct (quot32 3 10 ltac:(lia) ltac:(cbn; lia)) as [Q _]. eapply isf_eq; [exact Q|].
  change (f32_div (f32_of_Z 3) (f32_of_Z 10)) with S30. apply isf_val; reflexivity.
Qed.
Lemma r32_30m : r32 (IZR 5033162 / IZR 16777207) = SF2R radix2 S30m.
Proof.
  destruct (quot32 5033162 16777207 ltac:(lia) ltac:(cbn; lia)) as [Q _]. eapply isf_eq; [exact Q|].
  change (f32_div (f32_of_Z 5033162) (f32_of_Z 16777207)) with S30m. apply isf_val; reflexivity.
Qed.
Lemma r32_70p : r32 (1 - SF2R radix2 S30m) = SF2R radix2 S70p.
Proof.
  assert (Q : is32 (f32_sub (f32_of_Z 1) S30m) (r32 (IZR 1 - SF2R radix2 S30m))).
  { apply (isf_sub 24 128 Hp24 Hm24); [apply exact32; cbn; lia|apply isf_val; reflexivity|].
    apply small32. unfold S30m. bp. rewrite Rabs_pos_eq; lra. }
  eapply isf_eq; [exact Q|]. change (f32_sub (f32_of_Z 1) S30m) with S70p. apply isf_val; reflexivity.
Qed.
Lemma r32_70 : r32 (1 - SF2R radix2 S30) = SF2R radix2 S70.
Proof.
  assert (Q : is32 (f32_sub (f32_of_Z 1) S30) (r32 (IZR 1 - SF2R radix2 S30))).
  { apply (isf_sub 24 128 Hp24 Hm24); [apply exact32; cbn; lia|apply isf_val; reflexivity|].
    apply small32. unfold S30. bp. rewrite Rabs_pos_eq; lra. }
  eapply isf_eq; [exact Q|]. change (f32_sub (f32_of_Z 1) S30) with S70. apply isf_val; reflexivity.
Qed.

Lemma div_le a b c d : (0 < b)%Z -> (0 < d)%Z -> (a * d <= c * b)%Z -> IZR a / IZR b <= IZR c / IZR d.
Proof.
  intros B D H. assert (0 < IZR b) by (apply IZR_lt, B). assert (0 < IZR d) by (apply IZR_lt, D).
  apply Rmult_le_reg_r with (IZR b * IZR d); [nra|].
  replace (IZR a / IZR b * (IZR b * IZR d)) with (IZR a * IZR d) by (field; lra).
  replace (IZR c / IZR d * (IZR b * IZR d)) with (IZR c * IZR b) by (field; lra).
  rewrite <- !mult_IZR. apply IZR_le, H.
Qed.

Lemma percent_threshold d m : (0 <= d <= m)%Z -> (1 <= m <= 2 ^ 24)%Z ->
  score_similar (percent_of d m) = true <-> (10 * d < 3 * m)%Z.
Proof.
  intros D M. destruct (percent32 d m D M) as [P B]. unfold score_similar, f_gt.
  rewrite (isf_ltb _ _ _ _ _ _ sens32 P). split.
  - intros H. destruct (Z_lt_dec (10 * d) (3 * m)) as [L|L]; [exact L|exfalso].
    apply Rlt_bool_true_iff in H || (revert H; case Rlt_bool_spec; [intros H _|discriminate]).
    apply (Rlt_not_le _ _ H). rewrite <- r32_70. apply (rnd_le 24 128 Hp24).
    assert (r32 (IZR 3 / IZR 10) <= r32 (IZR d / IZR m)) as K by (apply (rnd_le 24 128 Hp24); [apply div_le; lia]).
    rewrite r32_30 in K. lra.
  - intros L. apply Rlt_bool_true. apply Rlt_le_trans with (SF2R radix2 S70p); [unfold S70, S70p; bp; lra|].
    rewrite <- r32_70p. apply (rnd_le 24 128 Hp24).
    assert (r32 (IZR d / IZR m) <= r32 (IZR 5033162 / IZR 16777207)) as K.
    { apply (rnd_le 24 128 Hp24); [apply div_le; [lia|lia|]]. change (2 ^ 24)%Z with 16777216%Z in M.
      destruct (Z_le_dec m 16777207); [lia|].
      assert (m = 16777208 \/ m = 16777209 \/ m = 16777210 \/ m = 16777211 \/ m = 16777212 \/ m = 16777213 \/ m = 16777214 \/ m = 16777215 \/ m = 16777216)%Z as C by lia.
      repeat (destruct C as [->|C]; [lia|]). subst m. lia. }
    rewrite r32_30m in K. lra.
Qed.

Lemma percent_range d m : (0 <= d <= m)%Z -> (1 <= m <= 2 ^ 24)%Z ->
  SFleb (S754_zero false) (percent_of d m) = true /\ SFleb (percent_of d m) f32_one = true.
Proof.
  intros D M. destruct (percent32 d m D M) as [P B].
  assert (Z0 : is32 (S754_zero false) 0) by (apply (isf_val 24 128 (S754_zero false)); reflexivity).
  assert (O1 : is32 f32_one 1) by (apply (exact32 1); cbn; lia).
  rewrite (isf_leb _ _ _ _ _ _ Z0 P), (isf_leb _ _ _ _ _ _ P O1).
  split; apply Rle_bool_true.
  - assert (K : r32 0 <= r32 (1 - r32 (IZR d / IZR m))) by (apply (rnd_le 24 128 Hp24); lra). rewrite r32_0 in K. exact K.
  - assert (K : r32 (1 - r32 (IZR d / IZR m)) <= r32 1) by (apply (rnd_le 24 128 Hp24); lra). rewrite r32_1 in K. exact K.
Qed.

Lemma percent_one d m : (0 <= d <= m)%Z -> (1 <= m <= 2 ^ 24)%Z -> percent_of d m = f32_one <-> d = 0%Z.
Proof.
  intros D M. destruct (percent32 d m D M) as [P B].
  assert (O1 : is32 f32_one 1) by (apply (exact32 1); cbn; lia). split.
  - intros E. destruct (Z.eq_dec d 0) as [L|L]; [exact L|exfalso].
    rewrite E in P. pose proof (isf_eq _ _ _ _ _ P O1) as Q.
    assert (K : r32 (IZR 1 / IZR 16777216) <= r32 (IZR d / IZR m)).
    { apply (rnd_le 24 128 Hp24); [apply div_le; change (2 ^ 24)%Z with 16777216%Z in M; lia]. }
    assert (G : forall z e, (Z.abs z < 2 ^ 24)%Z -> (-149 <= e)%Z -> r32 (IZR z * bpow radix2 e) = IZR z * bpow radix2 e).
    { intros z e Bz Be. apply round_generic; [typeclasses eauto|]. apply generic_format_FLT.
      exists (Float radix2 z e); [reflexivity|exact Bz|exact Be]. }
    assert (G1 : r32 (IZR 1 / IZR 16777216) = / 16777216).
    { specialize (G 1%Z (-24)%Z ltac:(cbn; lia) ltac:(lia)). change (bpow radix2 (-24)) with (/ 16777216) in G.
      replace (IZR 1 / IZR 16777216) with (IZR 1 * / 16777216) by reflexivity. rewrite G. lra. }
    assert (G2 : r32 (IZR 16777215 * / 16777216) = IZR 16777215 * / 16777216).
    { exact (G 16777215%Z (-24)%Z ltac:(cbn; lia) ltac:(lia)). }
    assert (r32 (1 - r32 (IZR d / IZR m)) <= r32 (IZR 16777215 * / 16777216)).
    { apply (rnd_le 24 128 Hp24). rewrite G1 in K. lra. }
    rewrite G2 in H. lra.
  - intros ->. assert (exists r, is32 (f32_of_Z m) r /\ r <> 0) as (r & (b & Eb & Fb & Rb) & N).
    { exists (IZR m). split; [apply exact32; lia|]. apply not_0_IZR. lia. }
    unfold percent_of. change (f32_of_Z 0) with (S754_zero false). rewrite Eb.
    destruct b as [s|s| |s mb e V]; try discriminate Fb.
    + exfalso. apply N. rewrite <- Rb. reflexivity.
    + cbn [B2SF f32_div SFdiv]. destruct s; reflexivity.
Qed.

Lemma score_spec a b : (Z.of_nat (length a) <= 2 ^ 24)%Z -> (Z.of_nat (length b) <= 2 ^ 24)%Z ->
  (score_similar (levenshteinPercent a b) = true <->
   a = b \/ (10 * levenshtein a b < 3 * Z.max (Z.of_nat (length a)) (Z.of_nat (length b)))%Z) /\
  SFleb (S754_zero false) (levenshteinPercent a b) = true /\ SFleb (levenshteinPercent a b) f32_one = true /\
  (levenshteinPercent a b = f32_one <-> a = b).
Proof.
  intros La Lb.
  assert (C : (a = [] /\ b = []) \/
    levenshteinPercent a b = percent_of (levenshtein a b) (Z.max (Z.of_nat (length a)) (Z.of_nat (length b))) /\
    (1 <= Z.max (Z.of_nat (length a)) (Z.of_nat (length b)))%Z).
  { destruct a as [|x a]; [destruct b as [|y b]; [left; auto|]|]; right; (split; [reflexivity|]); cbn [length]; lia. }
  destruct C as [[-> ->]|[-> M]].
  - split; [|split; [|split]]; try reflexivity; [|split; auto]. split; [auto|]. intros _. reflexivity.
  - pose proof (lev_bounds a b) as LB. assert (L0 : (0 <= levenshtein a b)%Z) by lia.
    set (m := Z.max _ _) in *. split; [|split; [|split]].
    + rewrite percent_threshold by lia. split; [auto|]. intros [E|E]; [|exact E].
      apply lev_zero in E. rewrite E. lia.
    + apply percent_range; lia.
    + apply percent_range; lia.
    + rewrite percent_one by lia. apply lev_zero.
Qed.

(** Texts [n] and [k] times the same letter. *)
Lemma lev_repeat c n k : (k <= n)%nat -> levenshtein (repeat c n) (repeat c k) = Z.of_nat (n - k).
Proof.
  intros L. pose proof (lev_bounds (repeat c n) (repeat c k)) as B. rewrite !repeat_length in B.
  destruct (levenshtein_cell (repeat c n) (repeat c k)) as (d & E & _ & M). rewrite E in *.
  assert (A : forall j, align (repeat c (j + k)) (repeat c k) j).
  { induction j; cbn [Nat.add repeat]; [apply align_refl|constructor; exact IHj]. }
  specialize (A (n - k)%nat). rewrite Nat.sub_add in A by exact L. specialize (M _ A). lia.
Qed.

Lemma repeat_percent n k : (0 < k <= n)%Z ->
  levenshteinPercent (repeat "a"%char (Z.to_nat n)) (repeat "a"%char (Z.to_nat k)) = percent_of (n - k) n /\
  levenshtein (repeat "a"%char (Z.to_nat n)) (repeat "a"%char (Z.to_nat k)) = (n - k)%Z /\
  Z.max (Z.of_nat (length (repeat "a"%char (Z.to_nat n)))) (Z.of_nat (length (repeat "a"%char (Z.to_nat k)))) = n.
Proof.
  intros L. pose proof (lev_repeat "a" (Z.to_nat n) (Z.to_nat k) ltac:(lia)) as E.
  assert (E' : levenshtein (repeat "a"%char (Z.to_nat n)) (repeat "a"%char (Z.to_nat k)) = (n - k)%Z) by lia.
  rewrite !repeat_length. split; [|split; [exact E'|lia]].
  transitivity (percent_of (levenshtein (repeat "a"%char (Z.to_nat n)) (repeat "a"%char (Z.to_nat k))) n); [|rewrite E'; reflexivity].
  unfold levenshteinPercent. rewrite !repeat_length.
  replace (Z.max (Z.of_nat (Z.to_nat n)) (Z.of_nat (Z.to_nat k))) with n by lia.
  assert (exists j, Z.to_nat n = S j) as (j & J) by (exists (Nat.pred (Z.to_nat n)); lia).
  rewrite J. reflexivity.
Qed.

Lemma score_refuted :
  (exists a b, a <> b /\
     10 * levenshtein a b < 3 * Z.max (Z.of_nat (length a)) (Z.of_nat (length b)) /\
     score_similar (levenshteinPercent a b) = false)%Z /\
  (exists a b, a <> b /\ levenshteinPercent a b = f32_one).
Proof.
  assert (N : forall n k, (0 < k < n)%Z -> repeat "a"%char (Z.to_nat n) <> repeat "a"%char (Z.to_nat k)).
  { intros n k L E. apply (f_equal (@length ascii)) in E. rewrite !repeat_length in E. lia. }
  split.
  - destruct (repeat_percent 16777217 11744052 ltac:(lia)) as (E1 & E2 & E3).
    exists (repeat "a"%char (Z.to_nat 16777217)), (repeat "a"%char (Z.to_nat 11744052)).
    split; [apply N; lia|]. rewrite E1, E2, E3. split; [lia|]. vm_compute. reflexivity.
  - destruct (repeat_percent 33554432 33554431 ltac:(lia)) as (E1 & _).
    exists (repeat "a"%char (Z.to_nat 33554432)), (repeat "a"%char (Z.to_nat 33554431)).
    split; [apply N; lia|]. rewrite E1. vm_compute. reflexivity.
Qed.

(** A text is similar to itself, however long. *)
Lemma of_Z_positive z : (1 <= z)%Z -> exists s, f32_of_Z z = S754_infinity s \/ exists m e, f32_of_Z z = S754_finite s m e.
Proof.
  intros P. unfold f32_of_Z. rewrite (normalize_equiv 24 128 Hp24 Hm24).
  pose proof (binary_normalize_correct 24 128 Hp24 Hm24 mode_NE z 0 false) as C. cbv zeta in C.
  replace (F2R (Float radix2 z 0)) with (IZR z) in C by (unfold F2R; simpl; ring).
  change (round_mode mode_NE) with ZnearestE in C.
  set (b := binary_normalize _ _ _ _ _ z 0 false) in *.
  destruct (Rlt_bool (Rabs (r32 (IZR z))) (bpow radix2 128)).
  - destruct C as (R & F & _). assert (G : r32 1 <= r32 (IZR z)) by (apply (rnd_le 24 128 Hp24); apply IZR_le; exact P).
    rewrite r32_1, <- R in G. destruct b as [s|s| |s m e V]; try discriminate F.
    + cbn in G. lra.
    + exists s. right. exists m, e. reflexivity.
  - unfold binary_overflow in C. cbn [overflow_to_inf] in C. exists (Rlt_bool (IZR z) 0). left. exact C.
Qed.

Lemma score_self x : score_similar (levenshteinPercent x x) = true.
Proof.
  unfold levenshteinPercent. rewrite (proj2 (lev_zero x x) eq_refl). destruct x as [|c x]; [reflexivity|].
  assert (P : (1 <= Z.max (Z.of_nat (length (c :: x))) (Z.of_nat (length (c :: x))))%Z) by (cbn [length]; lia).
  unfold percent_of. change (f32_of_Z 0) with (S754_zero false).
  destruct (of_Z_positive _ P) as (s & [-> |(m & e & ->)]); destruct s; reflexivity.
Qed.

(** getNbLines rounds up. *)
From Verif Require Export Model.NbLines Proofs.FloatProofs.
From Coq Require Import ZArith Reals Lia Lra.
From Flocq Require Import Core BinarySingleNaN.
Open Scope R_scope.

Local Instance Hp53 : Prec_gt_0 53 := eq_refl _.
Local Instance Hm53 : Prec_lt_emax 53 1024 := eq_refl _.
Notation r64 := (round radix2 (SpecFloat.fexp 53 1024) ZnearestE).
Notation is64 := (isf 53 1024).

Lemma add_equiv64 (x y : binary_float 53 1024) :
  SFadd 53 1024 (B2SF x) (B2SF y) = B2SF (Bplus mode_NE x y).
Proof.
  case x as [sx|sx| |sx mx ex Bx]; case y as [sy|sy| |sy my ey By]; [now (trivial || simpl; case Bool.eqb).. | ].
  apply normalize_equiv.
Qed.

Lemma is64_add f x g y : is64 f x -> is64 g y -> Rabs (r64 (x + y)) < bpow radix2 1024 ->
  is64 (f64_add f g) (r64 (x + y)).
Proof.
  intros (bx & -> & Fx & Ex) (b_y & -> & Fy & Ey) H. eexists. split; [apply add_equiv64|].
  pose proof (Bplus_correct 53 1024 Hp53 Hm53 mode_NE bx b_y Fx Fy) as C. rewrite Ex, Ey in C.
  change (round_mode mode_NE) with ZnearestE in C. rewrite Rlt_bool_true in C by exact H. tauto.
Qed.

Lemma exact64 z : (Z.abs z <= 2 ^ 53)%Z -> is64 (f64_of_Z z) (IZR z).
Proof.
  intros B. pose proof (rnd_int 53 1024 _ z B ltac:(lia) ltac:(lia)) as E. rewrite <- E.
  apply (isf_of_Z 53 1024 Hp53 Hm53). rewrite E. rewrite <- abs_IZR.
  apply Rle_lt_trans with (IZR (2 ^ 53)); [apply IZR_le, B|].
  change 2%Z with (radix_val radix2). rewrite (IZR_Zpower radix2) by lia. apply bpow_lt. lia.
Qed.

Lemma bounded64 x : 0 <= x <= IZR (2 ^ 53) -> 0 <= r64 x <= IZR (2 ^ 53).
Proof.
  intros [L H]. assert (E : r64 (IZR (2 ^ 53)) = IZR (2 ^ 53)) by (apply (rnd_int 53 1024 _); cbn; lia).
  assert (E0 : r64 0 = 0) by (apply round_0; typeclasses eauto).
  split; [rewrite <- E0|rewrite <- E]; apply (rnd_le 53 1024 Hp53); assumption.
Qed.
Lemma small64 x : 0 <= x <= IZR (2 ^ 53) -> Rabs (r64 x) < bpow radix2 1024.
Proof.
  intros B. apply bounded64 in B. rewrite Rabs_pos_eq by lra.
  apply Rle_lt_trans with (IZR (2 ^ 53)); [lra|].
  change 2%Z with (radix_val radix2). rewrite (IZR_Zpower radix2) by lia. apply bpow_lt. lia.
Qed.

(** Truncation of a non-negative float. *)
Lemma trunc64 f x : is64 f x -> 0 <= x -> f64_trunc f = Some (Zfloor x).
Proof.
  intros (b & -> & F & E) P. destruct b as [s|s| |s m e V]; try discriminate F.
  - cbn in *. subst x. f_equal. symmetry. apply (Zfloor_IZR 0).
  - cbn [B2SF f64_trunc]. cbn [B2R] in E.
    assert (s = false) as ->.
    { destruct s; [|reflexivity]. exfalso. subst x. cbn [cond_Zopp] in P.
      assert (F2R (Float radix2 (Z.neg m) e) < 0) by (apply F2R_lt_0; reflexivity). cbn in P. lra. }
    cbn [cond_Zopp] in E. f_equal. subst x. unfold F2R; cbn [Fnum Fexp].
    destruct (0 <=? e)%Z eqn:L.
    + apply Z.leb_le in L. rewrite <- (IZR_Zpower radix2) by exact L. rewrite <- mult_IZR. symmetry. apply Zfloor_IZR.
    + apply Z.leb_gt in L. rewrite <- (Z.opp_involutive e) at 2. rewrite bpow_opp.
      rewrite <- (IZR_Zpower radix2 (- e)) by lia. change (radix_val radix2) with 2%Z.
      symmetry. apply Zfloor_div. assert (0 < 2 ^ (- e))%Z by (apply Z.pow_pos_nonneg; lia). lia.
Qed.

(** Dyadic rationals with small numerators are floats. *)
Lemma dyadic z j : (Z.abs z < 2 ^ 53)%Z -> (0 <= j <= 1000)%Z -> r64 (IZR z / IZR (2 ^ j)) = IZR z / IZR (2 ^ j).
Proof.
  intros B J. apply round_generic; [typeclasses eauto|]. apply generic_format_FLT.
  exists (Float radix2 z (- j)).
  - unfold F2R; cbn [Fnum Fexp]. rewrite bpow_opp. rewrite <- (IZR_Zpower radix2) by lia. reflexivity.
  - exact B.
  - unfold SpecFloat.emin. cbn [Fexp]. lia.
Qed.

Lemma div_le' a b c d : (0 < b)%Z -> (0 < d)%Z -> (a * d <= c * b)%Z -> IZR a / IZR b <= IZR c / IZR d.
Proof.
  intros B D H. assert (0 < IZR b) by (apply IZR_lt, B). assert (0 < IZR d) by (apply IZR_lt, D).
  apply Rmult_le_reg_r with (IZR b * IZR d); [nra|].
  replace (IZR a / IZR b * (IZR b * IZR d)) with (IZR a * IZR d) by (field; lra).
  replace (IZR c / IZR d * (IZR b * IZR d)) with (IZR c * IZR b) by (field; lra).
  rewrite <- !mult_IZR. apply IZR_le, H.
Qed.

Lemma nb_lines n w : (0 <= n < 2 ^ 51)%Z -> (1 <= w < 2 ^ 32)%Z -> ((n + w - 1) / w < 2 ^ 32)%Z ->
  getNbLines n w = Some ((n + w - 1) / w)%Z.
Proof.
  intros N W FIT.
  assert (W' : 0 < IZR w) by (apply IZR_lt; lia).
  set (q := (n / w)%Z). set (r := (n mod w)%Z).
  assert (E : (n = w * q + r)%Z) by (apply Z.div_mod; lia).
  assert (R : (0 <= r < w)%Z) by (apply Z.mod_pos_bound; lia).
  assert (Q : (0 <= q)%Z) by (apply Z.div_pos; lia).
  assert (QN : (q <= n)%Z) by nia.
  assert (QX : 0 <= IZR n / IZR w <= IZR (2 ^ 53)).
  { split.
    - apply Rmult_le_pos; [apply IZR_le; lia|left; apply Rinv_0_lt_compat, W'].
    - replace (IZR (2 ^ 53)) with (IZR (2 ^ 53) / IZR 1) by (unfold Rdiv; rewrite Rinv_1; ring). apply div_le'; nia. }
  assert (D : is64 (f64_div (f64_of_Z n) (f64_of_Z w)) (r64 (IZR n / IZR w))).
  { apply (isf_div 53 1024 Hp53 Hm53); [apply exact64; lia|apply exact64; lia|lra|]. apply small64, QX. }
  unfold getNbLines. set (nl := f64_div _ _) in *.
  pose proof (proj1 (bounded64 _ QX)) as P0.
  destruct (Z.eq_dec r 0) as [R0|R0].
  - (* a multiple *)
    assert (C : ((n + w - 1) / w = q)%Z).
    { symmetry. apply Z.div_unique with (w - 1)%Z; nia. }
    assert (X : IZR n / IZR w = IZR q).
    { replace n with (q * w)%Z by nia. rewrite mult_IZR. field. lra. }
    rewrite X in D, P0. rewrite (rnd_int 53 1024 _ q) in D, P0 by (cbn; lia).
    unfold f64_uint at 1. rewrite (trunc64 _ _ D P0), Zfloor_IZR.
    rewrite C in *. replace ((0 <=? q) && (q <? 2 ^ 32))%bool with true by (symmetry; apply andb_true_intro; split; [apply Z.leb_le|apply Z.ltb_lt]; change (2 ^ 32)%Z with 4294967296%Z in *; lia).
    assert (Dq : is64 (f64_of_Z q) (IZR q)) by (apply exact64; lia).
    assert (EQ : SFeqb nl (f64_of_Z q) = true).
    { destruct D as (b1 & -> & F1 & E1). destruct Dq as (b2 & -> & F2 & E2).
      pose proof (Beqb_correct 53 1024 b1 b2 F1 F2) as BE. unfold Beqb in BE. rewrite BE, E1, E2. apply Req_bool_true. reflexivity. }
    rewrite EQ. reflexivity.
  - assert (C : ((n + w - 1) / w = q + 1)%Z).
    { symmetry. apply Z.div_unique with (r - 1)%Z; nia. }
    rewrite C in *. set (j := Z.log2_up w).
    assert (J : (w <= 2 ^ j)%Z) by (unfold j; destruct (Z.eq_dec w 1) as [->|]; [cbn; lia|apply Z.log2_up_spec; lia]).
    assert (J0 : (0 <= j)%Z) by apply Z.log2_up_nonneg.
    assert (J2 : (2 ^ j < 2 * w)%Z).
    { destruct (Z.eq_dec w 1) as [W1|]; [subst w; cbn; lia|].
      destruct (Z.log2_up_spec w ltac:(lia)) as [A _]. fold j in A.
      assert (2 ^ j = 2 * 2 ^ Z.pred j)%Z.
      { rewrite <- Z.pow_succ_r; [f_equal; lia|]. assert (0 < j)%Z by (apply Z.log2_up_pos; lia). lia. }
      lia. }
    assert (J3 : (j <= 1000)%Z).
    { assert (j <= Z.log2_up (2 ^ 32))%Z by (apply Z.log2_up_le_mono; lia). rewrite Z.log2_up_pow2 in H by lia. lia. }
    assert (PJ : (0 < 2 ^ j)%Z) by (apply Z.pow_pos_nonneg; lia).
    change (2 ^ 51)%Z with 2251799813685248%Z in N. change (2 ^ 32)%Z with 4294967296%Z in *.
    assert (B53 : ((q + 2) * 2 ^ j + 1 < 2 ^ 53)%Z).
    { change (2 ^ 53)%Z with 9007199254740992%Z. assert (q * 2 ^ j <= 2 * (w * q))%Z by nia. lia. }
    (* bounds by floats *)
    assert (LO : IZR (q * 2 ^ j + 1) / IZR (2 ^ j) <= r64 (IZR n / IZR w)).
    { rewrite <- (dyadic (q * 2 ^ j + 1) j) by (try lia; nia). apply (rnd_le 53 1024 Hp53), div_le'; nia. }
    assert (HI : r64 (IZR n / IZR w) <= IZR ((q + 1) * 2 ^ j - 1) / IZR (2 ^ j)).
    { rewrite <- (dyadic ((q + 1) * 2 ^ j - 1) j) by (try lia; nia). apply (rnd_le 53 1024 Hp53), div_le'; nia. }
    assert (PJR : 0 < IZR (2 ^ j)) by (apply IZR_lt, PJ).
    assert (LO' : IZR q < r64 (IZR n / IZR w)).
    { apply Rlt_le_trans with (2 := LO). rewrite plus_IZR, mult_IZR. apply Rmult_lt_reg_r with (IZR (2 ^ j)); [exact PJR|].
      unfold Rdiv. rewrite Rmult_assoc, Rinv_l by lra. lra. }
    assert (HI2 : forall z, IZR (z * 2 ^ j - 1) / IZR (2 ^ j) = IZR z - / IZR (2 ^ j)).
    { intros z. rewrite minus_IZR, mult_IZR. field. lra. }
    assert (PI : 0 < / IZR (2 ^ j)) by (apply Rinv_0_lt_compat, PJR).
    assert (HI' : r64 (IZR n / IZR w) < IZR q + 1).
    { apply Rle_lt_trans with (1 := HI). rewrite HI2, plus_IZR. lra. }
    assert (FL : Zfloor (r64 (IZR n / IZR w)) = q) by (apply Zfloor_imp; rewrite plus_IZR; lra).
    unfold f64_uint at 1. rewrite (trunc64 _ _ D P0), FL.
    replace ((0 <=? q) && (q <? 2 ^ 32))%bool with true by (symmetry; apply andb_true_intro; split; [apply Z.leb_le|apply Z.ltb_lt]; change (2 ^ 32)%Z with 4294967296%Z in *; lia).
    assert (NE : SFeqb nl (f64_of_Z q) = false).
    { destruct (exact64 q ltac:(lia)) as (b2 & -> & F2 & E2). destruct D as (b1 & -> & F1 & E1).
      pose proof (Beqb_correct 53 1024 b1 b2 F1 F2) as BE. unfold Beqb in BE. rewrite BE, E1, E2. apply Req_bool_false. lra. }
    rewrite NE.
    assert (SB : 0 <= r64 (IZR n / IZR w) + IZR 1 <= IZR (2 ^ 53)).
    { split; [lra|]. apply Rle_trans with (IZR (q + 2)); [rewrite plus_IZR; lra|apply IZR_le; lia]. }
    assert (A : is64 (f64_add nl (f64_of_Z 1)) (r64 (r64 (IZR n / IZR w) + IZR 1))).
    { apply is64_add; [exact D|apply exact64; cbn; lia|apply small64, SB]. }
    unfold f64_uint. rewrite (trunc64 _ _ A (proj1 (bounded64 _ SB))).
    assert (LO3 : IZR (q + 1) <= r64 (r64 (IZR n / IZR w) + IZR 1)).
    { rewrite <- (rnd_int 53 1024 _ (q + 1)) by (cbn; lia). apply (rnd_le 53 1024 Hp53). rewrite plus_IZR. lra. }
    assert (HI3 : r64 (r64 (IZR n / IZR w) + IZR 1) < IZR (q + 1) + 1).
    { apply Rle_lt_trans with (IZR ((q + 2) * 2 ^ j - 1) / IZR (2 ^ j)).
      - rewrite <- (dyadic ((q + 2) * 2 ^ j - 1) j) by (try lia; nia). apply (rnd_le 53 1024 Hp53).
        rewrite HI2, plus_IZR in *. lra.
      - rewrite HI2, !plus_IZR. lra. }
    assert (FL2 : Zfloor (r64 (r64 (IZR n / IZR w) + IZR 1)) = (q + 1)%Z) by (apply Zfloor_imp; rewrite (plus_IZR (q + 1)); lra).
    rewrite FL2. replace ((0 <=? q + 1) && (q + 1 <? 2 ^ 32))%bool with true by (symmetry; apply andb_true_intro; split; [apply Z.leb_le|apply Z.ltb_lt]; change (2 ^ 32)%Z with 4294967296%Z in *; lia).
    reflexivity.
Qed.

Lemma nb_lines_ceil n w : (0 <= n < 2 ^ 51)%Z -> (1 <= w < 2 ^ 32)%Z ->
  forall c, ((c - 1) * w < n <= c * w)%Z -> (c < 2 ^ 32)%Z -> getNbLines n w = Some c.
Proof.
  intros N W c C F. assert (E : c = ((n + w - 1) / w)%Z) by (apply Z.div_unique with (n + w - 1 - c * w)%Z; nia).
  rewrite E in *. apply nb_lines; assumption.
Qed.

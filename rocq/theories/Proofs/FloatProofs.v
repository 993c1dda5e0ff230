(** The executable floats of the standard library compute correctly rounded
    results (through Flocq's proofs). *)
From Coq Require Import ZArith Reals Floats.SpecFloat Lia Lra.
From Flocq Require Import Core BinarySingleNaN.
Open Scope R_scope.

Section Format.
  Variables prec emax : Z.
  Context (Hprec : Prec_gt_0 prec) (Hmax : Prec_lt_emax prec emax).
  Notation fexp := (SpecFloat.fexp prec emax).
  Notation rnd := (round radix2 fexp ZnearestE).

  (** [f] is a finite float of the format, of value [r]. *)
  Definition isf (f : spec_float) (r : R) : Prop :=
    exists b : binary_float prec emax, f = B2SF b /\ is_finite b = true /\ B2R b = r.

  Lemma nearest_equiv s m l : round_nearest_even m l = choice_mode mode_NE s m l.
  Proof. case l; [reflexivity|intro c]. case c; [|reflexivity..]. now simpl; unfold Round.cond_incr; case Z.even. Qed.
  Lemma round_aux_equiv sx mx ex lx :
    SpecFloat.binary_round_aux prec emax sx mx ex lx = binary_round_aux prec emax mode_NE sx mx ex lx.
  Proof.
    unfold SpecFloat.binary_round_aux, binary_round_aux. set (mrse' := shr_fexp _ _ _).
    case mrse'; intros mrs' e'; simpl. now rewrite (nearest_equiv sx).
  Qed.
  Lemma round_equiv s m e : SpecFloat.binary_round prec emax s m e = binary_round prec emax mode_NE s m e.
  Proof.
    unfold SpecFloat.binary_round, binary_round, shl_align_fexp. set (mez := shl_align _ _ _); case mez as [mz ez].
    apply round_aux_equiv.
  Qed.
  Lemma normalize_equiv m e szero :
    SpecFloat.binary_normalize prec emax m e szero = B2SF (binary_normalize prec emax Hprec Hmax mode_NE m e szero).
  Proof.
    case m as [ | p | p]; [now simpl|simpl; rewrite B2SF_SF2B; apply round_equiv..].
  Qed.
  Lemma div_equiv (x y : binary_float prec emax) :
    SFdiv prec emax (B2SF x) (B2SF y) = B2SF (Bdiv mode_NE x y).
  Proof.
    case x as [sx|sx| |sx mx ex Bx]; case y as [sy|sy| |sy my ey By]; [now (trivial || simpl; case Bool.eqb).. | ].
    simpl. rewrite B2SF_SF2B. set (melz := SFdiv_core_binary _ _ _ _ _ _). case melz as [[mz ez] lz]. apply round_aux_equiv.
  Qed.
  Lemma sub_equiv (x y : binary_float prec emax) :
    SFsub prec emax (B2SF x) (B2SF y) = B2SF (Bminus mode_NE x y).
  Proof.
    case x as [sx|sx| |sx mx ex Bx]; case y as [sy|sy| |sy my ey By]; [now (trivial || simpl; case Bool.eqb).. | ].
    simpl. unfold Zminus. rewrite <- cond_Zopp_negb. apply normalize_equiv.
  Qed.

  Lemma isf_of_Z z : Rabs (rnd (IZR z)) < bpow radix2 emax ->
    isf (SpecFloat.binary_normalize prec emax z 0 false) (rnd (IZR z)).
  Proof.
    intros H. eexists. split; [apply normalize_equiv|].
    pose proof (binary_normalize_correct prec emax Hprec Hmax mode_NE z 0 false) as C. cbv zeta in C.
    replace (F2R (Float radix2 z 0)) with (IZR z) in C by (unfold F2R; simpl; ring).
    change (round_mode mode_NE) with ZnearestE in C. rewrite Rlt_bool_true in C by exact H. tauto.
  Qed.

  Lemma isf_div f x g y : isf f x -> isf g y -> y <> 0 -> Rabs (rnd (x / y)) < bpow radix2 emax ->
    isf (SFdiv prec emax f g) (rnd (x / y)).
  Proof.
    intros (bx & -> & Fx & Ex) (b_y & -> & Fy & Ey) N H. eexists. split; [apply div_equiv|].
    pose proof (Bdiv_correct prec emax Hprec Hmax mode_NE bx b_y) as C. rewrite Ex, Ey in C. specialize (C N).
    change (round_mode mode_NE) with ZnearestE in C. rewrite Rlt_bool_true in C by exact H.
    destruct C as (C1 & C2 & _). rewrite C2. auto.
  Qed.

  Lemma isf_sub f x g y : isf f x -> isf g y -> Rabs (rnd (x - y)) < bpow radix2 emax ->
    isf (SFsub prec emax f g) (rnd (x - y)).
  Proof.
    intros (bx & -> & Fx & Ex) (b_y & -> & Fy & Ey) H. eexists. split; [apply sub_equiv|].
    pose proof (Bminus_correct prec emax Hprec Hmax mode_NE bx b_y Fx Fy) as C. rewrite Ex, Ey in C.
    change (round_mode mode_NE) with ZnearestE in C. rewrite Rlt_bool_true in C by exact H. tauto.
  Qed.

  Lemma isf_ltb f x g y : isf f x -> isf g y -> SFltb f g = Rlt_bool x y.
  Proof.
    intros (bx & -> & Fx & <-) (b_y & -> & Fy & <-). exact (Bltb_correct prec emax bx b_y Fx Fy).
  Qed.
  Lemma isf_leb f x g y : isf f x -> isf g y -> SFleb f g = Rle_bool x y.
  Proof.
    intros (bx & -> & Fx & <-) (b_y & -> & Fy & <-). exact (Bleb_correct prec emax bx b_y Fx Fy).
  Qed.

  (** Concrete floats. *)
  Lemma isf_val f : valid_binary prec emax f = true -> is_finite_SF f = true -> isf f (SF2R radix2 f).
  Proof.
    intros V F. exists (SF2B f V). split; [symmetry; apply B2SF_SF2B|]. split; [|destruct f; reflexivity].
    rewrite <- is_finite_SF_B2SF, B2SF_SF2B. exact F.
  Qed.
  Lemma isf_eq f x y : isf f x -> isf f y -> x = y.
  Proof. intros (b & E & _ & <-) (b' & E' & _ & <-). f_equal. apply B2SF_inj. congruence. Qed.

  (** Integers that fit the mantissa are exact. *)
  Lemma rnd_int z : (Z.abs z <= 2 ^ prec)%Z -> (prec < emax)%Z -> (3 - emax - prec <= 0)%Z -> rnd (IZR z) = IZR z.
  Proof.
    intros B PE LE. assert (P0 : (0 < prec)%Z) by exact Hprec.
    apply round_generic; [typeclasses eauto|].
    destruct (Z.eq_dec (Z.abs z) (2 ^ prec)) as [E|E].
    - assert (K : generic_format radix2 fexp (bpow radix2 prec)).
      { apply generic_format_bpow. unfold SpecFloat.fexp, SpecFloat.emin. lia. }
      rewrite <- (IZR_Zpower radix2 prec) in K by lia. change (radix_val radix2) with 2%Z in K.
      destruct (Z_le_dec 0 z).
      + replace z with (2 ^ prec)%Z by lia. exact K.
      + replace z with (- 2 ^ prec)%Z by lia. rewrite opp_IZR. apply generic_format_opp, K.
    - apply generic_format_FLT. exists (Float radix2 z 0).
      + unfold F2R; simpl; ring.
      + simpl. lia.
      + simpl. unfold SpecFloat.emin. lia.
  Qed.

  Lemma rnd_le x y : x <= y -> rnd x <= rnd y.
  Proof. apply round_le; typeclasses eauto. Qed.
End Format.

(** Unicode escapes (C11) and integers (C12). *)
From Verif Require Export Model.Unicode Spec.JsonGrammar Proofs.TreeProofs.
Open Scope Z_scope.

Lemma chr_uchar z : 0 <= z < 256 -> uchar (chr z) = z.
Proof.
  intros H. unfold uchar, chr. rewrite N_ascii_embedding.
  - rewrite Z2N.id; rewrite Z.mod_small; lia.
  - rewrite Z.mod_small by lia. lia.
Qed.

Lemma uchar_chr c : chr (uchar c) = c.
Proof. apply uchar_inj. apply chr_uchar, uchar_range. Qed.

Lemma schar_small c : uchar c < 128 -> schar c = uchar c.
Proof. intros H. unfold schar. destruct (uchar c <? 128) eqn:E; lia. Qed.

Lemma hexbyte_spec c v : hexbyte c = Some v <-> hex_digit c v.
Proof.
  pose proof (uchar_range c) as R. unfold hexbyte. split.
  - intros H. unfold schar in H. destruct (uchar c <? 128) eqn:E.
    + repeat match type of H with (if ?b then _ else _) = _ => destruct b eqn:? end; try discriminate;
        injection H as <-.
      * apply HD_dec; lia.
      * apply HD_up; lia.
      * apply HD_low; lia.
    + exfalso. repeat match type of H with (if ?b then _ else _) = _ => destruct b eqn:? end; try discriminate; lia.
  - intros H. assert (S : schar c = uchar c) by (apply schar_small; destruct H; lia). cbv zeta. rewrite S.
    inversion H as [c0 v0 H1 H2|c0 v0 H1 H2|c0 v0 H1 H2]; subst; rewrite H2;
    repeat match goal with |- context [if ?b then _ else _] => destruct b eqn:?; try lia end; f_equal; lia.
Qed.

Lemma hex_digit_range c v : hex_digit c v -> 0 <= v < 16.
Proof. destruct 1; lia. Qed.

Lemma hexbyte_none c : hexbyte c = None <-> ~ exists v, hex_digit c v.
Proof.
  split.
  - intros H [v Hv]. apply hexbyte_spec in Hv. congruence.
  - intros H. destruct (hexbyte c) as [v|] eqn:E; [|reflexivity]. exfalso. apply H. exists v. apply hexbyte_spec, E.
Qed.

Lemma hexshort_ok h u : code_unit h u -> hexshort h = inl u /\ 0 <= u < 65536.
Proof.
  intros H. inversion H as [a b c d x y z t Ha Hb Hc Hd]; subst.
  pose proof (hex_digit_range _ _ Ha). pose proof (hex_digit_range _ _ Hb).
  pose proof (hex_digit_range _ _ Hc). pose proof (hex_digit_range _ _ Hd).
  apply hexbyte_spec in Ha, Hb, Hc, Hd. unfold hexshort. cbn [hexshort_acc]. rewrite Ha, Hb, Hc, Hd.
  split; [|lia]. f_equal. rewrite (Z.mod_small (0 * 16 + x)) by lia. rewrite (Z.mod_small (_ * 16 + y)) by lia.
  rewrite (Z.mod_small (_ * 16 + z)) by lia. rewrite Z.mod_small by lia. lia.
Qed.

Lemma hexshort_four h : length h = 4%nat ->
  (exists u, code_unit h u) \/ (exists p c q, h = p ++ c :: q /\ (~ exists v, hex_digit c v) /\
     Forall (fun c => exists v, hex_digit c v) p /\ hexshort h = inr c).
Proof.
  intros L. destruct h as [|a [|b [|c [|d [|? ?]]]]]; try discriminate. unfold hexshort. cbn [hexshort_acc].
  destruct (hexbyte a) as [x|] eqn:Ea.
  2:{ right. exists [], a, [b; c; d]. repeat split; auto. apply hexbyte_none, Ea. }
  apply hexbyte_spec in Ea. destruct (hexbyte b) as [y|] eqn:Eb.
  2:{ right. exists [a], b, [c; d]. repeat split; auto; [apply hexbyte_none, Eb|]. repeat constructor. eauto. }
  apply hexbyte_spec in Eb. destruct (hexbyte c) as [z|] eqn:Ec.
  2:{ right. exists [a; b], c, [d]. repeat split; auto; [apply hexbyte_none, Ec|]. repeat constructor; eauto. }
  apply hexbyte_spec in Ec. destruct (hexbyte d) as [t|] eqn:Ed.
  2:{ right. exists [a; b; c], d, []. repeat split; auto; [apply hexbyte_none, Ed|]. repeat constructor; eauto. }
  apply hexbyte_spec in Ed. left. eexists. constructor; eauto.
Qed.

Lemma utf8_bytes_ok e u bs : 0 <= u < 65536 -> utf8_bytes e u = Some bs -> utf8 bs u.
Proof.
  intros R H. unfold utf8_bytes in H.
  destruct (u <? 128) eqn:E1.
  { injection H as <-. pose proof (chr_uchar u ltac:(lia)) as E.
    rewrite <- E at 2. apply U1. lia. }
  destruct (u <? 2048) eqn:E2.
  { injection H as <-. pose proof (Z.div_mod u 64 ltac:(lia)). pose proof (Z.mod_pos_bound u 64 ltac:(lia)).
    replace u with (64 * (u / 64) + u mod 64) at 3 by lia. apply U2.
    - split; [apply Z.div_pos; lia|apply Z.div_lt_upper_bound; lia].
    - apply chr_uchar. split; [pose proof (Z.div_pos u 64); lia|].
      assert (u / 64 < 32) by (apply Z.div_lt_upper_bound; lia). lia.
    - split; [lia|]. apply chr_uchar. lia.
    - lia. }
  destruct ((55296 <=? u) && (u <=? 57343) && negb (encodes_surrogates e)); [discriminate|].
  injection H as <-.
  pose proof (Z.div_mod u 64 ltac:(lia)). pose proof (Z.mod_pos_bound u 64 ltac:(lia)).
  pose proof (Z.div_mod (u / 64) 64 ltac:(lia)). pose proof (Z.mod_pos_bound (u / 64) 64 ltac:(lia)).
  assert (D : u / 64 / 64 = u / 4096) by (rewrite Z.div_div by lia; reflexivity). rewrite D in *.
  assert (0 <= u / 4096 < 16) by (split; [apply Z.div_pos; lia|apply Z.div_lt_upper_bound; lia]).
  replace u with (4096 * (u / 4096) + 64 * (u / 64 mod 64) + u mod 64) at 4 by lia.
  apply U3; try lia.
  - apply chr_uchar. lia.
  - split; [lia|]. apply chr_uchar. lia.
  - split; [lia|]. apply chr_uchar. lia.
Qed.

Lemma utf8_inj' b1 b2 u v : utf8 b1 u -> utf8 b2 v -> u = v -> b1 = b2.
Proof.
  intros H1 H2 E.
  destruct H1 as [c Hc|a b x y X1 X2 [X3 X4] X5|a b c x y z X1 X2 [X3 X4] [X5 X6] X7];
  destruct H2 as [c' Hc'|a' b' x' y' Y1 Y2 [Y3 Y4] Y5|a' b' c' x' y' z' Y1 Y2 [Y3 Y4] [Y5 Y6] Y7]; try lia;
  repeat (f_equal; try (apply uchar_inj; lia)).
Qed.

Lemma utf8_inj b1 b2 u : utf8 b1 u -> utf8 b2 u -> b1 = b2.
Proof. intros H1 H2. eapply utf8_inj'; eauto. Qed.

Lemma utf8_bytes_some e u : encodes_surrogates e = true \/ ~ surrogate u -> exists bs, utf8_bytes e u = Some bs.
Proof.
  intros H. unfold utf8_bytes. destruct (u <? 128); [eauto|]. destruct (u <? 2048); [eauto|].
  destruct ((55296 <=? u) && (u <=? 57343) && negb (encodes_surrogates e)) eqn:E; [|eauto].
  exfalso. apply andb_prop in E. destruct E as [E1 E2]. apply andb_prop in E1. destruct E1 as [E0 E1].
  apply negb_true_iff in E2. destruct H as [H|H]; [congruence|]. apply H. unfold surrogate. lia.
Qed.

(** C11 *)
Lemma appendUnicode_spec e h : length h = 4%nat ->
  match appendUnicode e h with
  | UniOk bs => exists u, code_unit h u /\ utf8 bs u
  | UniRange => encodes_surrogates e = false /\ exists u, code_unit h u /\ surrogate u
  | UniInvalid c => exists p q, h = p ++ c :: q /\ (~ exists v, hex_digit c v) /\ Forall (fun c => exists v, hex_digit c v) p
  end.
Proof.
  intros L. unfold appendUnicode. destruct (hexshort_four h L) as [[u U]|(p & c & q & E & N & F & ->)].
  - destruct (hexshort_ok h u U) as [-> R]. destruct (utf8_bytes e u) as [bs|] eqn:EB.
    + exists u. split; [exact U|]. eapply utf8_bytes_ok; eauto.
    + unfold utf8_bytes in EB. destruct (u <? 128); [discriminate|]. destruct (u <? 2048); [discriminate|].
      destruct ((55296 <=? u) && (u <=? 57343)) eqn:E1; cbn [andb] in EB; [|discriminate].
      destruct (encodes_surrogates e); [discriminate|]. split; [reflexivity|]. exists u. split; [exact U|].
      unfold surrogate. lia.
  - eauto.
Qed.

Lemma appendUnicode_ok e h u : code_unit h u -> encodes_surrogates e = true \/ ~ surrogate u ->
  exists bs, appendUnicode e h = UniOk bs /\ utf8 bs u.
Proof.
  intros U H. destruct (hexshort_ok h u U) as [E R]. destruct (utf8_bytes_some e u H) as (bs & EB).
  exists bs. unfold appendUnicode. rewrite E, EB. split; [reflexivity|]. eapply utf8_bytes_ok; eauto.
Qed.

Lemma code_unit_inj h u v : code_unit h u -> code_unit h v -> u = v.
Proof. intros A B. apply hexshort_ok in A, B. destruct A, B. congruence. Qed.

Lemma code_unit_length h u : code_unit h u -> length h = 4%nat.
Proof. destruct 1. reflexivity. Qed.

Lemma utf8_fun bs u v : utf8 bs u -> utf8 bs v -> u = v.
Proof.
  intros H1 H2. remember bs as bs' eqn:E in H2. revert E.
  destruct H1 as [c Hc|a b x y X1 X2 [X3 X4] X5|a b c x y z X1 X2 [X3 X4] [X5 X6] X7];
  destruct H2 as [c' Hc'|a' b' x' y' Y1 Y2 [Y3 Y4] Y5|a' b' c' x' y' z' Y1 Y2 [Y3 Y4] [Y5 Y6] Y7]; intros [=]; subst; lia.
Qed.

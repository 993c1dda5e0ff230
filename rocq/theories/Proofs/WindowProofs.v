(** The places of the windows (Model/Windows.v). *)
From Coq Require Import Lia.
From Verif Require Import Spec.WindowSpec.
Open Scope Z_scope.

Section Tiled.
  Variable (n w h : Z).
  Hypothesis (N : 0 < n) (W : 3 * n <= w < 2 ^ 31) (H : 3 <= h < 2 ^ 31).

  Lemma u32_small x : 0 <= x < 2 ^ 32 -> u32 x = x.
  Proof. apply Z.mod_small. Qed.
  Lemma col_width : 3 <= w / n < 2 ^ 31 /\ n * (w / n) <= w.
  Proof.
    assert (A : 3 <= w / n) by (apply Z.div_le_lower_bound; lia). assert (B := Z.mul_div_le w n N).
    assert (w / n <= w) by (apply Z.div_le_upper_bound; nia). lia.
  Qed.

  Lemma size_is : getScreenSize n w h = Some (w / n, h - 2).
  Proof. unfold getScreenSize. rewrite (proj2 (Z.eqb_neq n 0)) by lia. rewrite u32_small by lia. reflexivity. Qed.

  Definition outer (i : Z) : rect := mkRect 0 (i * (w / n - 1)) h (w / n).
  Definition inner (i : Z) : rect := mkRect 1 (i * (w / n - 1) + 1) (h - 2) (w / n - 2).
  Lemma outer_is i : outerWin (w / n, h - 2) i = outer i.
  Proof. assert (A := col_width). unfold outerWin, outer. cbn [fst snd]. rewrite !u32_small by lia. f_equal. lia. Qed.
  Lemma inner_is i : innerWin (w / n, h - 2) i = inner i.
  Proof. assert (A := col_width). unfold innerWin, inner. cbn [fst snd]. rewrite !u32_small by lia. reflexivity. Qed.
  Lemma bottom_is : bottomWin w h = mkRect (h - 1) 0 1 w.
  Proof. unfold bottomWin. rewrite u32_small by lia. reflexivity. Qed.

  Lemma windows_is : windows n w h = Some (map (fun i => (outer (Z.of_nat i), inner (Z.of_nat i))) (seq 0 (Z.to_nat n)), mkRect (h - 1) 0 1 w).
  Proof. unfold windows. rewrite size_is, bottom_is. f_equal. f_equal. apply map_ext. intros i. now rewrite outer_is, inner_is. Qed.

  Lemma nth_seq : forall k s i, (i < k)%nat -> nth_error (seq s k) i = Some (s + i)%nat.
  Proof.
    induction k as [|k IH]; intros s i L; [lia|]. destruct i as [|i]; cbn; [f_equal; lia|]. rewrite IH by lia. f_equal. lia.
  Qed.

  Lemma window_is l b i x : windows n w h = Some (l, b) -> nth_error l i = Some x ->
    x = (outer (Z.of_nat i), inner (Z.of_nat i)) /\ 0 <= Z.of_nat i < n.
  Proof.
    rewrite windows_is. intros [= <- <-] X. rewrite nth_error_map in X.
    destruct (Nat.lt_ge_cases i (Z.to_nat n)) as [L|L].
    - rewrite nth_seq in X by exact L. cbn in X. injection X as <-. split; [reflexivity|lia].
    - rewrite (proj2 (nth_error_None (seq 0 (Z.to_nat n)) i)) in X by (rewrite seq_length; exact L). discriminate.
  Qed.

  Lemma window_count l b : windows n w h = Some (l, b) -> length l = Z.to_nat n /\ b = mkRect (h - 1) 0 1 w.
  Proof. rewrite windows_is. intros [= <- <-]. rewrite map_length, seq_length. split; reflexivity. Qed.

  Lemma windows_inside l b i o inn line col : windows n w h = Some (l, b) -> nth_error l i = Some (o, inn) ->
    covers o line col -> 0 <= line < h /\ 0 <= col < w.
  Proof.
    intros E X C. destruct (window_is _ _ _ _ E X) as ([= -> ->] & I). destruct col_width as (A & B). unfold covers, outer in C. cbn [rtop rleft rlines rcols] in C. nia.
  Qed.

  Lemma windows_framed l b i o inn line col : windows n w h = Some (l, b) -> nth_error l i = Some (o, inn) ->
    covers inn line col <-> covers o line col /\ ~ frame o line col.
  Proof.
    intros E X. destruct (window_is _ _ _ _ E X) as ([= -> ->] & I). destruct col_width as (A & B).
    unfold frame, covers, outer, inner. cbn [rtop rleft rlines rcols]. generalize (Z.of_nat i * (w / n - 1)). intros k. clear - A H. generalize dependent (w / n). intros cw A.
    split; [intros C; split; [lia|intros (_ & D); lia]|]. intros (C & D). assert (D' : ~ (line = 0 \/ line = 0 + h - 1 \/ col = k \/ col = k + cw - 1)) by tauto. lia.
  Qed.

  Lemma windows_apart l b i j o inn o' inn' line col : windows n w h = Some (l, b) ->
    nth_error l i = Some (o, inn) -> nth_error l j = Some (o', inn') -> i <> j -> covers inn line col -> ~ covers o' line col.
  Proof.
    intros E X Y D. destruct (window_is _ _ _ _ E X) as ([= -> ->] & I). destruct (window_is _ _ _ _ E Y) as ([= -> ->] & J). destruct col_width as (A & B).
    unfold covers, outer, inner. cbn. assert (D' : Z.of_nat i < Z.of_nat j \/ Z.of_nat j < Z.of_nat i) by lia.
    clear - A D'. generalize dependent (w / n). revert D'. generalize (Z.of_nat i), (Z.of_nat j). intros x y D' cw A. nia.
  Qed.

  Lemma windows_touch l b i o inn o' inn' line col : windows n w h = Some (l, b) ->
    nth_error l i = Some (o, inn) -> nth_error l (S i) = Some (o', inn') ->
    (covers o line col /\ covers o' line col <-> 0 <= line < h /\ col = rleft o' /\ col = rleft o + rcols o - 1).
  Proof.
    intros E X Y. destruct (window_is _ _ _ _ E X) as ([= -> ->] & I). destruct (window_is _ _ _ _ E Y) as (Q & J). apply (f_equal fst) in Q. cbn [fst] in Q. subst o'. destruct col_width as (A & B).
    rewrite Nat2Z.inj_succ. unfold covers, outer. cbn [rtop rleft rlines rcols].
    clear - A. generalize (Z.of_nat i). generalize dependent (w / n). intros cw A x.
    replace (Z.succ x * (cw - 1)) with (x * (cw - 1) + cw - 1) by ring. generalize (x * (cw - 1)). intros k. lia.
  Qed.

  Lemma windows_bottom l b i o inn line col : windows n w h = Some (l, b) -> nth_error l i = Some (o, inn) ->
    covers b line col -> ~ covers inn line col.
  Proof.
    intros E X. destruct (window_is _ _ _ _ E X) as ([= -> ->] & I). destruct (window_count _ _ E) as (_ & ->). unfold covers, inner. cbn [rtop rleft rlines rcols]. lia.
  Qed.

  Lemma windows_over l b line col : windows n w h = Some (l, b) -> covers b line col ->
    (col <= n * (w / n - 1) <-> exists i o inn, nth_error l i = Some (o, inn) /\ frame o line col).
  Proof.
    intros E C. destruct (window_count _ _ E) as (L & ->). destruct col_width as (A & B). unfold covers in C. cbn [rtop rleft rlines rcols] in C. split.
    - intros D. set (i := Z.min (col / (w / n - 1)) (n - 1)).
      assert (I : 0 <= i < n) by (unfold i; assert (0 <= col / (w / n - 1)) by (apply Z.div_pos; lia); lia).
      assert (Q : i * (w / n - 1) <= col < i * (w / n - 1) + w / n).
      { assert (D1 := Z.mul_div_le col (w / n - 1) ltac:(lia)). assert (D2 := Z.mul_succ_div_gt col (w / n - 1) ltac:(lia)). unfold i in *.
        destruct (Z.min_spec (col / (w / n - 1)) (n - 1)) as [(? & ->)|(? & ->)]; nia. }
      exists (Z.to_nat i), (outer i), (inner i). split.
      + rewrite windows_is in E. injection E as <-. rewrite nth_error_map, nth_seq by lia. cbn. now rewrite Z2Nat.id by lia.
      + unfold frame, covers, outer. cbn [rtop rleft rlines rcols]. lia.
    - intros (i & o & inn & X & (F & _)). destruct (window_is _ _ _ _ E X) as ([= -> ->] & I). unfold covers, outer in F. cbn [rtop rleft rlines rcols] in F. nia.
  Qed.

  Lemma resized_same l : length l = Z.to_nat n -> resized n w h l = windows n w h.
  Proof.
    intros L. unfold resized. rewrite size_is, windows_is, bottom_is. f_equal. f_equal.
    rewrite <- L. change 0 with (Z.of_nat 0). generalize 0%nat. induction l as [|x l IH] in |- *; intros s; [reflexivity|].
    cbn [length seq map]. rewrite outer_is, inner_is. f_equal. replace (Z.of_nat s + 1) with (Z.of_nat (S s)) by lia. apply IH.
  Qed.
End Tiled.

(** External diff command. *)
From Verif Require Export Model.DiffCmd Spec.CmdSpec Proofs.TreeProofs.
Open Scope Z_scope.

Definition clean (l : list bytes) : Prop := Forall (fun s => ~ In NUL s) l.

Lemma cstr_clean s : ~ In NUL s -> cstr s = s.
Proof.
  induction s as [|c s IH]; intros N; cbn [cstr]; [reflexivity|].
  destruct (Ascii.eqb c NUL) eqn:E; [apply Ascii.eqb_eq in E; subst; exfalso; apply N; left; reflexivity|].
  f_equal. apply IH. intros I. apply N. right. exact I.
Qed.

Lemma subst_total files argv : exists r, subst_args files argv r.
Proof.
  induction argv as [|x a (r & IH)]; [exists []; constructor|]. destruct (beqb x (str "{}")) eqn:E.
  - apply beqb_eq in E. subst. exists (files ++ r). constructor. exact IH.
  - exists (x :: r). constructor; [intros ->; rewrite beqb_refl in E; discriminate|exact IH].
Qed.

Lemma count_spec files argv r : subst_args files argv r -> forall n, 0 <= n < UINT ->
  count_params argv (Z.of_nat (length files)) n = (n + Z.of_nat (length r)) mod UINT.
Proof.
  assert (U : 0 < UINT) by reflexivity.
  induction 1 as [|a r H IH|x a r N H IH]; intros n R; cbn [count_params].
  - cbn [length]. rewrite Z.add_0_r, Z.mod_small by exact R. reflexivity.
  - rewrite beqb_refl. rewrite IH by (apply Z.mod_pos_bound; exact U). rewrite Zplus_mod_idemp_l. f_equal. rewrite app_length. lia.
  - destruct (beqb x (str "{}")) eqn:E; [apply beqb_eq in E; contradiction|].
    rewrite IH by (apply Z.mod_pos_bound; exact U). rewrite Zplus_mod_idemp_l. f_equal. cbn [length]. lia.
Qed.

Lemma put_params_spec size ss : clean ss -> forall l, Z.of_nat (length l) <= size ->
  put_params size l ss = if Z.of_nat (length l + length ss) <=? size then Some (l ++ ss) else None.
Proof.
  induction 1 as [|s ss N C IH]; intros l L; cbn [put_params length].
  - rewrite Nat.add_0_r, app_nil_r. destruct (_ <=? _) eqn:E; [reflexivity|lia].
  - unfold put_param. destruct (Z.of_nat (length l) <? size) eqn:E.
    + rewrite cstr_clean by exact N. rewrite IH by (rewrite app_length; cbn [length]; lia). rewrite app_length, <- app_assoc. cbn [length app].
      replace (length l + 1 + length ss)%nat with (length l + S (length ss))%nat by lia. reflexivity.
    + destruct (_ <=? _) eqn:E2; [lia|reflexivity].
Qed.

Lemma fill_spec size files argv r : clean files -> clean argv -> subst_args files argv r -> forall l, Z.of_nat (length l) <= size ->
  fill_params size argv files l = if Z.of_nat (length l + length r) <=? size then Some (l ++ r) else None.
Proof.
  intros CF CA H. induction H as [|a r H IH|x a r N H IH]; intros l L; cbn [fill_params].
  - cbn [length]. rewrite Nat.add_0_r, app_nil_r. destruct (_ <=? _) eqn:E; [reflexivity|lia].
  - rewrite beqb_refl. inversion CA; subst. rewrite put_params_spec by assumption.
    destruct (Z.of_nat (length l + length files) <=? size) eqn:E.
    + rewrite IH by (try assumption; rewrite app_length; lia). rewrite !app_length, <- app_assoc, Nat.add_assoc. reflexivity.
    + rewrite app_length. destruct (Z.of_nat (length l + (length files + length r)) <=? size) eqn:E2; [lia|reflexivity].
  - destruct (beqb x (str "{}")) eqn:E; [apply beqb_eq in E; contradiction|]. inversion CA; subst.
    unfold put_param. destruct (Z.of_nat (length l) <? size) eqn:E1.
    + rewrite cstr_clean by assumption. rewrite IH by (try assumption; rewrite app_length; cbn [length]; lia).
      rewrite app_length, <- app_assoc. cbn [length app]. replace (length l + 1 + length r)%nat with (length l + S (length r))%nat by lia. reflexivity.
    + destruct (_ <=? _) eqn:E2; [cbn [length] in E2; lia|reflexivity].
Qed.

Lemma compute_spec d files r : dc_alloc d = None -> clean files -> clean (dc_argv d) -> subst_args files (dc_argv d) r ->
  computeArgv d files = if Z.of_nat (length r) <? (Z.of_nat (length r) + 1) mod UINT then Some (r, mkDiffCmd (dc_argv d) (Some r)) else None.
Proof.
  intros A CF CA H. unfold computeArgv. rewrite A. rewrite (count_spec files _ r H) by (split; [lia|reflexivity]).
  rewrite Z.add_0_l, Zplus_mod_idemp_l.
  assert (0 <= (Z.of_nat (length r) + 1) mod UINT) by (apply Z.mod_pos_bound; reflexivity).
  rewrite (fill_spec _ files _ r CF CA H) by (cbn [length]; lia). cbn [length app Nat.add].
  destruct (Z.of_nat (length r) <=? _) eqn:E; [|destruct (_ <? _) eqn:E2; [lia|reflexivity]]. reflexivity.
Qed.

Lemma argv_ok d files r : dc_alloc d = None -> clean files -> clean (dc_argv d) -> subst_args files (dc_argv d) r ->
  Z.of_nat (length r) + 1 < 2 ^ 32 ->
  exists d', computeArgv d files = Some (r, d') /\ forall files', computeArgv d' files' = Some (r, d').
Proof.
  intros A CF CA H L. exists (mkDiffCmd (dc_argv d) (Some r)). split; [|reflexivity].
  rewrite (compute_spec d files r A CF CA H). rewrite Z.mod_small by (unfold UINT; lia). destruct (_ <? _) eqn:E; [reflexivity|lia].
Qed.

Lemma subst_all files n : subst_args files (repeat (str "{}") n) (concat (repeat files n)).
Proof. induction n as [|n IH]; cbn [repeat concat]; constructor. exact IH. Qed.
Lemma concat_len {A} (l : list A) n : length (concat (repeat l n)) = (n * length l)%nat.
Proof. induction n as [|n IH]; cbn [repeat concat]; [reflexivity|]. rewrite app_length, IH. reflexivity. Qed.

Lemma argv_overflow : exists d files, dc_alloc d = None /\ clean files /\ clean (dc_argv d) /\
  (length files <= Z.to_nat 65536)%nat /\ (length (dc_argv d) <= Z.to_nat 65536)%nat /\ computeArgv d files = None.
Proof.
  set (n := Z.to_nat 65536). exists (mkDiffCmd (repeat (str "{}") n) None), (repeat (str "f") n).
  assert (CF : clean (repeat (str "f") n)) by (apply Forall_forall; intros x I; apply repeat_spec in I; subst x; intros [Q|[]]; discriminate).
  assert (CA : clean (repeat (str "{}") n)) by (apply Forall_forall; intros x I; apply repeat_spec in I; subst x; intros [Q|[Q|[]]]; discriminate).
  cbn [dc_alloc dc_argv]. rewrite !repeat_length. repeat (split; [solve [auto]|]).
  rewrite (compute_spec (mkDiffCmd (repeat (str "{}") n) None) (repeat (str "f") n) (concat (repeat (repeat (str "f") n) n)) eq_refl CF CA (subst_all _ n)).
  rewrite concat_len, repeat_length, Nat2Z.inj_mul. unfold n. rewrite Z2Nat.id by lia. reflexivity.
Qed.

(** ** Names of temporary files *)
(** The hash without overflow. *)
Definition big_hash (s : bytes) : Z := fold_left (fun h c => h * 32 + schar c) s 0.

Lemma big_snoc s c : big_hash (s ++ [c]) = big_hash s * 32 + schar c.
Proof. unfold big_hash. rewrite fold_left_app. reflexivity. Qed.
Lemma hash_snoc s c : hashString (s ++ [c]) = (hashString s * 32 + schar c) mod ULL.
Proof. unfold hashString. rewrite fold_left_app. reflexivity. Qed.
Lemma hash_big s : hashString s = big_hash s mod ULL.
Proof.
  induction s as [|c s IH] using rev_ind; [reflexivity|]. rewrite hash_snoc, big_snoc, IH.
  rewrite Zplus_mod. rewrite Zmult_mod_idemp_l. rewrite <- Zplus_mod. reflexivity.
Qed.
Lemma big_app s t : big_hash (s ++ t) = big_hash s * 32 ^ Z.of_nat (length t) + big_hash t.
Proof.
  induction t as [|c t IH] using rev_ind.
  - rewrite app_nil_r. cbn [length]. change (big_hash []) with 0. rewrite Z.pow_0_r. lia.
  - rewrite app_assoc, !big_snoc, IH, app_length. cbn [length]. rewrite Nat2Z.inj_add, Z.pow_add_r by lia. lia.
Qed.

(** The hash depends on the last 13 bytes only. *)
Lemma hash_suffix p q s : (13 <= length s)%nat -> hashString (p ++ s) = hashString (q ++ s).
Proof.
  intros L. rewrite !hash_big, !big_app.
  assert (E : exists k, 32 ^ Z.of_nat (length s) = k * ULL).
  { exists (2 * 32 ^ (Z.of_nat (length s) - 13)). unfold ULL.
    replace (Z.of_nat (length s)) with (13 + (Z.of_nat (length s) - 13)) at 1 by lia. rewrite Z.pow_add_r by lia.
    change (32 ^ 13) with (2 * 2 ^ 64). ring. }
  destruct E as (k & E). rewrite E.
  rewrite !Z.mul_assoc. rewrite !(Z.add_comm _ (big_hash s)). rewrite !Z.mod_add by discriminate. reflexivity.
Qed.

(** Bytes of one block of 32. *)
Definition in_block (k : Z) (s : bytes) : Prop := Forall (fun c => 32 * k <= schar c < 32 * k + 32) s.

Lemma big_bound k s : 0 <= k < 4 -> in_block k s -> 0 <= big_hash s /\ big_hash s * 31 <= 127 * (32 ^ Z.of_nat (length s) - 1).
Proof.
  intros K. induction s as [|c s IH] using rev_ind; intros B; [cbn; lia|].
  apply Forall_app in B. destruct B as [B1 B2]. inversion B2 as [|? ? Hc _]; subst. specialize (IH B1). rewrite big_snoc, app_length. cbn [length].
  rewrite Nat2Z.inj_add, Z.pow_add_r by lia. change (32 ^ Z.of_nat 1) with 32. lia.
Qed.

Lemma schar_inj a b : schar a = schar b -> a = b.
Proof. unfold schar. intros H. apply uchar_inj. pose proof (uchar_range a). pose proof (uchar_range b). destruct (uchar a <? 128), (uchar b <? 128); lia. Qed.

Lemma big_inj k s : 1 <= k < 4 -> forall t, in_block k s -> in_block k t -> big_hash s = big_hash t -> s = t.
Proof.
  intros K. induction s as [|c s IH] using rev_ind; intros t Bs Bt E.
  - destruct t as [|d t _] using rev_ind; [reflexivity|]. exfalso. rewrite big_snoc in E. apply Forall_app in Bt. destruct Bt as [B1 B2].
    inversion B2 as [|? ? Hd _]; subst. pose proof (big_bound k t ltac:(lia) B1). change (big_hash []) with 0 in E. lia.
  - apply Forall_app in Bs. destruct Bs as [B1 B2]. inversion B2 as [|? ? Hc _]; subst.
    destruct t as [|d t _] using rev_ind.
    + exfalso. rewrite big_snoc in E. pose proof (big_bound k s ltac:(lia) B1). change (big_hash []) with 0 in E. lia.
    + apply Forall_app in Bt. destruct Bt as [B3 B4]. inversion B4 as [|? ? Hd _]; subst. rewrite !big_snoc in E.
      assert (D : schar c = schar d) by lia. apply schar_inj in D. subst d. f_equal. apply IH; [exact B1|exact B3|lia].
Qed.

Lemma hash_inj k s t : 1 <= k < 4 -> in_block k s -> in_block k t -> (length s <= 12)%nat -> (length t <= 12)%nat ->
  hashString s = hashString t -> s = t.
Proof.
  intros K Bs Bt Ls Lt E. apply (big_inj k s K t Bs Bt). rewrite !hash_big in E.
  assert (Z : forall u, in_block k u -> (length u <= 12)%nat -> 0 <= big_hash u < ULL).
  { intros u Bu Lu. destruct (big_bound k u ltac:(lia) Bu) as [A B]. split; [exact A|].
    assert (32 ^ Z.of_nat (length u) <= 32 ^ 12) by (apply Z.pow_le_mono_r; lia). unfold ULL. change (32 ^ 12) with 1152921504606846976 in *.
    change (2 ^ 64) with 18446744073709551616. lia. }
  rewrite !Z.mod_small in E by (apply Z; assumption). exact E.
Qed.

(** The matrix computes the edit distance. *)
From Verif Require Export Model.Levenshtein Spec.EditDistance Proofs.TreeProofs.
From Coq Require Import Lia.
Open Scope Z_scope.

(** ** Alignments *)
Inductive align : bytes -> bytes -> nat -> Prop :=
| A_nil : align [] [] 0
| A_same x a b n : align a b n -> align (x :: a) (x :: b) n
| A_sub x y a b n : align a b n -> align (x :: a) (y :: b) (S n)
| A_ins y a b n : align a b n -> align a (y :: b) (S n)
| A_del x a b n : align a b n -> align (x :: a) b (S n).

Lemma align_refl a : align a a 0.
Proof. induction a; constructor; auto. Qed.
Lemma align_sym a b n : align a b n -> align b a n.
Proof. induction 1; constructor; auto. Qed.
Lemma align_pre p a b n : align a b n -> align (p ++ a) (p ++ b) n.
Proof. induction p; cbn; [auto|constructor; auto]. Qed.
Lemma align_app a b n a' b' n' : align a b n -> align a' b' n' -> align (a ++ a') (b ++ b') (n + n').
Proof. induction 1; intros; cbn [app Nat.add]; [assumption|constructor; auto..]. Qed.

Lemma align_trans a b n : align a b n -> forall c m, align b c m -> exists k, (k <= n + m)%nat /\ align a c k.
Proof.
  (* by induction on the total length of the two derivations *)
  assert (K : forall s a b n c m, (length a + length b + length c <= s)%nat -> align a b n -> align b c m ->
    exists k, (k <= n + m)%nat /\ align a c k).
  { induction s as [|s IH]; intros a0 b0 n0 c0 m0 L H1 H2.
    - destruct a0, b0, c0; cbn in L; try lia. exists 0%nat. split; [lia|constructor].
    - destruct H1 as [|x a0 b0 n0 H1|x y a0 b0 n0 H1|y a0 b0 n0 H1|x a0 b0 n0 H1].
      + exists m0. split; [lia|exact H2].
      + inversion H2 as [|x' a' b' n' H3|x' y' a' b' n' H3|y' a' b' n' H3|x' a' b' n' H3]; subst; cbn [length] in L.
        * edestruct IH as (k & B & A); [|exact H1|exact H3|]; [lia|]. exists k. split; [lia|constructor; exact A].
        * edestruct IH as (k & B & A); [|exact H1|exact H3|]; [lia|]. exists (S k). split; [lia|constructor; exact A].
        * destruct (IH (x :: a0) (x :: b0) n0 b' n' ltac:(cbn [length] in *; lia) ltac:(constructor; exact H1) H3) as (k & B & A).
          exists (S k). split; [lia|constructor; exact A].
        * edestruct IH as (k & B & A); [|exact H1|exact H3|]; [lia|]. exists (S k). split; [lia|constructor; exact A].
      + inversion H2 as [|x' a' b' n' H3|x' y' a' b' n' H3|y' a' b' n' H3|x' a' b' n' H3]; subst; cbn [length] in L.
        * edestruct IH as (k & B & A); [|exact H1|exact H3|]; [lia|]. exists (S k). split; [lia|constructor; exact A].
        * edestruct IH as (k & B & A); [|exact H1|exact H3|]; [lia|]. exists (S k). split; [lia|constructor; exact A].
        * destruct (IH (x :: a0) (y :: b0) (S n0) b' n' ltac:(cbn [length] in *; lia) ltac:(constructor; exact H1) H3) as (k & B & A).
          exists (S k). split; [lia|constructor; exact A].
        * edestruct IH as (k & B & A); [|exact H1|exact H3|]; [lia|]. exists (S k). split; [lia|constructor; exact A].
      + inversion H2 as [|x' a' b' n' H3|x' y' a' b' n' H3|y' a' b' n' H3|x' a' b' n' H3]; subst; cbn [length] in L.
        * edestruct IH as (k & B & A); [|exact H1|exact H3|]; [lia|]. exists (S k). split; [lia|constructor; exact A].
        * edestruct IH as (k & B & A); [|exact H1|exact H3|]; [lia|]. exists (S k). split; [lia|constructor; exact A].
        * destruct (IH a0 (y :: b0) (S n0) b' n' ltac:(cbn [length] in *; lia) ltac:(constructor; exact H1) H3) as (k & B & A).
          exists (S k). split; [lia|constructor; exact A].
        * edestruct IH as (k & B & A); [|exact H1|exact H3|]; [lia|]. exists k. split; [lia|exact A].
      + cbn [length] in L. edestruct IH as (k & B & A); [|exact H1|exact H2|]; [lia|]. exists (S k). split; [lia|constructor; exact A]. }
  intros H1 c m H2. eapply K; eauto.
Qed.

Lemma edit1_align a b : edit1 a b -> align a b 1.
Proof. destruct 1; apply align_pre; constructor; apply align_refl. Qed.

Lemma edits_align n a b : edits n a b -> exists k, (k <= n)%nat /\ align a b k.
Proof.
  induction 1 as [a|n a b c E _ (k & B & A)]; [exists 0%nat; split; [lia|apply align_refl]|].
  destruct (align_trans _ _ _ (edit1_align _ _ E) _ _ A) as (k' & B' & A'). exists k'. split; [lia|exact A'].
Qed.

Lemma edits_cons x n a b : edits n a b -> edits n (x :: a) (x :: b).
Proof.
  induction 1 as [a|n a b c E _ IH]; [constructor|]. econstructor; [|exact IH].
  destruct E as [p y s|p y s|p y z s]; [apply (E_ins (x :: p))|apply (E_del (x :: p))|apply (E_sub (x :: p))].
Qed.

Lemma align_edits a b n : align a b n -> edits n a b.
Proof.
  induction 1 as [|x a b n _ IH|x y a b n _ IH|y a b n _ IH|x a b n _ IH].
  - constructor.
  - apply edits_cons, IH.
  - apply (Es_more n _ (y :: a)); [exact (E_sub [] x y a)|apply edits_cons, IH].
  - apply (Es_more n _ (y :: a)); [exact (E_ins [] y a)|apply edits_cons, IH].
  - apply (Es_more n _ a); [exact (E_del [] x a)|exact IH].
Qed.

(** ** Least alignments *)
Definition best (a b : bytes) (n : nat) : Prop := align a b n /\ forall m, align a b m -> (n <= m)%nat.

Lemma best_distance a b n : best a b n <-> edit_distance a b n.
Proof.
  split; intros [A M]; split.
  - apply align_edits, A.
  - intros m H. apply edits_align in H. destruct H as (k & B & H). specialize (M k H). lia.
  - apply edits_align in A. destruct A as (k & B & H). specialize (M k (align_edits _ _ _ H)). replace n with k by lia. exact H.
  - intros m H. apply M, align_edits, H.
Qed.

Lemma best_fun a b n m : best a b n -> best a b m -> n = m.
Proof. intros [A1 M1] [A2 M2]. specialize (M1 _ A2). specialize (M2 _ A1). lia. Qed.

Lemma align_rev a b n : align a b n -> align (rev a) (rev b) n.
Proof.
  induction 1 as [|x a b n _ IH|x y a b n _ IH|y a b n _ IH|x a b n _ IH]; cbn [rev].
  - constructor.
  - replace n with (n + 0)%nat by lia. apply align_app; [exact IH|apply align_refl].
  - replace (S n) with (n + 1)%nat by lia. apply align_app; [exact IH|repeat constructor].
  - replace (S n) with (n + 1)%nat by lia. rewrite <- (app_nil_r (rev a)). apply align_app; [exact IH|repeat constructor].
  - replace (S n) with (n + 1)%nat by lia. rewrite <- (app_nil_r (rev b)). apply align_app; [exact IH|repeat constructor].
Qed.

Lemma align_snoc a x b y n : align (a ++ [x]) (b ++ [y]) n ->
  (x = y /\ align a b n) \/
  (exists k, n = S k /\ (align a b k \/ align (a ++ [x]) b k \/ align a (b ++ [y]) k)).
Proof.
  intros H. apply align_rev in H. rewrite !rev_unit in H.
  assert (R : forall u v k, align (rev u) (rev v) k -> align u v k).
  { intros u v k Q. apply align_rev in Q. rewrite !rev_involutive in Q. exact Q. }
  remember (x :: rev a) as l1 eqn:E1. remember (y :: rev b) as l2 eqn:E2.
  destruct H as [|x' a' b' n' H3|x' y' a' b' n' H3|y' a' b' n' H3|x' a' b' n' H3].
  - discriminate.
  - injection E1 as -> ->. injection E2 as -> ->. left. split; [reflexivity|apply R, H3].
  - injection E1 as -> ->. injection E2 as -> ->. right. exists n'. split; [reflexivity|left; apply R, H3].
  - injection E2 as -> ->. right. exists n'. split; [reflexivity|right; left]. subst a'. apply R. rewrite rev_unit. exact H3.
  - injection E1 as -> ->. right. exists n'. split; [reflexivity|right; right]. subst b'. apply R. rewrite rev_unit. exact H3.
Qed.

Lemma align_snoc_same a x b n : align a b n -> align (a ++ [x]) (b ++ [x]) n.
Proof. intros H. replace n with (n + 0)%nat by lia. apply align_app; [exact H|apply align_refl]. Qed.
Lemma align_snoc_sub a x b y n : align a b n -> align (a ++ [x]) (b ++ [y]) (S n).
Proof. intros H. replace (S n) with (n + 1)%nat by lia. apply align_app; [exact H|repeat constructor]. Qed.
Lemma align_snoc_ins a b y n : align a b n -> align a (b ++ [y]) (S n).
Proof. intros H. replace (S n) with (n + 1)%nat by lia. rewrite <- (app_nil_r a). apply align_app; [exact H|repeat constructor]. Qed.
Lemma align_snoc_del a x b n : align a b n -> align (a ++ [x]) b (S n).
Proof. intros H. apply align_sym, align_snoc_ins, align_sym, H. Qed.

(** A cell holds the distance of two prefixes. *)
Definition cell_ok (a b : bytes) (z : Z) : Prop := exists n, z = Z.of_nat n /\ best a b n.

Lemma cell_step a x b y up left diag :
  cell_ok a (b ++ [y]) up -> cell_ok (a ++ [x]) b left -> cell_ok a b diag ->
  cell_ok (a ++ [x]) (b ++ [y]) (lev_cell up left diag (Ascii.eqb x y)).
Proof.
  intros (u & -> & Au & Mu) (l & -> & Al & Ml) (d & -> & Ad & Md).
  assert (LB : forall m, align (a ++ [x]) (b ++ [y]) m ->
    (S u <= m \/ S l <= m \/ (if Ascii.eqb x y then d else S d) <= m)%nat).
  { intros m H. apply align_snoc in H. destruct H as [[-> H]|(k & -> & [H|[H|H]])].
    - right. right. rewrite Ascii.eqb_refl. apply Md, H.
    - right. right. specialize (Md _ H). destruct (Ascii.eqb x y); lia.
    - right. left. specialize (Ml _ H). lia.
    - left. specialize (Mu _ H). lia. }
  exists (Nat.min (Nat.min (S u) (S l)) (if Ascii.eqb x y then d else S d)). split.
  { unfold lev_cell. destruct (Ascii.eqb x y); lia. }
  split.
  - destruct (Nat.min_spec (Nat.min (S u) (S l)) (if Ascii.eqb x y then d else S d)) as [[_ ->]|[_ ->]].
    + destruct (Nat.min_spec (S u) (S l)) as [[_ ->]|[_ ->]]; [apply align_snoc_del, Au|apply align_snoc_ins, Al].
    + destruct (Ascii.eqb x y) eqn:E; [apply Ascii.eqb_eq in E; subst y; apply align_snoc_same, Ad|apply align_snoc_sub, Ad].
  - intros m H. specialize (LB m H). lia.
Qed.

Lemma cell_nil_l b : cell_ok [] b (Z.of_nat (length b)).
Proof.
  exists (length b). split; [reflexivity|]. split.
  - induction b; cbn; constructor; auto.
  - intros m H. remember [] as a. induction H; try discriminate; cbn; [lia|]. specialize (IHalign Heqa). lia.
Qed.
Lemma cell_sym a b z : cell_ok a b z -> cell_ok b a z.
Proof. intros (n & -> & A & M). exists n. split; [reflexivity|]. split; [apply align_sym, A|]. intros m H. apply M, align_sym, H. Qed.
Lemma cell_nil_r a : cell_ok a [] (Z.of_nat (length a)).
Proof. apply cell_sym, cell_nil_l. Qed.

(** A row for prefix [a], from column [length p] on, of text [p ++ b]. *)
Inductive row_ok (a : bytes) : bytes -> bytes -> list Z -> Prop :=
| R_end p z : cell_ok a p z -> row_ok a p [] [z]
| R_cons p y b z r : cell_ok a p z -> row_ok a (p ++ [y]) b r -> row_ok a p (y :: b) (z :: r).

Lemma row_cells a x b : forall p prev left, row_ok a p b prev -> cell_ok (a ++ [x]) p left ->
  row_ok (a ++ [x]) p b (left :: lev_cells x b prev left).
Proof.
  induction b as [|y b IH]; intros p prev left R C; cbn [lev_cells].
  - constructor. exact C.
  - inversion R as [|? ? ? diag r Cd Rr]; subst.
    assert (exists up r', r = up :: r' /\ cell_ok a (p ++ [y]) up) as (up & r' & -> & Cu).
    { inversion Rr; subst; eauto. }
    constructor; [exact C|]. apply IH; [exact Rr|]. apply cell_step; assumption.
Qed.

Lemma rows_ok b : forall a p prev, row_ok p [] b prev ->
  row_ok (p ++ a) [] b (lev_rows a (Z.of_nat (length p) + 1) b prev).
Proof.
  induction a as [|x a IH]; intros p prev R; cbn [lev_rows]; [rewrite app_nil_r; exact R|].
  replace (p ++ x :: a) with ((p ++ [x]) ++ a) by (rewrite <- app_assoc; reflexivity).
  replace (Z.of_nat (length p) + 1 + 1) with (Z.of_nat (length (p ++ [x])) + 1) by (rewrite app_length; cbn [length]; lia).
  apply IH. apply row_cells; [exact R|].
  replace (Z.of_nat (length p) + 1) with (Z.of_nat (length (p ++ [x]))) by (rewrite app_length; cbn [length]; lia).
  apply cell_nil_r.
Qed.

Lemma row0_ok b : row_ok [] [] b (lev_row0 b).
Proof.
  unfold lev_row0. assert (K : forall b p, row_ok [] p b (map Z.of_nat (seq (length p) (S (length b))))).
  { clear b. induction b as [|y b IH]; intros p; cbn [length seq map].
    - constructor. apply cell_nil_l.
    - constructor; [apply cell_nil_l|]. specialize (IH (p ++ [y])). rewrite app_length in IH. cbn [length] in IH.
      rewrite Nat.add_1_r in IH. exact IH. }
  apply (K b []).
Qed.

Lemma row_last a b : forall p r d, row_ok a p b r -> cell_ok a (p ++ b) (last r d).
Proof.
  induction b as [|y b IH]; intros p r d R; inversion R as [? z C|? ? ? z r' C R']; subst.
  - rewrite app_nil_r. exact C.
  - replace (p ++ y :: b) with ((p ++ [y]) ++ b) by (rewrite <- app_assoc; reflexivity).
    specialize (IH _ _ d R'). destruct r'; [inversion R'|exact IH].
Qed.

Lemma levenshtein_cell a b : cell_ok a b (levenshtein a b).
Proof.
  unfold levenshtein. destruct (beqb a b) eqn:E.
  - apply beqb_eq in E. subst b. exists 0%nat. split; [reflexivity|]. split; [apply align_refl|]. intros; lia.
  - apply (row_last a b [] _ 0). apply (rows_ok b a [] (lev_row0 b)). apply row0_ok.
Qed.

Lemma levenshtein_spec a b : exists n, levenshtein a b = Z.of_nat n /\ edit_distance a b n.
Proof. destruct (levenshtein_cell a b) as (n & E & B). exists n. split; [exact E|]. apply best_distance, B. Qed.

(** ** Metric *)
Lemma lev_zero a b : levenshtein a b = 0 <-> a = b.
Proof.
  split.
  - intros E. destruct (levenshtein_cell a b) as (n & E' & A & _). assert (n = 0%nat) by lia. subst n.
    clear E E'. remember 0%nat as k eqn:K. induction A; try discriminate; [reflexivity|]. f_equal. auto.
  - intros ->. unfold levenshtein. rewrite beqb_refl. reflexivity.
Qed.
Lemma lev_sym a b : levenshtein a b = levenshtein b a.
Proof.
  destruct (levenshtein_cell a b) as (n & -> & B). destruct (cell_sym _ _ _ (levenshtein_cell b a)) as (m & -> & B').
  f_equal. eapply best_fun; eauto.
Qed.
Lemma lev_triangle a b c : levenshtein a c <= levenshtein a b + levenshtein b c.
Proof.
  destruct (levenshtein_cell a b) as (n & -> & A & _). destruct (levenshtein_cell b c) as (m & -> & B & _).
  destruct (levenshtein_cell a c) as (k & -> & _ & C). destruct (align_trans _ _ _ A _ _ B) as (j & L & J).
  specialize (C j J). lia.
Qed.
Lemma align_len a b n : align a b n -> (length a <= length b + n /\ length b <= length a + n)%nat.
Proof. induction 1; cbn [length]; lia. Qed.
Lemma align_max a b : exists n, (n <= Nat.max (length a) (length b))%nat /\ align a b n.
Proof.
  revert b. induction a as [|x a IH]; intros [|y b].
  - exists 0%nat. split; [lia|constructor].
  - exists (length (y :: b)). split; [cbn; lia|]. destruct (cell_nil_l (y :: b)) as (k & E & A & _). replace (length (y :: b)) with k by lia. exact A.
  - exists (length (x :: a)). split; [cbn; lia|]. destruct (cell_nil_r (x :: a)) as (k & E & A & _). replace (length (x :: a)) with k by lia. exact A.
  - destruct (IH b) as (n & L & A). exists (S n). split; [cbn [length]; lia|constructor; exact A].
Qed.
Lemma lev_bounds a b :
  Z.abs (Z.of_nat (length a) - Z.of_nat (length b)) <= levenshtein a b <= Z.max (Z.of_nat (length a)) (Z.of_nat (length b)).
Proof.
  destruct (levenshtein_cell a b) as (n & -> & A & M). pose proof (align_len _ _ _ A).
  destruct (align_max a b) as (k & L & K). specialize (M k K). lia.
Qed.

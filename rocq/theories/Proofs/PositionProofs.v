(** Line, column and excerpt of the reader's exceptions and warnings. *)
From Verif Require Export Proofs.Trace Spec.Window Spec.Position Proofs.RingProofs.
Open Scope Z_scope.

(** * Batches put in the history *)
Lemma find_lf_some mem : forall count i0 j, find_lf mem count i0 = Some (Some j) ->
  exists a b, mem = a ++ LF :: b /\ ~ In LF a /\ j = (i0 + length a)%nat /\ (length a < count)%nat.
Proof.
  induction mem as [|x mem IH]; intros [|count] i0 j; cbn [find_lf]; try discriminate.
  destruct (Ascii.eqb x LF) eqn:E.
  - intros [= <-]. apply Ascii.eqb_eq in E. subst x. exists [], mem. cbn. repeat split; auto; lia.
  - intros H. apply IH in H. destruct H as (a & b & -> & N & -> & L). exists (x :: a), b. cbn. apply Ascii.eqb_neq in E.
    repeat split; [|lia|lia]. intros [Q|Q]; congruence || auto.
Qed.

Lemma find_lf_none mem : forall count i0, find_lf mem count i0 = Some None ->
  ~ In LF (firstn count mem) /\ (count <= length mem)%nat.
Proof.
  induction mem as [|x mem IH]; intros [|count] i0; cbn [find_lf firstn length]; try discriminate.
  - intros _. split; [intros []|lia].
  - intros _. split; [intros []|lia].
  - destruct (Ascii.eqb x LF) eqn:E; [discriminate|]. apply Ascii.eqb_neq in E.
    intros H. apply IH in H. destruct H as [N L]. split; [|lia]. intros [Q|Q]; congruence || auto.
Qed.

Lemma put_many_short f : forall h mem count, (length mem < count)%nat -> hist_put_many f h mem count = None.
Proof.
  induction f as [|f IH]; intros h mem count L; [reflexivity|]. cbn [hist_put_many].
  destruct (find_lf mem count 0) as [[i|]|] eqn:E; [| |reflexivity].
  - apply find_lf_some in E. destruct E as (a & b & -> & _ & -> & _). rewrite app_length in L. cbn [length] in L.
    replace (0 + length a <? count - 1)%nat with true by (symmetry; apply Nat.ltb_lt; lia).
    apply IH. replace (skipn (S (0 + length a)) (a ++ LF :: b)) with b; [lia|].
    cbn [Nat.add]. rewrite skipn_app, skipn_all2 by lia. replace (S (length a) - length a)%nat with 1%nat by lia. reflexivity.
  - apply find_lf_none in E. lia.
Qed.

Lemma flush_quiet h : willReset (hist_flush h) = false.
Proof. unfold hist_flush. destruct (willReset h) eqn:E; [reflexivity|exact E]. Qed.

Lemma first_lf (m tl a b : bytes) : m ++ tl = a ++ LF :: b -> (length a < length m)%nat ->
  exists b', m = a ++ LF :: b' /\ b = b' ++ tl.
Proof.
  revert a. induction m as [|x m IH]; intros [|y a] E L; cbn [length app] in *; try lia; injection E as -> E.
  - exists m. auto.
  - destruct (IH a E ltac:(lia)) as (b' & -> & ->). exists b'. auto.
Qed.

Lemma puts_cases h m tl h' : (length tl <= 1)%nat -> ~ In LF tl -> hist_puts h (m ++ tl) (length m) = Some h' ->
  (~ In LF m /\ exists r, ring_put_many ERROR_HISTORY_LEN (hring (hist_flush h)) (m ++ tl) (Z.of_nat (length m)) = Some r /\
      h' = mkHist r false (hline (hist_flush h))) \/
  (exists a, m = a ++ [LF] /\ ~ In LF a /\ h' = mkHist (hring (hist_flush h)) true (hline (hist_flush h))) \/
  (exists a b, m = a ++ LF :: b /\ ~ In LF a /\ ~ In LF b /\ b <> [] /\ willReset h' = false /\
      hline h' = (hline (hist_flush h) + 1) mod 2 ^ 32).
Proof.
  intros LT NT. unfold hist_puts. cbn [hist_put_many].
  destruct (find_lf (m ++ tl) (length m) 0) as [[i|]|] eqn:E; [| |discriminate].
  - apply find_lf_some in E. destruct E as (a & b & E & N & -> & L). cbn [Nat.add].
    destruct (first_lf m tl a b E L) as (b' & -> & ->).
    assert (SK : skipn (S (length a)) ((a ++ LF :: b') ++ tl) = b' ++ tl).
    { rewrite <- app_assoc, skipn_app, skipn_all2 by lia. replace (S (length a) - length a)%nat with 1%nat by lia. reflexivity. }
    rewrite SK. rewrite !app_length in *. cbn [length] in *.
    destruct (length a <? length a + S (length b') - 1)%nat eqn:LB.
    + apply Nat.ltb_lt in LB. replace (length a + S (length b') - length a)%nat with (S (length b')) by lia.
      destruct (length a + S (length b') + length tl)%nat as [|g] eqn:EG; [discriminate|]. cbn [hist_put_many].
      destruct (find_lf (b' ++ tl) (S (length b')) 0) as [[j|]|] eqn:E2; [| |discriminate].
      * apply find_lf_some in E2. destruct E2 as (a2 & b2 & E2 & N2 & -> & L2). cbn [Nat.add].
        assert (La2 : (length a2 < length b')%nat).
        { destruct (Nat.eq_dec (length a2) (length b')) as [Q|Q]; [|lia]. exfalso. apply NT.
          assert (E3 : skipn (length a2) (b' ++ tl) = LF :: b2) by (rewrite E2, skipn_app, skipn_all, Nat.sub_diag; reflexivity).
          rewrite Q, skipn_app, skipn_all, Nat.sub_diag in E3. cbn [skipn app] in E3. rewrite E3. left. reflexivity. }
        replace (length a2 <? S (length b') - 1)%nat with true by (symmetry; apply Nat.ltb_lt; lia).
        rewrite put_many_short; [discriminate|]. rewrite skipn_length, app_length. lia.
      * apply find_lf_none in E2. destruct E2 as [N2 L2]. rewrite app_length in L2.
        intros H. right. right. exists a, b'. split; [reflexivity|]. split; [exact N|]. split.
        { intros Q. apply N2. destruct tl as [|c [|]]; cbn [length] in L2, LT; try lia.
          rewrite firstn_all2 by (rewrite app_length; cbn; lia). apply in_or_app. left. exact Q. }
        split; [intros ->; cbn in LB; lia|].
        cbn [hist_flush willReset hring hline] in H.
        match type of H with option_map _ ?x = _ => destruct x as [r|]; [|discriminate] end.
        cbn [option_map] in H. injection H as <-. split; reflexivity.
    + intros [= <-]. right. left. apply Nat.ltb_ge in LB. exists a. assert (b' = []) by (destruct b'; [reflexivity|cbn in LB; lia]). subst b'.
      split; [reflexivity|]. split; [exact N|reflexivity].
  - apply find_lf_none in E. destruct E as [N L]. rewrite firstn_app, firstn_all, Nat.sub_diag, firstn_O, app_nil_r in N.
    intros H. left. split; [exact N|]. rewrite flush_quiet in H.
    match type of H with option_map _ ?x = _ => destruct x as [r|]; [|discriminate] end.
    injection H as <-. exists r. split; reflexivity.
Qed.

(** * Lines *)
Definition b2z (b : bool) : Z := if b then 1 else 0.
Definition ends_lf (t : bytes) : Prop := exists a, t = a ++ [LF].

Lemma ends_lf_snoc t c : ends_lf (t ++ [c]) <-> c = LF.
Proof.
  split; [intros (a & E); apply app_inj_tail in E; apply E|]. intros ->. exists t. reflexivity.
Qed.

Lemma line_feeds_app a b : line_feeds (a ++ b) = line_feeds a + line_feeds b.
Proof. unfold line_feeds. rewrite count_occ_app. lia. Qed.
Lemma line_feeds_one c : line_feeds [c] = b2z (Ascii.eqb c LF).
Proof.
  unfold line_feeds. cbn [count_occ]. destruct (Ascii.ascii_dec c LF) as [->|N]; [reflexivity|].
  apply Ascii.eqb_neq in N. rewrite N. reflexivity.
Qed.
Lemma line_feeds_none t : ~ In LF t -> line_feeds t = 0.
Proof. intros N. unfold line_feeds. apply (count_occ_not_In Ascii.ascii_dec) in N. rewrite N. reflexivity. Qed.

Definition line_is (h : hist) (n : Z) : Prop := (hline h + b2z (willReset h)) mod 2 ^ 32 = n mod 2 ^ 32 /\ 0 <= hline h < 2 ^ 32.

Lemma flush_line h n : line_is h n -> line_is (hist_flush h) n.
Proof.
  unfold line_is, hist_flush. destruct (willReset h) eqn:E; cbn [hline willReset b2z]; [|rewrite E; auto].
  intros [H R]. split; [|apply Z.mod_pos_bound; lia]. cbn [b2z] in H. rewrite Z.add_0_r, Z.mod_mod by lia. exact H.
Qed.

Lemma line_is_hline h n : line_is h n -> willReset h = false -> hline h = n mod 2 ^ 32.
Proof. intros [H R] W. rewrite W in H. cbn [b2z] in H. rewrite Z.add_0_r, Z.mod_small in H by lia. exact H. Qed.

Lemma put_line h n c h' : c <> CR -> line_is h n -> hist_put h c = Some h' ->
  line_is h' (n + b2z (Ascii.eqb c LF)) /\ willReset h' = Ascii.eqb c LF.
Proof.
  intros NC L. pose proof (flush_line h n L) as FL. pose proof (flush_quiet h) as FQ. unfold hist_put.
  apply Ascii.eqb_neq in NC. rewrite NC, orb_false_r. destruct (Ascii.eqb c LF).
  - intros [= <-]. cbn [willReset hline]. split; [|reflexivity]. destruct FL as [F1 F2]. split; [|exact F2].
    rewrite FQ in F1. cbn [b2z] in *. rewrite Z.add_0_r in F1. cbn [willReset hline b2z].
    rewrite <- Zplus_mod_idemp_l, F1, Zplus_mod_idemp_l. reflexivity.
  - destruct (ring_put _ _ _) as [r|]; [|discriminate]. intros [= <-]. cbn [willReset b2z]. rewrite Z.add_0_r. split; [exact FL|exact FQ].
Qed.

Lemma puts_line h n m tl h' : (length tl <= 1)%nat -> ~ In LF tl -> line_is h n -> hist_puts h (m ++ tl) (length m) = Some h' ->
  line_is h' (n + line_feeds m) /\ (willReset h' = true <-> ends_lf m).
Proof.
  intros LT NT L H. pose proof (flush_line h n L) as FL. pose proof (flush_quiet h) as FQ.
  destruct (puts_cases h m tl h' LT NT H) as [(N & r & _ & ->)|[(a & -> & N & ->)|(a & b & -> & N1 & N2 & NE & W & HL)]].
  - rewrite line_feeds_none, Z.add_0_r by exact N. unfold line_is in *. cbn [willReset hline]. rewrite FQ in FL. split; [exact FL|].
    split; [discriminate|]. intros (a & ->). exfalso. apply N, in_or_app. right. left. reflexivity.
  - rewrite line_feeds_app, line_feeds_none, line_feeds_one by exact N. change (Ascii.eqb LF LF) with true. unfold line_is in *. rewrite FQ in FL.
    cbn [willReset hline b2z] in *. destruct FL as [F1 F2]. rewrite Z.add_0_r in F1. split.
    + split; [|exact F2]. change (0 + 1) with 1. rewrite <- Zplus_mod_idemp_l, F1, Zplus_mod_idemp_l. reflexivity.
    + split; [intros _; exists a; reflexivity|reflexivity].
  - rewrite line_feeds_app. change (LF :: b) with ([LF] ++ b). rewrite line_feeds_app, line_feeds_one, !line_feeds_none by assumption.
    change (Ascii.eqb LF LF) with true. unfold line_is in *. rewrite W, HL. rewrite FQ in FL. cbn [b2z] in *. destruct FL as [F1 F2].
    rewrite Z.add_0_r in F1. split.
    + split; [|apply Z.mod_pos_bound; lia]. rewrite Z.add_0_r, Z.mod_mod by lia.
      rewrite <- Zplus_mod_idemp_l, F1, Zplus_mod_idemp_l. f_equal; lia.
    + split; [discriminate|]. intros (x & E). exfalso. destruct (exists_last NE) as (b' & c & ->).
      cbn [app] in E. change (LF :: b' ++ [c]) with ((LF :: b') ++ [c]) in E. rewrite app_assoc in E. apply app_inj_tail in E. destruct E as [_ ->].
      apply N2, in_or_app. right. left. reflexivity.
Qed.

Lemma hist_ok_puts h m tl h' : (length m <= 4)%nat -> hist_ok h -> hist_puts h (m ++ tl) (length m) = Some h' -> hist_ok h'.
Proof. intros L O. unfold hist_puts. apply hist_put_many_ok; auto. Qed.

Lemma ends_word_in c : ends_word c = true -> In c (str "0123456789.-eE").
Proof.
  assert (K : forallb (fun c => implb (ends_word c) (existsb (Ascii.eqb c) (str "0123456789.-eE"))) (map ascii_of_nat (seq 0 256)) = true)
    by (vm_compute; reflexivity).
  intros H. rewrite forallb_forall in K. specialize (K c). rewrite H in K. cbn [implb] in K.
  assert (I : In c (map ascii_of_nat (seq 0 256))).
  { rewrite <- (ascii_nat_embedding c). apply in_map. apply in_seq. pose proof (nat_ascii_bounded c). lia. }
  specialize (K I). apply existsb_exists in K. destruct K as (x & Ix & Q). apply Ascii.eqb_eq in Q. subst x. exact Ix.
Qed.

Lemma ends_lf_app_ne (a m : bytes) : m <> [] -> (ends_lf (a ++ m) <-> ends_lf m).
Proof.
  intros N. destruct (exists_last N) as (m' & c & ->). rewrite app_assoc. rewrite !ends_lf_snoc. tauto.
Qed.

Section Line.
  Variable input : bytes.
  Hypothesis P : plain_lines input.

  Definition LI (pre : bytes) (h : hist) : Prop :=
    hist_ok h /\ line_is h (1 + line_feeds pre) /\ (willReset h = true <-> ends_lf pre).
  Definition LJ (h : hist) : Prop :=
    line_is h (1 + line_feeds input) /\ (willReset h = true -> ends_lf input).

  Lemma no_cr a c b : input = a ++ c :: b -> c <> CR.
  Proof. intros E ->. apply (proj1 P). rewrite E. apply in_elt. Qed.

  Lemma LI_put pre c t h h' : input = pre ++ c :: t -> LI pre h -> hist_put h c = Some h' -> LI (pre ++ [c]) h'.
  Proof.
    intros E (O & L & W) H. destruct (hist_put_ok h c O) as (h2 & E2 & O2). rewrite H in E2. injection E2 as <-.
    destruct (put_line h _ c h' (no_cr _ _ _ E) L H) as [L' W']. split; [exact O2|]. split.
    - rewrite line_feeds_app, line_feeds_one, Z.add_assoc. exact L'.
    - rewrite W', ends_lf_snoc. split; [apply Ascii.eqb_eq|intros ->; reflexivity].
  Qed.

  Lemma LI_pop pre x c t h h' : input = (pre ++ [x]) ++ c :: t -> ends_word x = true -> LI (pre ++ [x]) h ->
    hist_put h c = Some h' -> LI (pre ++ [x]) (hist_pop h').
  Proof.
    intros E EW (O & L & W) H. destruct (hist_put_ok h c O) as (h2 & E2 & O2). rewrite H in E2. injection E2 as <-.
    destruct (put_line h _ c h' (no_cr _ _ _ E) L H) as [L' W'].
    assert (C : Ascii.eqb c LF = false).
    { apply Ascii.eqb_neq. intros ->. apply ends_word_in in EW. rewrite <- app_assoc in E. exact (proj2 P _ _ _ E EW). }
    rewrite C in *. cbn [b2z] in L'. rewrite Z.add_0_r in L'. split; [apply hist_pop_ok, O2|]. split; [exact L'|].
    cbn [hist_pop willReset]. rewrite W'. split; [discriminate|]. rewrite ends_lf_snoc. intros ->. discriminate EW.
  Qed.

  Lemma LI_eof h h' : LI input h -> hist_put h EOFCHAR = Some h' -> LJ h' /\ LJ (hist_pop h').
  Proof.
    intros (O & L & W) H. destruct (put_line h _ EOFCHAR h' ltac:(discriminate) L H) as [L' W'].
    change (Ascii.eqb EOFCHAR LF) with false in *. cbn [b2z] in L'. rewrite Z.add_0_r in L'.
    split; (split; [exact L'|]); [|cbn [hist_pop willReset]]; rewrite W'; discriminate.
  Qed.

  Lemma LI_batch pre m tl h h' : (length m <= 4)%nat -> m <> [] -> (length tl <= 1)%nat -> ~ In LF tl -> LI pre h ->
    hist_puts h (m ++ tl) (length m) = Some h' -> LI (pre ++ m) h'.
  Proof.
    intros L4 NE LT NT (O & L & W) H. destruct (puts_line h _ m tl h' LT NT L H) as [L' W']. split; [eapply hist_ok_puts; eauto|]. split.
    - rewrite line_feeds_app, Z.add_assoc. exact L'.
    - rewrite W'. symmetry. apply ends_lf_app_ne, NE.
  Qed.

  Lemma line_told e params x : raised e params input x -> told input LI LJ x.
  Proof.
    apply read_trace; clear x.
    - split; [exact hist_init_ok|]. split; [split; [reflexivity|cbn; lia]|]. split; [discriminate|]. intros (a & E). destruct a; discriminate.
    - intros pre h H. apply H.
    - exact LI_put.
    - exact LI_pop.
    - exact LI_eof.
    - intros pre four t h h' _ L4 HI H. apply (LI_batch _ four [] h h'); rewrite ?L4, ?app_nil_r; auto.
      + intros ->. discriminate.
    - intros pre four h h' E L4 (O & L & W) H. rewrite <- (app_nil_r four) in H at 1.
      destruct (puts_line h _ four [] h' ltac:(cbn; lia) ltac:(intros []) L H) as [L' W'].
      split; [rewrite E, line_feeds_app, Z.add_assoc; exact L'|]. rewrite W', E. intros (a & ->). exists (pre ++ a). apply app_assoc.
    - intros pre c three t h h' _ _ L3 HI H. apply (LI_batch _ three [NUL] h h'); rewrite ?L3; auto.
      + intros ->. discriminate.
      + intros [Q|[]]. discriminate.
    - intros pre three h h' E L3 (O & L & W) H. set (m := three ++ repeat NUL (3 - length three)) in *.
      assert (LM : length m = 3%nat) by (unfold m; rewrite app_length, repeat_length; lia). rewrite <- LM in H.
      destruct (puts_line h _ m [NUL] h' ltac:(cbn; lia) ltac:(intros [Q|[]]; discriminate) L H) as [L' W'].
      assert (NR : ~ In LF (repeat NUL (3 - length three))) by (intros Q; apply repeat_spec in Q; discriminate).
      split.
      + rewrite E, line_feeds_app, Z.add_assoc. unfold m in L'. rewrite line_feeds_app, (line_feeds_none (repeat _ _)), Z.add_0_r in L' by exact NR.
        exact L'.
      + rewrite W'. unfold m. intros EL. exfalso.
        assert (NN : repeat NUL (3 - length three) <> []) by (destruct (3 - length three)%nat eqn:Q; [lia|discriminate]).
        apply (proj1 (ends_lf_app_ne three _ NN)) in EL. destruct EL as (a & EL). apply NR. rewrite EL. apply in_or_app. right. left. reflexivity.
  Qed.
End Line.

(** * Standing *)
Lemma stands_line t n cur : stands t n cur -> 1 + line_feeds t = n + b2z (match rev t with c :: _ => Ascii.eqb c LF | [] => false end).
Proof.
  intros (ls & e & -> & HE & F & N & ->).
  assert (K : line_feeds (flat_map (fun l => l ++ [LF]) ls) = Z.of_nat (length ls)).
  { clear HE. induction F as [|l ls NL F IH]; [reflexivity|]. cbn [flat_map length]. rewrite !line_feeds_app, IH, line_feeds_one, line_feeds_none by exact NL.
    change (b2z (Ascii.eqb LF LF)) with 1. lia. }
  rewrite !line_feeds_app, K, (line_feeds_none cur) by exact N.
  destruct HE as [[-> HC]| ->].
  - rewrite app_nil_r. change (line_feeds []) with 0. destruct cur as [|x cur].
    + rewrite HC by reflexivity. cbn. lia.
    + destruct (@exists_last _ (x :: cur) ltac:(discriminate)) as (c' & y & EC). rewrite EC, rev_app_distr, rev_app_distr. cbn [rev app].
      replace (Ascii.eqb y LF) with false; [cbn [b2z]; lia|]. symmetry. apply Ascii.eqb_neq. intros ->. apply N. rewrite EC. apply in_or_app. right. left. reflexivity.
  - rewrite !rev_app_distr. cbn [rev app]. change (line_feeds [LF]) with 1. change (b2z (Ascii.eqb LF LF)) with 1. lia.
Qed.

Lemma rev_ends t : (match rev t with c :: _ => Ascii.eqb c LF | [] => false end) = true <-> ends_lf t.
Proof.
  split.
  - destruct (rev t) as [|c r] eqn:E; [discriminate|]. intros Q. apply Ascii.eqb_eq in Q. subst c. exists (rev r).
    rewrite <- (rev_involutive t), E. reflexivity.
  - intros (a & ->). rewrite rev_app_distr. reflexivity.
Qed.

Lemma stands_nil : stands [] 1 [].
Proof. exists [], []. cbn. repeat split; auto. Qed.

Lemma stands_more t n cur c : stands t n cur -> ~ ends_lf t -> c <> LF -> stands (t ++ [c]) n (cur ++ [c]).
Proof.
  intros (ls & e & -> & HE & F & N & ->) NE NC. destruct HE as [[-> HC]| ->].
  - exists ls, []. rewrite !app_nil_r, app_assoc. split; [reflexivity|]. split; [left; split; [reflexivity|intros Q; destruct cur; discriminate]|].
    split; [exact F|]. split; [|reflexivity]. intros Q. apply in_app_or in Q. destruct Q as [Q|[Q|[]]]; congruence || auto.
  - exfalso. apply NE. rewrite app_assoc. eexists. reflexivity.
Qed.

Lemma stands_close t n cur : stands t n cur -> ~ ends_lf t -> stands (t ++ [LF]) n cur.
Proof.
  intros (ls & e & -> & HE & F & N & ->) NE. destruct HE as [[-> HC]| ->].
  - exists ls, [LF]. rewrite app_nil_r, <- app_assoc. split; [reflexivity|]. split; [right; reflexivity|]. auto.
  - exfalso. apply NE. rewrite app_assoc. eexists. reflexivity.
Qed.

Lemma stands_open t n cur : stands t n cur -> ends_lf t -> exists ls, t = flat_map (fun l => l ++ [LF]) ls /\ Forall (fun l => ~ In LF l) ls /\
  n + 1 = 1 + Z.of_nat (length ls).
Proof.
  intros (ls & e & -> & HE & F & N & ->) (a & E). destruct HE as [[-> HC]| ->].
  - exfalso. rewrite app_nil_r in E. destruct cur as [|x cur].
    + rewrite HC in E by reflexivity. destruct a; discriminate.
    + destruct (@exists_last _ (x :: cur) ltac:(discriminate)) as (c' & y & EC). rewrite EC, app_assoc in E. apply app_inj_tail in E. destruct E as [_ ->].
      apply N. rewrite EC. apply in_or_app. right. left. reflexivity.
  - exists (ls ++ [cur]). split; [rewrite flat_map_app; cbn [flat_map]; rewrite app_nil_r; reflexivity|]. split; [apply Forall_app; auto|].
    rewrite app_length. cbn [length]. lia.
Qed.

Lemma stands_next t n cur c : stands t n cur -> ends_lf t -> c <> LF -> stands (t ++ [c]) (n + 1) [c].
Proof.
  intros S E NC. destruct (stands_open t n cur S E) as (ls & -> & F & ->). exists ls, []. split; [rewrite app_nil_r; reflexivity|].
  split; [left; split; [reflexivity|discriminate]|]. split; [exact F|]. split; [|reflexivity]. intros [Q|[]]. congruence.
Qed.

Lemma stands_blank t n cur : stands t n cur -> ends_lf t -> stands (t ++ [LF]) (n + 1) [].
Proof.
  intros S E. destruct (stands_open t n cur S E) as (ls & -> & F & ->). exists ls, [LF]. split; [reflexivity|].
  split; [right; reflexivity|]. split; [exact F|]. split; [intros []|reflexivity].
Qed.

Lemma stands_exists t : exists n cur, stands t n cur.
Proof.
  induction t as [|c t IH] using rev_ind; [exists 1, []; exact stands_nil|]. destruct IH as (n & cur & S).
  destruct (match rev t with c :: _ => Ascii.eqb c LF | [] => false end) eqn:E.
  - apply rev_ends in E. destruct (Ascii.ascii_dec c LF) as [->|N]; [eauto using stands_blank|eauto using stands_next].
  - assert (NE : ~ ends_lf t) by (intros Q; apply rev_ends in Q; congruence).
    destruct (Ascii.ascii_dec c LF) as [->|N]; [eauto using stands_close|eauto using stands_more].
Qed.

(** * C13 *)
Lemma line_reported e params input x : plain_lines input -> raised e params input x ->
  match eoffset x with
  | Some rest => exists pre line cur, input = pre ++ rest /\ stands pre line cur /\ hist_line (ehist x) = line mod 2 ^ 32
  | None => exists line cur, stands input line cur /\ (hist_line (ehist x) = line mod 2 ^ 32 \/ hist_line (ehist x) = (1 + line_feeds input) mod 2 ^ 32)
  end.
Proof.
  intros P R. pose proof (line_told input P e params x R) as T. unfold told in T. destruct (eoffset x) as [rest|].
  - destruct T as (pre & E & O & L & W). destruct (stands_exists pre) as (n & cur & S). exists pre, n, cur. split; [exact E|]. split; [exact S|].
    apply stands_line in S. unfold hist_line. destruct L as [L B]. rewrite S in L.
    assert (EW : willReset (ehist x) = match rev pre with c :: _ => Ascii.eqb c LF | [] => false end).
    { apply eq_true_iff_eq. rewrite W, rev_ends. tauto. }
    rewrite EW in L. rewrite <- (Z.mod_small (hline (ehist x)) (2 ^ 32)) by lia.
    assert (K : forall a b k, (a + k) mod 2 ^ 32 = (b + k) mod 2 ^ 32 -> a mod 2 ^ 32 = b mod 2 ^ 32).
    { intros a b k H. replace a with (a + k - k) by lia. replace b with (b + k - k) by lia.
      rewrite Zminus_mod, H, <- Zminus_mod. reflexivity. }
    eapply K, L.
  - destruct T as [L W]. destruct (stands_exists input) as (n & cur & S). exists n, cur. split; [exact S|].
    apply stands_line in S. unfold hist_line. destruct L as [L B]. destruct (willReset (ehist x)) eqn:EW.
    + left. specialize (W eq_refl). apply rev_ends in W. rewrite W in S. rewrite S in L.
      rewrite <- (Z.mod_small (hline (ehist x)) (2 ^ 32)) by lia. cbn [b2z] in L.
      replace (hline (ehist x)) with (hline (ehist x) + 1 - 1) by lia. replace n with (n + 1 - 1) by lia.
      rewrite Zminus_mod, L, <- Zminus_mod. reflexivity.
    + right. cbn [b2z] in L. rewrite Z.add_0_r, Z.mod_small in L by lia. exact L.
Qed.

(** * Excerpt and column *)
Lemma skipn_plus {A} a : forall b (l : list A), skipn a (skipn b l) = skipn (b + a) l.
Proof.
  intros b. induction b as [|b IH]; intros l; [reflexivity|]. destruct l; [cbn; apply skipn_nil|]. cbn [skipn Nat.add]. apply IH.
Qed.

Lemma lastn_app {A} n k (a m : list A) : (n <= k + length m)%nat -> lastn n (lastn k a ++ m) = lastn n (a ++ m).
Proof.
  intros L. unfold lastn at 2. set (d := (length a - k)%nat).
  assert (E : skipn d a ++ m = skipn d (a ++ m)).
  { rewrite skipn_app. replace (d - length a)%nat with 0%nat by (unfold d; lia). reflexivity. }
  rewrite E. unfold lastn. rewrite skipn_plus, skipn_length, app_length. f_equal. unfold d. lia.
Qed.

Lemma removelast_lastn {A} n (x : list A) c : removelast (lastn (S n) (x ++ [c])) = lastn n x.
Proof.
  unfold lastn. rewrite app_length. cbn [length]. rewrite skipn_app.
  replace (length x + 1 - S n - length x)%nat with 0%nat by lia. cbn [skipn]. rewrite removelast_last. f_equal. lia.
Qed.

(** Where the next byte goes. *)
Definition next_pos (t : bytes) (n : Z) (cur : bytes) : Prop :=
  ~ ends_lf t /\ stands t n cur \/ ends_lf t /\ cur = [] /\ exists c, stands t (n - 1) c.

Lemma next_char t n cur c : next_pos t n cur -> c <> LF -> stands (t ++ [c]) n (cur ++ [c]).
Proof.
  intros [[N S]|(E & -> & c' & S)] NC; [apply stands_more; auto|]. replace n with (n - 1 + 1) by lia. eapply stands_next; eauto.
Qed.
Lemma next_feed t n cur : next_pos t n cur -> stands (t ++ [LF]) n cur.
Proof.
  intros [[N S]|(E & -> & c' & S)]; [apply stands_close; auto|]. replace n with (n - 1 + 1) by lia. eapply stands_blank; eauto.
Qed.
Lemma next_chars m : forall t n cur, m <> [] -> next_pos t n cur -> ~ In LF m -> stands (t ++ m) n (cur ++ m).
Proof.
  induction m as [|c m IH]; intros t n cur NE S N; [congruence|].
  assert (NC : c <> LF) by (intros ->; apply N; left; reflexivity).
  pose proof (next_char t n cur c S NC) as S1. destruct m as [|d m]; [exact S1|].
  change (c :: d :: m) with ([c] ++ d :: m). rewrite !app_assoc. apply IH; [discriminate| |intros Q; apply N; right; exact Q].
  left. split; [rewrite ends_lf_snoc; exact NC|exact S1].
Qed.

Lemma stands_pos t n cur : stands t n cur -> 1 <= n.
Proof. intros (ls & e & _ & _ & _ & _ & ->). lia. Qed.

Definition col_of (line : Z) (cur : bytes) : option Z := if line =? 1 then None else Some (Z.of_nat (length cur) mod 2 ^ 32).

Definition shows (slack : Z) (h : hist) (line : Z) (cur : bytes) : Prop :=
  hline h = line mod 2 ^ 32 /\ written (hring h) = col_of line cur /\
  exists l, ring_rep 45 (hring h) l /\ ring_ready 45 slack (hring h) l /\ (l = lastn 45 cur \/ l = lastn 44 cur).

Lemma col_of_bump line cur m : bump (col_of line cur) (Z.of_nat (length m)) = col_of line (cur ++ m).
Proof.
  unfold col_of. destruct (line =? 1); [reflexivity|]. cbn [bump]. rewrite Zplus_mod_idemp_l, app_length, Nat2Z.inj_add. reflexivity.
Qed.

Lemma shows_put h line cur c h' : shows 1 h line cur -> willReset h = false -> c <> LF -> c <> CR ->
  hist_put h c = Some h' -> shows 0 h' line (cur ++ [c]) /\ willReset h' = false /\ shows 1 (hist_pop h') line cur.
Proof.
  intros (HL & HW & l & R & RD & EL) W N1 N2. unfold hist_put, hist_flush. rewrite W.
  apply Ascii.eqb_neq in N1, N2. rewrite N1, N2. cbn [orb].
  destruct (ring_put_rep 45 (hring h) l c ltac:(lia) R RD) as (r & E & R' & RD').
  change (Z.of_nat 45) with ERROR_HISTORY_LEN in E. rewrite E. cbn [option_map]. intros [= <-].
  assert (WR : written r = bump (written (hring h)) 1).
  { revert E. unfold ring_put. destruct (_ =? _); [|destruct (_ =? _)]; (destruct (cell_set _ _ _); [|discriminate]); intros [= <-]; reflexivity. }
  assert (EL' : lastn 45 (l ++ [c]) = lastn 45 (cur ++ [c])).
  { destruct EL as [-> | ->]; apply lastn_app; cbn; lia. }
  rewrite EL' in *. split; [|split].
  - split; [exact HL|]. cbn [hring]. split; [rewrite WR, HW; apply (col_of_bump line cur [c])|]. exists (lastn 45 (cur ++ [c])). auto.
  - exact W.
  - split; [exact HL|]. cbn [hring hist_pop].
    destruct (ring_pop_rep 45 r (lastn 45 (cur ++ [c])) ltac:(lia) R') as [R2 RD2]. specialize (RD2 RD').
    change (Z.of_nat 45) with ERROR_HISTORY_LEN in R2, RD2. split.
    + assert (WP : written (ring_pop ERROR_HISTORY_LEN r) = bump (written r) (-1)).
      { unfold ring_pop. destruct (_ =? _); [|destruct (_ =? _)]; reflexivity. }
      rewrite WP, WR, HW. unfold col_of. destruct (line =? 1); [reflexivity|]. cbn [bump]. f_equal.
      rewrite Zplus_mod_idemp_l, <- Z.add_assoc, Zplus_mod_idemp_l. f_equal. lia.
    + exists (lastn 44 cur). rewrite (removelast_lastn 44 cur c) in *. auto.
Qed.

Lemma shows_flush pre h line cur : stands pre line cur -> (willReset h = true <-> ends_lf pre) -> shows 1 h line cur ->
  exists line' cur', next_pos pre line' cur' /\ shows 1 (hist_flush h) line' cur'.
Proof.
  intros S W (HL & HW & l & R & RD & EL). unfold hist_flush. destruct (willReset h) eqn:EW.
  - exists (line + 1), []. split.
    + right. split; [apply W; reflexivity|]. split; [reflexivity|]. exists cur. replace (line + 1 - 1) with line by lia. exact S.
    + split; [cbn [hline]; rewrite HL, Zplus_mod_idemp_l; reflexivity|]. split.
      * cbn. unfold col_of. pose proof (stands_pos _ _ _ S). replace (line + 1 =? 1) with false by lia. reflexivity.
      * exists []. cbn [hring]. assert (Q : ring_wf 45 (hring h)) by apply R.
        destruct (ring_reset_rep 45 (hring h) ltac:(lia) Q) as [R0 D0]. split; [exact R0|]. split; [unfold ring_ready in *; lia|]. left. reflexivity.
  - exists line, cur. split; [left; split; [|exact S]|split; [exact HL|split; [exact HW|exists l; auto]]].
    intros Q. apply W in Q. discriminate.
Qed.

Lemma ready_weak h line cur : shows 0 h line cur -> shows 1 h line cur.
Proof. intros (A & B & l & R & RD & E). split; [exact A|]. split; [exact B|]. exists l. split; [exact R|]. split; [unfold ring_ready in *; lia|exact E]. Qed.

Lemma put_flush h c : hist_put h c = hist_put (hist_flush h) c.
Proof. unfold hist_put. assert (E : hist_flush (hist_flush h) = hist_flush h) by (unfold hist_flush at 1; rewrite flush_quiet; reflexivity). rewrite E. reflexivity. Qed.

Section Full.
  Variable input : bytes.
  Hypothesis P : plain_lines input.
  Hypothesis W : whole_words input.

  Definition FI (pre : bytes) (h : hist) : Prop :=
    exists line cur, stands pre line cur /\ (willReset h = true <-> ends_lf pre) /\ shows 1 h line cur.

  Lemma FI_put pre c t h h' : input = pre ++ c :: t -> FI pre h -> hist_put h c = Some h' -> FI (pre ++ [c]) h'.
  Proof.
    intros E (line & cur & S & WR & SH) H. destruct (shows_flush pre h line cur S WR SH) as (line' & cur' & NP & SF).
    rewrite put_flush in H. destruct (Ascii.ascii_dec c LF) as [->|NC].
    - exists line', cur'. split; [apply next_feed, NP|].
      assert (EH : h' = mkHist (hring (hist_flush h)) true (hline (hist_flush h))).
      { unfold hist_put in H. assert (Q : hist_flush (hist_flush h) = hist_flush h) by (unfold hist_flush at 1; rewrite flush_quiet; reflexivity).
        rewrite Q in H. cbn in H. injection H as <-. reflexivity. }
      subst h'. split; [rewrite ends_lf_snoc; cbn; tauto|exact SF].
    - destruct (shows_put (hist_flush h) line' cur' c h' SF (flush_quiet h) NC (no_cr input P _ _ _ E) H) as (A & B & _).
      exists line', (cur' ++ [c]). split; [apply next_char; auto|]. split; [rewrite B, ends_lf_snoc; split; [discriminate|congruence]|]. apply ready_weak, A.
  Qed.

  Lemma FI_pop pre x c t h h' : input = (pre ++ [x]) ++ c :: t -> ends_word x = true -> FI (pre ++ [x]) h ->
    hist_put h c = Some h' -> FI (pre ++ [x]) (hist_pop h').
  Proof.
    intros E EW (line & cur & S & WR & SH) H.
    assert (NX : ~ ends_lf (pre ++ [x])) by (rewrite ends_lf_snoc; intros ->; discriminate EW).
    assert (WF : willReset h = false) by (destruct (willReset h); [exfalso; apply NX, WR; reflexivity|reflexivity]).
    assert (NC : c <> LF).
    { intros ->. apply ends_word_in in EW. rewrite <- app_assoc in E. exact (proj2 P _ _ _ E EW). }
    destruct (shows_put h line cur c h' SH WF NC (no_cr input P _ _ _ E) H) as (_ & B & A).
    exists line, cur. split; [exact S|]. split; [|exact A]. cbn [hist_pop willReset]. rewrite B. split; [discriminate|intros Q; contradiction].
  Qed.

  Lemma FI_batch pre m tl h h' : (length m <= 4)%nat -> m <> [] -> (length tl <= 1)%nat -> ~ In LF tl -> ~ In LF m -> FI pre h ->
    hist_puts h (m ++ tl) (length m) = Some h' -> FI (pre ++ m) h'.
  Proof.
    intros L4 NE LT NT NM (line & cur & S & WR & SH) H. destruct (shows_flush pre h line cur S WR SH) as (line' & cur' & NP & SF).
    destruct (puts_cases h m tl h' LT NT H) as [(_ & r & E & ->)|[(a & -> & _)|(a & b & -> & _)]].
    2,3: exfalso; apply NM, in_or_app; right; left; reflexivity.
    destruct SF as (HL & HW & l & R & RD & EL).
    destruct (ring_put_many_rep 45 (hring (hist_flush h)) l (m ++ tl) (length m) ltac:(lia) R ltac:(lia) ltac:(rewrite app_length; lia)) as (r' & E' & R' & RD').
    change (Z.of_nat 45) with ERROR_HISTORY_LEN in E'. rewrite E in E'. injection E' as <-.
    rewrite firstn_app, firstn_all, Nat.sub_diag, firstn_O, app_nil_r in R', RD'.
    assert (LM : (1 <= length m)%nat) by (destruct m; [congruence|cbn; lia]).
    assert (EL' : lastn 45 (l ++ m) = lastn 45 (cur' ++ m)).
    { destruct EL as [-> | ->]; apply lastn_app; lia. }
    rewrite EL' in *. specialize (RD' 1 RD).
    replace (length m =? 0)%nat with false in RD' by (symmetry; apply Nat.eqb_neq; lia). cbn [Z.max Z.sub] in RD'.
    assert (WB : written r = bump (written (hring (hist_flush h))) (Z.of_nat (length m))).
    { revert E. unfold ring_put_many. replace (Z.of_nat (length m) =? 0) with false by lia.
      destruct (put_skip _ _ _ _) as [it ct]. destruct (if _ <=? _ then _ else _) as [[[[cs it2] ct2] cw]|]; [|discriminate].
      destruct (cells_copy _ _ _ _) as [cs'|]; [|discriminate].
      destruct (_ =? _); [|destruct (_ <=? _)]; intros [= <-]; reflexivity. }
    exists line', (cur' ++ m). split; [apply next_chars; auto|]. split.
    - cbn [willReset]. split; [discriminate|]. rewrite ends_lf_app_ne by exact NE. intros (a & ->). exfalso. apply NM, in_or_app. right. left. reflexivity.
    - split; [exact HL|]. cbn [hring]. split; [rewrite WB, HW; apply col_of_bump|]. exists (lastn 45 (cur' ++ m)). split; [exact R'|].
      split; [unfold ring_ready in *; lia|left; reflexivity].
  Qed.

  Lemma full_told e params x : raised e params input x -> told input FI (fun _ => True) x.
  Proof.
    apply read_trace; clear x.
    - exists 1, []. split; [exact stands_nil|]. split; [split; [discriminate|intros (a & Q); destruct a; discriminate]|].
      split; [reflexivity|]. split; [reflexivity|]. exists []. destruct (@ring_init_rep ascii 45 ltac:(lia)) as [R0 D0]. change (hring hist_init) with (@ring_init ascii 45).
      split; [exact R0|]. split; [unfold ring_ready in *; lia|left; reflexivity].
    - intros pre h (line & cur & _ & _ & _ & _ & l & R & _). exact (proj1 R).
    - exact FI_put.
    - exact FI_pop.
    - auto.
    - intros pre four t h h' E L4 HI H. apply (FI_batch _ four [] h h'); rewrite ?L4, ?app_nil_r; auto.
      + intros ->. discriminate.
      + intros Q. apply in_split in Q. destruct Q as (w & b & ->). rewrite app_length in L4. cbn [length] in L4.
        pose proof (proj2 W pre w (b ++ t)) as K. rewrite E, <- !app_assoc in K. cbn [app] in K. specialize (K eq_refl). lia.
    - auto.
    - intros pre c three t h h' E C L3 HI H. apply (FI_batch _ three [NUL] h h'); rewrite ?L3; auto.
      + intros ->. discriminate.
      + intros [Q|[]]. discriminate.
      + intros Q. apply in_split in Q. destruct Q as (w & b & ->). rewrite app_length in L3. cbn [length] in L3.
        pose proof (proj1 W pre c w (b ++ t)) as K. rewrite E, <- !app_assoc in K. cbn [app] in K. specialize (K eq_refl C). lia.
    - auto.
  Qed.
End Full.

Lemma place_reported e params input x rest : plain_lines input -> whole_words input -> raised e params input x -> eoffset x = Some rest ->
  exists pre line cur k, input = pre ++ rest /\ stands pre line cur /\
    hist_col (ehist x) = (if line =? 1 then None else Some (Z.of_nat (length cur) mod 2 ^ 32)) /\
    (44 <= k <= 45)%nat /\ hist_text (ehist x) = map (fun c => Some (Some c)) (lastn k cur).
Proof.
  intros P W R E. pose proof (full_told input P W e params x R) as T. unfold told in T. rewrite E in T.
  destruct T as (pre & EI & line & cur & S & _ & _ & HC & l & RR & _ & EL).
  assert (HT : hist_text (ehist x) = map (fun c => Some (Some c)) l) by (apply (ring_rep_toString 45); [lia|exact RR]).
  destruct EL as [-> | ->]; [exists pre, line, cur, 45%nat|exists pre, line, cur, 44%nat]; repeat split; auto; lia.
Qed.

Lemma line_partial e params input x : plain_lines input -> raised e params input x ->
  exists pre line cur, read_before input x pre /\ stands pre line cur /\
    (hist_line (ehist x) = line mod 2 ^ 32 \/
     eoffset x = None /\ (exists a, input = a ++ [LF]) /\ hist_line (ehist x) = (line + 1) mod 2 ^ 32).
Proof.
  intros P R. pose proof (line_reported e params input x P R) as T. unfold read_before. destruct (eoffset x) as [rest|].
  - destruct T as (pre & line & cur & E & S & H). exists pre, line, cur. auto.
  - destruct T as (line & cur & S & H). exists input, line, cur. split; [reflexivity|]. split; [exact S|].
    destruct H as [H|H]; [auto|]. rewrite H. apply stands_line in S. rewrite S.
    destruct (match rev input with c :: _ => Ascii.eqb c LF | [] => false end) eqn:Q.
    + right. split; [reflexivity|]. apply rev_ends in Q. split; [exact Q|reflexivity].
    + left. cbn [b2z]. rewrite Z.add_0_r. reflexivity.
Qed.

Lemma place_partial e params input x : plain_lines input -> whole_words input -> raised e params input x -> eoffset x <> None ->
  exists pre line cur, read_before input x pre /\ stands pre line cur /\
    (line <> 1 -> hist_col (ehist x) = Some (Z.of_nat (length cur) mod 2 ^ 32)) /\
    exists k, (44 <= k <= 45)%nat /\ hist_text (ehist x) = map (fun c => Some (Some c)) (lastn k cur).
Proof.
  intros P W R E. destruct (eoffset x) as [rest|] eqn:EO; [|congruence].
  destruct (place_reported e params input x rest P W R EO) as (pre & line & cur & k & EI & S & C & K & T).
  exists pre, line, cur. unfold read_before. rewrite EO. split; [exact EI|]. split; [exact S|]. split; [|exists k; auto].
  intros N. rewrite C. replace (line =? 1) with false by lia. reflexivity.
Qed.

(** * The position is unique *)
Fixpoint until_lf (t : bytes) : bytes := match t with [] => [] | c :: t' => if Ascii.eqb c LF then [] else c :: until_lf t' end.
Definition here (t : bytes) : bytes :=
  rev (match rev t with [] => [] | c :: r => if Ascii.eqb c LF then until_lf r else until_lf (c :: r) end).

Lemma until_lf_app a b : ~ In LF a -> until_lf (a ++ b) = a ++ until_lf b.
Proof.
  induction a as [|c a IH]; intros N; [reflexivity|]. cbn [app until_lf].
  replace (Ascii.eqb c LF) with false; [rewrite IH; [reflexivity|intros Q; apply N; right; exact Q]|].
  symmetry. apply Ascii.eqb_neq. intros ->. apply N. left. reflexivity.
Qed.

Lemma stands_here t n cur : stands t n cur ->
  n = 1 + line_feeds t - b2z (match rev t with c :: _ => Ascii.eqb c LF | [] => false end) /\ cur = here t.
Proof.
  intros S. split; [apply stands_line in S; lia|]. destruct S as (ls & e & -> & HE & _ & N & _).
  assert (F : until_lf (rev (flat_map (fun l => l ++ [LF]) ls)) = []).
  { induction ls as [|l ls _] using rev_ind; [reflexivity|]. rewrite flat_map_app. cbn [flat_map]. rewrite app_nil_r, !rev_app_distr. reflexivity. }
  assert (NR : ~ In LF (rev cur)) by (rewrite <- in_rev; exact N).
  unfold here. rewrite !rev_app_distr. destruct HE as [[-> HC]| ->].
  - cbn [rev app]. destruct (rev cur) as [|c r] eqn:EC.
    + assert (cur = []) by (rewrite <- (rev_involutive cur), EC; reflexivity). subst cur. rewrite HC by reflexivity. reflexivity.
    + cbn [app]. replace (Ascii.eqb c LF) with false by (symmetry; apply Ascii.eqb_neq; intros ->; apply NR; left; reflexivity).
      change (c :: r ++ rev (flat_map (fun l => l ++ [LF]) ls)) with ((c :: r) ++ rev (flat_map (fun l => l ++ [LF]) ls)).
      rewrite until_lf_app, F, app_nil_r, <- EC, rev_involutive by exact NR. reflexivity.
  - cbn [rev app]. change (Ascii.eqb LF LF) with true. cbv iota. rewrite until_lf_app, F, app_nil_r, rev_involutive by exact NR. reflexivity.
Qed.

Lemma read_before_eq input x pre pre' : read_before input x pre -> read_before input x pre' -> pre = pre'.
Proof. unfold read_before. destruct (eoffset x); [intros -> E; apply app_inv_tail in E; exact E|congruence]. Qed.

(** * Deciding the hypotheses (for the examples) *)
Fixpoint allsuf (p : bytes -> bool) (t : bytes) : bool :=
  p t && match t with [] => true | _ :: t' => allsuf p t' end.
Lemma allsuf_app p a s : allsuf p (a ++ s) = true -> p s = true.
Proof.
  induction a as [|c a IH]; cbn [app].
  - destruct s; cbn [allsuf]; intros H; apply andb_prop in H; apply H.
  - cbn [allsuf]. intros H. apply andb_prop in H. apply IH, H.
Qed.
Definition isin (c : ascii) (t : bytes) : bool := existsb (Ascii.eqb c) t.
Lemma isin_true c t : In c t -> isin c t = true.
Proof. intros H. apply existsb_exists. exists c. split; [exact H|apply Ascii.eqb_refl]. Qed.

Definition plain_linesb (t : bytes) : bool :=
  negb (isin CR t) && allsuf (fun s => match s with c :: d :: _ => negb (Ascii.eqb d LF && isin c (str "0123456789.-eE")) | _ => true end) t.
Lemma plain_linesb_ok t : plain_linesb t = true -> plain_lines t.
Proof.
  unfold plain_linesb. intros H. apply andb_prop in H. destruct H as [H1 H2]. split.
  - intros Q. apply isin_true in Q. rewrite Q in H1. discriminate.
  - intros a c b -> I. apply allsuf_app in H2. apply isin_true in I. rewrite I in H2. discriminate.
Qed.

Definition whole_wordsb (t : bytes) : bool :=
  allsuf (fun s => match s with c :: r => negb (isin c (str "nN") && isin LF (firstn 3 r)) | _ => true end) t &&
  allsuf (fun s => match s with c :: d :: r => negb (Ascii.eqb c BSLASH && Ascii.eqb d "u" && isin LF (firstn 4 r)) | _ => true end) t.
Lemma whole_wordsb_ok t : whole_wordsb t = true -> whole_words t.
Proof.
  unfold whole_wordsb. intros H. apply andb_prop in H. destruct H as [H1 H2].
  assert (K : forall k w b, (length w < k)%nat -> isin LF (firstn k (w ++ LF :: b)) = true).
  { intros k w b L. apply isin_true. rewrite firstn_app. apply in_or_app. right.
    destruct (k - length w)%nat eqn:Q; [lia|]. left. reflexivity. }
  split.
  - intros a n w b -> N. apply allsuf_app in H1. destruct (Nat.le_gt_cases 3 (length w)) as [L|L]; [exact L|]. exfalso.
    rewrite K in H1 by exact L. rewrite isin_true in H1; [discriminate|]. destruct N as [-> | ->]; cbn; auto.
  - intros a w b ->. apply allsuf_app in H2. destruct (Nat.le_gt_cases 4 (length w)) as [L|L]; [exact L|]. exfalso.
    rewrite K in H2 by exact L. discriminate.
Qed.

(** Key sequences and widths. *)
From Verif Require Import Spec.KeySpec.
From Coq Require Import Lia.
Open Scope Z_scope.

Section Keys.
  Variable kn : Z -> option bytes.

  Lemma dashed_nil n l : n <> [] -> dashed (n :: l) <> [].
  Proof. intros N. destruct l; cbn; [exact N|]. destruct n; [contradiction|discriminate]. Qed.
  Lemma dashed_snoc ns n : (forall m, In m ns -> prefix_name m) ->
    dashed (ns ++ [n]) = (match dashed ns with [] => [] | _ => dashed ns ++ str "-" end) ++ n.
  Proof.
    induction ns as [|m ns IH]; intros P; [reflexivity|].
    assert (E : exists t, m = "^"%char :: t) by (apply P; left; reflexivity). destruct E as (t & E).
    destruct ns as [|m' ns].
    - cbn [app dashed]. subst m. cbn [app]. rewrite <- !app_assoc. reflexivity.
    - change ((m :: m' :: ns) ++ [n]) with (m :: (m' :: ns) ++ [n]).
      change (dashed (m :: (m' :: ns) ++ [n])) with (m ++ str "-" ++ dashed ((m' :: ns) ++ [n])).
      change (dashed (m :: m' :: ns)) with (m ++ str "-" ++ dashed (m' :: ns)).
      rewrite IH by (intros x I; apply P; right; exact I).
      assert (N : dashed (m' :: ns) <> []).
      { apply dashed_nil. destruct (P m' (or_intror (or_introl eq_refl))) as (t' & ->). discriminate. }
      destruct (dashed (m' :: ns)) as [|a b] eqn:D; [contradiction|]. subst m. cbn [app]. rewrite <- !app_assoc. reflexivity.
  Qed.

  Lemma read_prefix before : forall ns ms k rest,
    Forall2 (named kn) (pressed before) ms -> (forall m, In m ms -> prefix_name m) -> (forall m, In m ns -> prefix_name m) ->
    k = (match rev ns with [] => None | m :: _ => Some m end) ->
    read_loop kn (dashed ns) k (before ++ rest) =
    read_loop kn (dashed (ns ++ ms)) (match rev (ns ++ ms) with [] => None | m :: _ => Some m end) rest.
  Proof.
    induction before as [|c before IH]; intros ns ms k rest F P Q ->.
    - inversion F. subst. rewrite app_nil_r. reflexivity.
    - cbn [app read_loop]. cbn [pressed filter] in F. destruct (c =? -1) eqn:C; cbn [negb] in F.
      + rewrite (IH ns ms _ rest F P Q eq_refl). replace (goes_on _) with true; [reflexivity|].
        destruct (rev ns) as [|m l] eqn:R; [reflexivity|]. destruct (Q m) as (t & ->); [apply in_rev; rewrite R; left; reflexivity|]. reflexivity.
      + inversion F as [|? m ? ms' H F' A B]. subst. rewrite H. destruct (P m (or_introl eq_refl)) as (t & E).
        replace (goes_on (Some m)) with true by (subst m; reflexivity).
        rewrite <- (dashed_snoc ns m Q). rewrite (IH (ns ++ [m]) ms' (Some m) rest F').
        * rewrite <- app_assoc. reflexivity.
        * intros x I. apply P. right. exact I.
        * intros x I. apply in_app_or in I. destruct I as [I|[<-|[]]]; [apply Q, I|exists t; exact E].
        * rewrite rev_app_distr. reflexivity.
  Qed.

  Lemma read_key before names k name after :
    Forall2 (named kn) (pressed before) names -> (forall m, In m names -> prefix_name m) ->
    k <> -1 -> named kn k name -> ~ prefix_name name ->
    read kn (before ++ k :: after) = ReadKey (dashed (names ++ [name])) after.
  Proof.
    intros F P K N NP. unfold read. change (@nil ascii) with (dashed []) at 1.
    rewrite (read_prefix before [] names None _ F P) by (try reflexivity; intros m []). cbn [app read_loop].
    replace (k =? -1) with false by (symmetry; apply Z.eqb_neq; exact K). rewrite N.
    replace (goes_on (Some name)) with false.
    - f_equal. symmetry. exact (dashed_snoc names name P).
    - destruct name as [|a t]; [reflexivity|]. cbn. symmetry. apply Ascii.eqb_neq. intros ->. apply NP. exists t. reflexivity.
  Qed.
  Lemma read_waits before names :
    Forall2 (named kn) (pressed before) names -> (forall m, In m names -> prefix_name m) -> read kn before = NeedsMore (dashed names).
  Proof.
    intros F P. unfold read. change (@nil ascii) with (dashed []). rewrite <- (app_nil_r before) at 1.
    rewrite (read_prefix before [] names None [] F P) by (try reflexivity; intros m []). reflexivity.
  Qed.
  Lemma read_null before names k after :
    Forall2 (named kn) (pressed before) names -> (forall m, In m names -> prefix_name m) -> k <> -1 -> kn (toupper k) = None ->
    read kn (before ++ k :: after) = NullName.
  Proof.
    intros F P K N. unfold read. change (@nil ascii) with (dashed []) at 1.
    rewrite (read_prefix before [] names None _ F P) by (try reflexivity; intros m []). cbn [app read_loop].
    replace (k =? -1) with false by (symmetry; apply Z.eqb_neq; exact K). rewrite N. reflexivity.
  Qed.
End Keys.

Section Widths.
  Variable mb : bytes -> option nat.

  Lemma convert_chars cs : forall fuel rest, Forall (character mb) cs -> (length (concat cs) <= fuel)%nat ->
    convert mb fuel (concat cs ++ rest) = let '(n, b) := convert mb (fuel - length cs) rest in ((length cs + n)%nat, b).
  Proof.
    induction cs as [|c cs IH]; intros fuel rest F L.
    - cbn. replace (fuel - 0)%nat with fuel by lia. destruct (convert mb fuel rest). reflexivity.
    - inversion_clear F as [|? ? [(a & t & E & N) M] F']. subst c. cbn [concat] in *. rewrite app_length in L. cbn [length] in L.
      destruct fuel as [|fuel]; [lia|]. rewrite <- app_assoc. cbn [convert app]. apply Ascii.eqb_neq in N. rewrite N.
      specialize (M (concat cs ++ rest)). cbn [app length] in M. rewrite M. cbn [skipn].
      rewrite skipn_app, skipn_all, Nat.sub_diag. cbn [skipn app]. rewrite IH by (auto; lia). cbn [length Nat.sub].
      destruct (convert mb (fuel - length cs) rest). reflexivity.
  Qed.
  Lemma chars_length cs : Forall (character mb) cs -> (length cs <= length (concat cs))%nat /\
    (Exists (fun c => (1 < length c)%nat) cs -> (length cs < length (concat cs))%nat) /\
    (Forall (fun c => length c = 1%nat) cs -> length cs = length (concat cs)).
  Proof.
    induction 1 as [|c cs [(a & t & -> & N) _] F (A & B & C)]; cbn [concat length] in *.
    - split; [lia|]. split; [intros E; inversion E|reflexivity].
    - rewrite app_length. cbn [length]. split; [lia|]. split.
      + intros E. inversion_clear E as [? ? E1|? ? E1]; [cbn in E1; lia|]. specialize (B E1). lia.
      + intros G. inversion_clear G as [|? ? G1 G2]. cbn in G1. rewrite <- (C G2). lia.
  Qed.

  Lemma lazy_chars cs : Forall (character mb) cs -> Exists (fun c => (1 < length c)%nat) cs ->
    lazystrlen mb 0 (concat cs) = Width (length cs).
  Proof.
    intros F E. unfold lazystrlen. assert (C := convert_chars cs (length (concat cs)) [] F (le_n _)).
    rewrite app_nil_r in C. destruct (chars_length cs F) as (_ & B & _). specialize (B E).
    destruct (concat cs) as [|a t] eqn:Q; [cbn in B; lia|]. rewrite C. replace (convert mb _ []) with (0%nat, true) by (destruct (length (a :: t) - length cs)%nat; reflexivity).
    rewrite Nat.add_0_r. rewrite (proj2 (Nat.ltb_lt _ _) B). reflexivity.
  Qed.
  Lemma lazy_bytes cs : Forall (character mb) cs -> cs <> [] -> Forall (fun c => length c = 1%nat) cs ->
    lazystrlen mb 0 (concat cs) = OutOfBounds.
  Proof.
    intros F NE E. unfold lazystrlen. assert (C := convert_chars cs (length (concat cs)) [] F (le_n _)).
    rewrite app_nil_r in C. destruct (chars_length cs F) as (_ & _ & B). specialize (B E).
    destruct (concat cs) as [|a t] eqn:Q; [destruct cs; [contradiction|discriminate]|]. rewrite C.
    replace (convert mb _ []) with (0%nat, true) by (destruct (length (a :: t) - length cs)%nat; reflexivity).
    rewrite Nat.add_0_r, B, Nat.ltb_irrefl. reflexivity.
  Qed.
  Lemma lazy_invalid cs a rest : Forall (character mb) cs -> a <> NUL -> mb (a :: rest) = None ->
    lazystrlen mb 0 (concat cs ++ a :: rest) = Uninitialised.
  Proof.
    intros F N M. unfold lazystrlen. destruct (chars_length cs F) as (L & _).
    assert (C := convert_chars cs (length (concat cs ++ a :: rest)) (a :: rest) F ltac:(rewrite app_length; lia)).
    destruct (concat cs ++ a :: rest) as [|x y] eqn:Q; [destruct (concat cs); discriminate|]. rewrite C.
    assert (G : (0 < length (x :: y) - length cs)%nat) by (rewrite <- Q, app_length; cbn; lia).
    destruct (length (x :: y) - length cs)%nat as [|f]; [lia|]. cbn [convert]. apply Ascii.eqb_neq in N. rewrite N, M. reflexivity.
  Qed.
  Lemma lazy_nul cs rest : Forall (character mb) cs -> lazystrlen mb 0 (concat cs ++ NUL :: rest) = Width (length cs).
  Proof.
    intros F. unfold lazystrlen. destruct (chars_length cs F) as (L & _).
    assert (C := convert_chars cs (length (concat cs ++ NUL :: rest)) (NUL :: rest) F ltac:(rewrite app_length; lia)).
    destruct (concat cs ++ NUL :: rest) as [|x y] eqn:Q; [destruct (concat cs); discriminate|]. rewrite C.
    assert (G : (length cs < length (x :: y))%nat) by (rewrite <- Q, app_length; cbn; lia).
    replace (convert mb _ (NUL :: rest)) with (0%nat, true).
    - rewrite Nat.add_0_r, (proj2 (Nat.ltb_lt _ _) G). reflexivity.
    - destruct (length (x :: y) - length cs)%nat eqn:Z; [lia|reflexivity].
  Qed.
  Lemma strlen_never a s n : a <> NUL -> strlen mb 0 (a :: s) <> Width n.
  Proof. intros N. unfold strlen. apply Ascii.eqb_neq in N. rewrite N. destruct (mb (a :: s)), s; discriminate. Qed.
End Widths.

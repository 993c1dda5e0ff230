(** Which patterns of searches are lost. *)
From Verif Require Import Spec.PatternMemSpec.
From Coq Require Import Lia.

Lemma pgoes_app s l s' l' s'' : pgoes s l s' -> pgoes s' l' s'' -> pgoes s (l ++ l') s''.
Proof. intros H. revert l' s''. induction H as [s|s c s1 l s2 M H IH]; intros m t G; [exact G|]. cbn. econstructor; [exact M|]. apply IH. exact G. Qed.

(** * Patterns without text *)
Lemma eval_flag_empty p c : isEmpty (eval_flag p c) = isEmpty p.
Proof. unfold eval_flag. repeat (destruct (Ascii.eqb c _); [try reflexivity|]); try reflexivity. unfold isEmpty. cbn. destruct (pat p); reflexivity. Qed.
Lemma eval_flags_empty s : forall p, isEmpty (eval_flags p s) = isEmpty p.
Proof. induction s as [|c t IH]; intros p; [reflexivity|]. cbn [eval_flags]. destruct (Ascii.eqb c NUL); [reflexivity|]. rewrite IH. apply eval_flag_empty. Qed.
Lemma scan_kept s : forall e acc, acc <> [] -> fst (scan_pattern s e acc) <> [].
Proof.
  assert (N : forall (acc x : bytes), acc <> [] -> acc ++ x <> []) by (intros [|c acc] x H; [destruct H; reflexivity|discriminate]).
  induction s as [|c t IH]; intros e acc H; cbn [scan_pattern fst]; [exact H|]. destruct (Ascii.eqb c NUL); [exact H|]. destruct e.
  - destruct (Ascii.eqb c "/"); apply IH, N, H.
  - destruct (Ascii.eqb c BSLASH); [apply IH, H|]. destruct (Ascii.eqb c "/"); [exact H|]. apply IH, N, H.
Qed.
Lemma made_empty junk s : isEmpty (SearchPattern junk s) = true <-> fst (scan_pattern (skip_blanks s) false []) = [].
Proof.
  unfold SearchPattern. destruct (scan_pattern (skip_blanks s) false []) as [text [f|]]; [rewrite eval_flags_empty|]; unfold isEmpty; cbn; destruct text; split; congruence.
Qed.
Lemma scan_empty s : fst (scan_pattern s false []) = [] <-> (s = [] \/ (exists t, s = "/"%char :: t) \/ (exists t, s = NUL :: t) \/ s = [BSLASH] \/ (exists t, s = BSLASH :: NUL :: t)).
Proof.
  split.
  - destruct s as [|c t]; [left; reflexivity|]. cbn [scan_pattern]. destruct (Ascii.eqb_spec c NUL) as [->|N]; [intros _; right; right; left; eexists; reflexivity|].
    destruct (Ascii.eqb_spec c BSLASH) as [->|B].
    + destruct t as [|d t]; [intros _; right; right; right; left; reflexivity|]. cbn [scan_pattern]. destruct (Ascii.eqb_spec d NUL) as [->|N']; [intros _; right; right; right; right; eexists; reflexivity|].
      destruct (Ascii.eqb d "/"); intros E; (apply scan_kept in E; [destruct E|discriminate]).
    + destruct (Ascii.eqb_spec c "/") as [->|D]; [intros _; right; left; eexists; reflexivity|]. intros E. apply scan_kept in E; [destruct E|discriminate].
  - intros [->|[[t ->]|[[t ->]|[->|[t ->]]]]]; reflexivity.
Qed.
Lemma skip_split s : exists b, s = b ++ skip_blanks s /\ Forall blank b.
Proof.
  induction s as [|c t (b & E & F)]; [exists []; split; [reflexivity|constructor]|]. cbn [skip_blanks]. destruct (Ascii.eqb_spec c " ") as [->|N]; cbn [orb].
  - exists (" "%char :: b). split; [cbn; congruence|]. constructor; [left; reflexivity|exact F].
  - destruct (Ascii.eqb_spec c TAB) as [->|N']; [|exists []; split; [reflexivity|constructor]]. exists (TAB :: b). split; [cbn; congruence|]. constructor; [right; reflexivity|exact F].
Qed.
Lemma skip_blank b r : Forall blank b -> skip_blanks (b ++ r) = skip_blanks r.
Proof. induction 1 as [|c b [->| ->] F IH]; [reflexivity| |]; cbn; exact IH. Qed.
Lemma empty_spec junk s : isEmpty (SearchPattern junk s) = true <-> says_nothing s.
Proof.
  rewrite made_empty, scan_empty. split.
  - intros H. destruct (skip_split s) as (b & E & F). exists b, (skip_blanks s). auto.
  - intros (b & r & -> & F & H). rewrite (skip_blank b r F).
    destruct H as [->|[[t ->]|[[t ->]|[->|[t ->]]]]]; cbn; [left|right; left; eexists|right; right; left; eexists|right; right; right; left|right; right; right; right; eexists]; reflexivity.
Qed.

(** * Memory *)
(** The objects a search leaves. *)
Definition left_by (k : nat) (a : prompt) : list obj :=
  match a with
  | (None, _, _) => []
  | (Some typed, junk, _) => let p := SearchPattern junk typed in if isEmpty p then (if fregex p then [(k, true)] else []) ++ [(k, false)] else []
  end.
Fixpoint left_all (k : nat) (l : list prompt) : list obj := match l with [] => [] | a :: l => left_all (S k) l ++ left_by k a end.

Lemma matches_goes k p es s : In (k, false) s -> (fregex p = true -> In (k, true) s) -> pgoes s (flat_map (pattern_match k p) es) s.
Proof.
  intros I R. induction es as [|t es IH]; [constructor|]. cbn [flat_map]. apply (pgoes_app _ _ s); [|exact IH]. unfold pattern_match. econstructor; [constructor; exact I|].
  destruct (type_ok (ftype p) t); [|constructor]. destruct (fregex p); (econstructor; [constructor; auto|constructor]).
Qed.
Lemma search_goes k a s : (forall b, ~ In (k, b) s) -> pgoes s (initSearch_mem k a) (left_by k a ++ s).
Proof.
  intros N. destruct a as [[[typed|] junk] es]; [|constructor]. cbn [initSearch_mem left_by]. set (p := SearchPattern junk typed).
  assert (G : pgoes s (pattern_new k p) ((if fregex p then [(k, true)] else []) ++ (k, false) :: s)).
  { unfold pattern_new. econstructor; [constructor; apply N|]. econstructor; [constructor; left; reflexivity|]. destruct (fregex p); [|constructor].
    econstructor; [constructor|constructor]. intros [E|I]; [discriminate E|exact (N true I)]. }
  apply (pgoes_app _ _ _ _ _ G). econstructor; [constructor; apply in_or_app; right; left; reflexivity|].
  destruct (isEmpty p); [rewrite <- app_assoc; constructor|]. apply (pgoes_app _ _ ((if fregex p then [(k, true)] else []) ++ (k, false) :: s)).
  - apply matches_goes; [apply in_or_app; right; left; reflexivity|]. intros ->. left. reflexivity.
  - unfold pattern_delete. econstructor; [constructor; apply in_or_app; right; left; reflexivity|].
    assert (D : pmay ((k, false) :: s) (PDelete (k, false)) s).
    { constructor; [left; reflexivity|]. intros x. split.
      - intros I. split; [right; exact I|]. intros ->. exact (N false I).
      - intros [[E|I] Q]; [destruct Q; symmetry; exact E|exact I]. }
    destruct (fregex p); cbn [app].
    + econstructor; [|econstructor; [exact D|constructor]]. constructor; [left; reflexivity|]. intros x. split.
      * intros I. split; [right; exact I|]. intros ->. destruct I as [E|I]; [discriminate E|exact (N true I)].
      * intros [[E|I] Q]; [destruct Q; symmetry; exact E|exact I].
    + econstructor; [exact D|constructor].
Qed.
Lemma left_by_in k a j b : In (j, b) (left_by k a) -> j = k.
Proof.
  destruct a as [[[typed|] junk] es]; cbn; [|tauto]. destruct (isEmpty _); [|intros []]. rewrite in_app_iff. intros [I|[I|[]]]; [|congruence].
  destruct (fregex _); [destruct I as [I|[]]; congruence|destruct I].
Qed.
Lemma searches_goes l : forall k s, (forall j b, In (j, b) s -> (j < k)%nat) -> pgoes s (searches_mem k l) (left_all k l ++ s).
Proof.
  induction l as [|a l IH]; intros k s B; [constructor|]. cbn [searches_mem left_all]. rewrite <- app_assoc. apply (pgoes_app _ _ (left_by k a ++ s)).
  - apply search_goes. intros b I. apply B in I. lia.
  - apply IH. intros j b I. apply in_app_iff in I. destruct I as [I|I]; [apply left_by_in in I; lia|]. apply B in I. lia.
Qed.
Lemma left_by_spec k a b : In (k, b) (left_by k a) <-> exists typed junk es, a = (Some typed, junk, es) /\ says_nothing typed /\ (b = true -> fregex (SearchPattern junk typed) = true).
Proof.
  split.
  - destruct a as [[[typed|] junk] es]; cbn; [|tauto]. intros I. exists typed, junk, es. split; [reflexivity|]. destruct (isEmpty _) eqn:E; [|destruct I]. apply empty_spec in E. split; [exact E|].
    intros ->. apply in_app_iff in I. destruct I as [I|[I|[]]]; [|discriminate I]. destruct (fregex _); [reflexivity|destruct I].
  - intros (typed & junk & es & -> & N & R). cbn. apply (empty_spec junk) in N. rewrite N. apply in_or_app. destruct b; [left; rewrite R by reflexivity; left; reflexivity|right; left; reflexivity].
Qed.
Lemma left_all_spec l : forall k j b, In (j, b) (left_all k l) <-> (k <= j)%nat /\
  exists typed junk es, nth_error l (j - k) = Some (Some typed, junk, es) /\ says_nothing typed /\ (b = true -> fregex (SearchPattern junk typed) = true).
Proof.
  induction l as [|a l IH]; intros k j b; cbn [left_all].
  - split; [intros []|]. intros (_ & typed & junk & es & E & _). destruct (j - k)%nat; discriminate E.
  - rewrite in_app_iff, IH. split.
    + intros [[L (typed & junk & es & E & R)]|I].
      * split; [lia|]. exists typed, junk, es. replace (j - k)%nat with (S (j - S k)) by lia. split; [exact E|exact R].
      * assert (Q := left_by_in _ _ _ _ I). subst j. split; [lia|]. apply left_by_spec in I. destruct I as (typed & junk & es & -> & R). exists typed, junk, es. rewrite Nat.sub_diag. split; [reflexivity|exact R].
    + intros [L (typed & junk & es & E & R)]. destruct (Nat.eq_dec j k) as [->|D].
      * right. apply left_by_spec. rewrite Nat.sub_diag in E. injection E as E. exists typed, junk, es. split; [exact E|exact R].
      * left. split; [lia|]. exists typed, junk, es. replace (j - k)%nat with (S (j - S k)) in E by lia. split; [exact E|exact R].
Qed.
Lemma searches_left l : exists s, pgoes [] (searches_mem 0 l) s /\ forall j b, In (j, b) s <->
  exists typed junk es, nth_error l j = Some (Some typed, junk, es) /\ says_nothing typed /\ (b = true -> fregex (SearchPattern junk typed) = true).
Proof.
  exists (left_all 0 l). split.
  - rewrite <- (app_nil_r (left_all 0 l)). apply searches_goes. intros j b [].
  - intros j b. rewrite left_all_spec, Nat.sub_0_r. split; [intros [_ H]; exact H|intros H; split; [lia|exact H]].
Qed.
Lemma searches_clean l : (forall typed junk es, In (Some typed, junk, es) l -> ~ says_nothing typed) -> pgoes [] (searches_mem 0 l) [].
Proof.
  intros H. destruct (searches_left l) as (s & G & W). destruct s as [|[j b] s]; [exact G|]. destruct (proj1 (W j b) (or_introl eq_refl)) as (typed & junk & es & E & N & _).
  destruct (H typed junk es (nth_error_In _ _ E) N).
Qed.
(** What there is afterwards is determined. *)
Lemma pgoes_unique s l s1 : pgoes s l s1 -> forall t t1, (forall x, In x s <-> In x t) -> pgoes t l t1 -> forall x, In x s1 <-> In x t1.
Proof.
  induction 1 as [s|s c s1 l s2 M H IH]; intros t t1 Q G; inversion G as [|t0 c0 t2 l0 t3 M' H']; subst; [exact Q|].
  apply (IH t2 t1); [|exact H']. intros x. inversion M; subst; inversion M'; subst; cbn.
  - specialize (Q x). tauto.
  - apply Q.
  - rewrite H1, H4, Q. reflexivity.
Qed.

(** The patterns of searches in memory: C100. *)
From Verif Require Import Spec.PatternMemSpec.
From Verif Require Proofs.PatternMemProofs.
From Coq Require Import Lia.

(** C100: patterns and their regular expressions are used only while they are there
    and deleted once; afterwards none is left.  True if something is searched for
    whenever Enter is pressed. *)
Theorem C100_partial : forall l, (forall typed junk es, In (Some typed, junk, es) l -> ~ says_nothing typed) -> pgoes [] (searches_mem 0 l) [].
Proof. exact PatternMemProofs.searches_clean. Qed.
Print Assumptions C100_partial.

(** Exactly the patterns without text are left, with their regular expressions. *)
Theorem C100_lost : forall l, exists s, pgoes [] (searches_mem 0 l) s /\ forall j b, In (j, b) s <->
  exists typed junk es, nth_error l j = Some (Some typed, junk, es) /\ says_nothing typed /\ (b = true -> fregex (SearchPattern junk typed) = true).
Proof. exact PatternMemProofs.searches_left. Qed.
Print Assumptions C100_lost.

(** Nothing else can be left. *)
Theorem C100_unique : forall s l s1 s2, pgoes s l s1 -> pgoes s l s2 -> forall x, In x s1 <-> In x s2.
Proof. intros s l s1 s2 G1 G2. apply (PatternMemProofs.pgoes_unique s l s1 G1 s s2); [tauto|exact G2]. Qed.
Print Assumptions C100_unique.

(** " /e": nothing to search for, as a regular expression. *)
Theorem C100_refuted : exists l, ~ pgoes [] (searches_mem 0 l) [] /\ pgoes [] (searches_mem 0 l) [(0%nat, true); (0%nat, false)].
Proof.
  exists [(Some (str " /e"), 0, [])]. assert (G : pgoes [] (searches_mem 0 [(Some (str " /e"), 0, [])]) [(0%nat, true); (0%nat, false)]).
  { apply (PatternMemProofs.searches_goes [(Some (str " /e"), 0, [])] 0 []). intros j b []. }
  split; [|exact G]. intros G'. destruct (proj1 (C100_unique _ _ _ _ G G' (0%nat, true)) (or_introl eq_refl)).
Qed.
Print Assumptions C100_refuted.

(** Escape, "a" in a document of a string and null, and "b/es" in the same. *)
Definition three_prompts : list prompt := [(None, 0, []); (Some (str "a"), 0, [EPrim (PStr (str "cat")); EPrim PNull]); (Some (str "b/es"), 0, [EPrim (PStr (str "cab")); EPrim PNull])].
Example C100_example : (forall typed junk es, In (Some typed, junk, es) three_prompts -> ~ says_nothing typed) /\
  searches_mem 0 three_prompts =
    [PNew (1%nat, false); PUse (1%nat, false); PUse (1%nat, false); PUse (1%nat, false); PUse (1%nat, false); PUse (1%nat, false); PUse (1%nat, false); PUse (1%nat, false); PDelete (1%nat, false);
     PNew (2%nat, false); PUse (2%nat, false); PNew (2%nat, true); PUse (2%nat, false); PUse (2%nat, false); PUse (2%nat, true); PUse (2%nat, false); PUse (2%nat, false);
     PDelete (2%nat, true); PDelete (2%nat, false)] /\
  ~ pgoes [] [PNew (1%nat, false); PDelete (1%nat, false); PDelete (1%nat, false)] [] /\
  says_nothing (str "  ") /\ says_nothing (str "/i") /\ says_nothing [BSLASH] /\ ~ says_nothing (str " a").
Proof.
  assert (N : forall s, isEmpty (SearchPattern 0 s) = false -> ~ says_nothing s) by (intros s E Q; apply (PatternMemProofs.empty_spec 0) in Q; congruence).
  split; [|split; [vm_compute; reflexivity|split; [|split; [|split; [|split]]]]].
  - intros typed junk es I. apply N. repeat (destruct I as [I|I]; [first [discriminate I|injection I as <- _ _; vm_compute; reflexivity]|]). destruct I.
  - intros G. repeat match goal with H : pgoes _ (_ :: _) _ |- _ => inversion H; clear H; subst | M : pmay _ _ _ |- _ => inversion M; clear M; subst end.
    match goal with K : In ?o ?w, E : forall x, In x ?w <-> _ |- _ => apply E in K; destruct K as [_ K]; apply K; reflexivity end.
  - apply (PatternMemProofs.empty_spec 0). vm_compute. reflexivity.
  - apply (PatternMemProofs.empty_spec 0). vm_compute. reflexivity.
  - apply (PatternMemProofs.empty_spec 0). vm_compute. reflexivity.
  - apply N. vm_compute. reflexivity.
Qed.

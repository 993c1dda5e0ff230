(** The options of the usage text and those that are accepted. *)
From Verif Require Import Spec.UsageSpec.
From Verif Require Proofs.ParserBase.

Lemma beqb_true a b : beqb a b = true -> a = b.
Proof. apply ParserBase.beqb_eq. Qed.
Lemma mentioned_in a : In a (options_in usage) -> In a [str "--"; str "--diff"; str "--compress"; str "-W"; str "--ascii"; str "--keep-order"; str "--color"; str "--diff-cmd"; str "-v"; str "-version"; str "-h"; str "--helph"].
Proof.
  intros I. let v := eval vm_compute in (options_in usage) in change (In a v) in I.
  repeat (destruct I as [<-|I]; [vm_compute; repeat (first [left; reflexivity|right])|]). destruct I.
Qed.
Lemma documented_accepted opens p a : In a (options_in usage) -> a <> str "-version" -> a <> str "--helph" -> read_option opens p a <> PError (EInvalid a).
Proof.
  intros I N1 N2. apply mentioned_in in I. destruct p as [st asc col so com df cmd inp ind txt wr].
  repeat (destruct I as [<-|I]; [first [destruct N1; reflexivity|destruct N2; reflexivity|cbn; destruct cmd; discriminate]|]). destruct I.
Qed.
Lemma wrong_rejected opens p a : a = str "-version" \/ a = str "--helph" -> read_option opens p a = PError (EInvalid a).
Proof. destruct p as [st asc col so com df cmd inp ind txt wr]. intros [->| ->]; reflexivity. Qed.
Lemma accepted_documented opens p a : starts (str "-") a = true -> read_option opens p a <> PError (EInvalid a) ->
  In a (options_in usage) \/ a = str "--help" \/ a = str "--version" \/ exists m, a = str "--color=" ++ m.
Proof.
  intros D. destruct p as [st asc col so com df cmd inp ind txt wr]. unfold read_option.
  assert (M : forall o, In o [str "--"; str "--diff"; str "--compress"; str "-W"; str "--ascii"; str "--keep-order"; str "--color"; str "--diff-cmd"; str "-v"; str "-h"] -> In o (options_in usage)).
  { intros o I. let v := eval vm_compute in (options_in usage) in change (In o v). repeat (destruct I as [<-|I]; [vm_compute; repeat (first [left; reflexivity|right])|]). destruct I. }
  assert (K : forall o, In o [str "--"; str "--diff"; str "--compress"; str "-W"; str "--ascii"; str "--keep-order"; str "--color"; str "--diff-cmd"; str "-v"; str "-h"] -> a = o ->
    In a (options_in usage) \/ a = str "--help" \/ a = str "--version" \/ exists m, a = str "--color=" ++ m) by (intros o I ->; left; apply M, I).
  assert (S : forall q s, starts q s = true -> exists m, s = q ++ m).
  { intros q. induction q as [|x q IH]; intros s H; [exists s; reflexivity|]. destruct s as [|y s]; [discriminate H|]. cbn in H. apply andb_prop in H. destruct H as [H1 H2].
    apply Ascii.eqb_eq in H1. destruct (IH s H2) as [m ->]. subst y. exists m. reflexivity. }
  destruct (beqb a (str "--")) eqn:E; [intros _; apply (K (str "--")); [cbn; tauto|apply beqb_true, E]|clear E].
  destruct (beqb a (str "-W")) eqn:E; [intros _; apply (K (str "-W")); [cbn; tauto|apply beqb_true, E]|clear E].
  destruct (beqb a (str "--ascii")) eqn:E; [intros _; apply (K (str "--ascii")); [cbn; tauto|apply beqb_true, E]|clear E].
  destruct (beqb a (str "--color")) eqn:E; [intros _; apply (K (str "--color")); [cbn; tauto|apply beqb_true, E]|clear E].
  destruct (beqb a (str "--diff")) eqn:E; [intros _; apply (K (str "--diff")); [cbn; tauto|apply beqb_true, E]|clear E].
  destruct (beqb a (str "--compress")) eqn:E; [intros _; apply (K (str "--compress")); [cbn; tauto|apply beqb_true, E]|clear E].
  destruct (beqb a (str "--help")) eqn:E; [intros _; right; left; apply beqb_true, E|clear E]. cbn [orb].
  destruct (beqb a (str "-h")) eqn:E; [intros _; apply (K (str "-h")); [cbn; tauto|apply beqb_true, E]|clear E].
  destruct (beqb a (str "--version")) eqn:E; [intros _; right; right; left; apply beqb_true, E|clear E]. cbn [orb].
  destruct (beqb a (str "-v")) eqn:E; [intros _; apply (K (str "-v")); [cbn; tauto|apply beqb_true, E]|clear E].
  destruct (beqb a (str "--keep-order")) eqn:E; [intros _; apply (K (str "--keep-order")); [cbn; tauto|apply beqb_true, E]|clear E].
  destruct (beqb a (str "--diff-cmd")) eqn:E; [intros _; apply (K (str "--diff-cmd")); [cbn; tauto|apply beqb_true, E]|clear E].
  destruct (starts (str "--color=") a) eqn:E; [intros _; right; right; right; apply S, E|clear E]. rewrite D. intros H. destruct H. reflexivity.
Qed.

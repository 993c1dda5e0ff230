(** More fuel does not change an outcome. *)
From Verif Require Export Proofs.ParserTerm.
Open Scope Z_scope.

Definition mle {A} (m1 m2 : M A) : Prop := forall s, m1 s = OutOfFuel \/ m1 s = m2 s.

Lemma mle_refl {A} (m : M A) : mle m m.
Proof. intros s. auto. Qed.

Lemma mle_bind {A B} (m1 m2 : M A) (k1 k2 : A -> M B) :
  mle m1 m2 -> (forall a, mle (k1 a) (k2 a)) -> mle (bind m1 k1) (bind m2 k2).
Proof.
  intros H K s. unfold bind. destruct (H s) as [E|E]; rewrite E; [auto|].
  destruct (m2 s) as [[a s']| | | |]; auto. apply K.
Qed.

Section Fuel.
  Variable e : env.
  Variable params : option cfg.

  Lemma readArray_with_le l1 l2 parent : (forall t, mle (l1 parent t) (l2 parent t)) ->
    mle (readArray_with e params l1 parent) (readArray_with e params l2 parent).
  Proof.
    intros H. unfold readArray_with. apply mle_bind; [apply mle_refl|]. intros [n|b]; [apply H|].
    destruct (beqb b (str "]")); [apply mle_refl|apply H].
  Qed.

  Lemma readNext_with_le o1 o2 a1 a2 parent : mle (o1 parent) (o2 parent) -> mle (a1 parent) (a2 parent) ->
    mle (readNext_with e params o1 a1 parent) (readNext_with e params o2 a2 parent).
  Proof.
    intros HO HA. unfold readNext_with. apply mle_bind; [apply mle_refl|]. intros [n|b]; [apply mle_refl|].
    destruct (beqb b (str "{")); [apply mle_bind; [exact HO|intros; apply mle_refl]|].
    destruct (beqb b (str "[")); [apply mle_bind; [exact HA|intros; apply mle_refl]|apply mle_refl].
  Qed.

  Lemma loops_le f : forall g, (f <= g)%nat ->
    (forall parent result, mle (object_loop e params f parent result) (object_loop e params g parent result)) /\
    (forall parent result t, mle (array_loop e params f parent result t) (array_loop e params g parent result t)).
  Proof.
    induction f as [|f IH]; intros g L.
    { split; intros; intros s; left; reflexivity. }
    destruct g as [|g]; [lia|]. destruct (IH g ltac:(lia)) as [IHO IHA]. split.
    - intros parent result. cbn [object_loop]. apply mle_bind; [apply mle_refl|].
      intros [n|b]; [|apply mle_refl]. destruct n as [m p|m l|m l]; try apply mle_refl.
      destruct p; try apply mle_refl. apply mle_bind; [apply mle_refl|]. intros t2.
      destruct (match t2 with TTok b => beqb b (str ":") | TElem _ => false end); [|apply mle_refl].
      apply mle_bind; [apply mle_refl|]. intros r. apply mle_bind.
      + apply readNext_with_le; [apply IHO|]. apply readArray_with_le. intros. apply IHA.
      + intros [v|]; [|apply mle_refl]. apply mle_bind; [apply mle_refl|]. intros i.
        cbv zeta. apply mle_bind; [apply mle_refl|]. intros [n|b]; [apply mle_refl|].
        destruct (beqb b (str "}")); [apply mle_refl|]. apply IHO.
    - intros parent result t. cbn [array_loop]. apply mle_bind.
      + destruct t as [n|b]; [apply mle_refl|].
        destruct (beqb b (str "[")); [apply readArray_with_le; intros; apply IHA|].
        destruct (beqb b (str "{")); [apply IHO|apply mle_refl].
      + intros n. apply mle_bind; [apply mle_refl|]. intros r. cbv zeta. apply mle_bind; [apply mle_refl|].
        intros [n'|b]; [apply mle_refl|]. destruct (beqb b (str "]")); [apply mle_refl|].
        destruct (negb (beqb b (str ","))); [apply mle_refl|].
        apply mle_bind; [apply mle_refl|]. intros t3. apply IHA.
  Qed.

  Lemma readNext_le f g parent : (f <= g)%nat -> mle (readNext e params f parent) (readNext e params g parent).
  Proof.
    intros L. destruct (loops_le f g L) as [HO HA]. unfold readNext. apply readNext_with_le.
    - apply HO.
    - apply readArray_with_le. intros. apply HA.
  Qed.

  Lemma readNext_mono f g parent s r : (f <= g)%nat -> readNext e params f parent s = r -> r <> OutOfFuel ->
    readNext e params g parent s = r.
  Proof. intros L E N. destruct (readNext_le f g parent L s) as [Q|Q]; congruence. Qed.

  (** C02 *)
  Lemma read_terminates input :
    exists r, r <> OutOfFuel /\
      forall fuel, (length input + 2 <= fuel)%nat -> readNext e params fuel None (init_st input) = r.
  Proof.
    exists (read_doc e params input). split; [apply read_doc_terminates|].
    intros fuel L. eapply readNext_mono; [|reflexivity|apply read_doc_terminates]. lia.
  Qed.
End Fuel.

(** Insertion-ordered map. *)
From Verif Require Export Model.FifoMap Spec.MapSpec.

Section Map.
  Context {K V : Type} (eqk : K -> K -> bool) (dflt : V).
  Hypothesis eqk_iff : forall a b, eqk a b = true <-> a = b.

  Definition step (m : list (K * V)) (o : op K V) : list (K * V) :=
    match o with
    | Read k => fst (index eqk dflt m k)
    | Write k v => set eqk dflt m k v
    end.
  Definition run_ops (h : list (op K V)) : list (K * V) := fold_left step h [].

  Lemma eqk_neq a b : eqk a b = false <-> a <> b.
  Proof. rewrite <- eqk_iff. destruct (eqk a b); split; congruence. Qed.

  Lemma contains_iff (m : list (K * V)) k : contains eqk m k = true <-> In k (map fst m).
  Proof.
    induction m as [|[k' v] t IH]; cbn; [split; [discriminate|intros []]|].
    destruct (eqk k' k) eqn:E; [apply eqk_iff in E; split; auto|]. apply eqk_neq in E. rewrite IH. intuition.
  Qed.

  Lemma index_old (m : list (K * V)) k : In k (map fst m) -> exists a v b, m = a ++ (k, v) :: b /\ ~ In k (map fst a) /\ index eqk dflt m k = (m, length a).
  Proof.
    induction m as [|[k' v] t IH]; cbn [map fst index In]; [intros []|]. intros I.
    destruct (eqk k' k) eqn:E.
    - apply eqk_iff in E. subst k'. exists [], v, t. auto.
    - apply eqk_neq in E. destruct I as [I|I]; [contradiction|]. destruct (IH I) as (a & w & b & -> & N & ->).
      exists ((k', v) :: a), w, b. split; [reflexivity|]. split; [cbn; intuition|reflexivity].
  Qed.

  Lemma index_new (m : list (K * V)) k : ~ In k (map fst m) -> index eqk dflt m k = (m ++ [(k, dflt)], length m).
  Proof.
    induction m as [|[k' v] t IH]; cbn [map fst index In app length]; [reflexivity|]. intros I.
    destruct (eqk k' k) eqn:E; [apply eqk_iff in E; tauto|]. rewrite IH by tauto. reflexivity.
  Qed.

  Lemma assign_at a k v w (b : list (K * V)) : assign (a ++ (k, v) :: b) (length a) w = a ++ (k, w) :: b.
  Proof. induction a as [|[k' v'] a IH]; cbn; [reflexivity|]. rewrite IH. reflexivity. Qed.

  Lemma set_old (m : list (K * V)) k w : In k (map fst m) -> exists a v b, m = a ++ (k, v) :: b /\ ~ In k (map fst a) /\ set eqk dflt m k w = a ++ (k, w) :: b.
  Proof.
    intros I. destruct (index_old m k I) as (a & v & b & E & N & X). exists a, v, b. split; [exact E|]. split; [exact N|].
    unfold set. rewrite X, E. apply assign_at.
  Qed.
  Lemma set_new (m : list (K * V)) k w : ~ In k (map fst m) -> set eqk dflt m k w = m ++ [(k, w)].
  Proof. intros I. unfold set. rewrite index_new by exact I. rewrite assign_at. reflexivity. Qed.

  Lemma in_keys_dec k (m : list (K * V)) : In k (map fst m) \/ ~ In k (map fst m).
  Proof. destruct (contains eqk m k) eqn:E; [left; apply contains_iff, E|right]. rewrite <- contains_iff. congruence. Qed.

  Lemma run_snoc h o : run_ops (h ++ [o]) = step (run_ops h) o.
  Proof. unfold run_ops. rewrite fold_left_app. reflexivity. Qed.

  Lemma step_keys m o : map fst (step m o) = map fst m \/ ~ In (key o) (map fst m) /\ map fst (step m o) = map fst m ++ [key o].
  Proof.
    destruct o as [k|k v]; cbn [step key]; destruct (in_keys_dec k m) as [I|I].
    - left. destruct (index_old m k I) as (a & v & b & _ & _ & ->). reflexivity.
    - right. split; [exact I|]. rewrite index_new by exact I. cbn [fst]. rewrite map_app. reflexivity.
    - left. destruct (set_old m k v I) as (a & w & b & -> & _ & ->). rewrite !map_app. reflexivity.
    - right. split; [exact I|]. rewrite set_new by exact I. rewrite map_app. reflexivity.
  Qed.

  Lemma step_in m o : In (key o) (map fst (step m o)).
  Proof.
    destruct o as [k|k v]; cbn [step key]; destruct (in_keys_dec k m) as [I|I].
    - destruct (index_old m k I) as (a & v & b & _ & _ & ->). exact I.
    - rewrite index_new by exact I. cbn [fst]. rewrite map_app. apply in_or_app. right. left. reflexivity.
    - destruct (set_old m k v I) as (a & w & b & -> & _ & ->). rewrite map_app. apply in_or_app. right. left. reflexivity.
    - rewrite set_new by exact I. rewrite map_app. apply in_or_app. right. left. reflexivity.
  Qed.

  Lemma run_order h : key_order h (map fst (run_ops h)) /\ NoDup (map fst (run_ops h)).
  Proof.
    induction h as [|o h [IH ND]] using rev_ind; [split; constructor|]. rewrite run_snoc.
    destruct (step_keys (run_ops h) o) as [E|[N E]].
    - rewrite E. split; [|exact ND]. apply KO_old; [exact IH|]. rewrite <- E. apply step_in.
    - rewrite E. split; [apply KO_new; assumption|].
      clear -ND N. induction (map fst (run_ops h)) as [|x l IH]; cbn in *; [constructor; [intros []|constructor]|].
      inversion ND; subst. constructor; [|apply IH; tauto]. intros I. apply in_app_or in I. destruct I as [I|[I|[]]]; [contradiction|]. subst. tauto.
  Qed.

  Lemma run_contains h k : contains eqk (run_ops h) k = true <-> exists o, In o h /\ key o = k.
  Proof.
    rewrite contains_iff. induction h as [|o h IH] using rev_ind; [cbn; split; [intros []|intros (o & [] & _)]|].
    rewrite run_snoc. destruct (step_keys (run_ops h) o) as [E|[N E]]; rewrite E.
    - rewrite IH. split.
      + intros (o' & I & Q). exists o'. split; [apply in_or_app; auto|exact Q].
      + intros (o' & I & Q). apply in_app_or in I. destruct I as [I|[<-|[]]]; [eauto|]. apply IH. rewrite <- E, <- Q. apply step_in.
    - rewrite in_app_iff, IH. split.
      + intros [(o' & I & Q)|[Q|[]]]; [exists o'; split; [apply in_or_app; auto|exact Q]|exists o; split; [apply in_or_app; right; left; reflexivity|exact Q]].
      + intros (o' & I & Q). apply in_app_or in I. destruct I as [I|[<-|[]]]; [eauto|]. right. left. exact Q.
  Qed.

  (** Values. *)
  Lemma nodup_fst_inj (m : list (K * V)) k v w : NoDup (map fst m) -> In (k, v) m -> In (k, w) m -> v = w.
  Proof.
    induction m as [|[k' x] t IH]; cbn; [intros _ []|]. intros ND A B. inversion ND as [|? ? N1 N2]; subst.
    destruct A as [A|A], B as [B|B].
    - congruence.
    - injection A as -> ->. exfalso. apply N1. apply in_map_iff. exists (k, w). auto.
    - injection B as -> ->. exfalso. apply N1. apply in_map_iff. exists (k, v). auto.
    - eauto.
  Qed.

  Lemma step_same m k w : In (k, w) (step m (Write k w)).
  Proof.
    cbn [step]. destruct (in_keys_dec k m) as [I|I].
    - destruct (set_old m k w I) as (a & v & b & _ & _ & ->). apply in_or_app. right. left. reflexivity.
    - rewrite set_new by exact I. apply in_or_app. right. left. reflexivity.
  Qed.
  Lemma step_other m o k v : key o <> k \/ o = Read k -> In (k, v) m -> In (k, v) (step m o).
  Proof.
    intros D I. destruct o as [k'|k' w]; cbn [step key] in *.
    - destruct (in_keys_dec k' m) as [J|J].
      + destruct (index_old m k' J) as (a & x & b & _ & _ & ->). exact I.
      + rewrite index_new by exact J. apply in_or_app. left. exact I.
    - destruct D as [D|D]; [|discriminate]. destruct (in_keys_dec k' m) as [J|J].
      + destruct (set_old m k' w J) as (a & x & b & -> & _ & ->). apply in_app_or in I. apply in_or_app.
        destruct I as [I|[I|I]]; [auto|congruence|right; right; exact I].
      + rewrite set_new by exact J. apply in_or_app. left. exact I.
  Qed.

  Lemma run_value h k v : value dflt h k v -> In (k, v) (run_ops h).
  Proof.
    induction 1 as [h k v|h k N|h k o v H IH D]; rewrite run_snoc.
    - apply step_same.
    - cbn [step]. rewrite index_new; [apply in_or_app; right; left; reflexivity|].
      rewrite <- contains_iff, run_contains. intros (o & I & Q). exact (N o I Q).
    - apply step_other; assumption.
  Qed.

  Lemma run_get h k v : value dflt h k v -> get eqk dflt (run_ops h) k = v /\ fst (index eqk dflt (run_ops h) k) = run_ops h.
  Proof.
    intros H. apply run_value in H. unfold get.
    assert (I : In k (map fst (run_ops h))) by (apply in_map_iff; exists (k, v); auto).
    destruct (index_old _ _ I) as (a & w & b & E & N & X). rewrite X. split; [|reflexivity].
    rewrite E, map_app. rewrite app_nth2; [|rewrite map_length; lia]. rewrite map_length, Nat.sub_diag. cbn [map nth snd].
    eapply nodup_fst_inj; [apply run_order| |exact H]. rewrite E. apply in_or_app. right. left. reflexivity.
  Qed.

  (** Every key of a history has a value. *)
  Lemma value_total (h : list (op K V)) k : (exists o, In o h /\ key o = k) -> exists v, value dflt h k v.
  Proof.
    induction h as [|p h IH] using rev_ind; [intros (o & [] & _)|]. intros (o & I & Q).
    destruct (in_keys_dec k (run_ops h)) as [J|J].
    - apply contains_iff, run_contains in J. destruct (IH J) as (v & H).
      destruct (eqk (key p) k) eqn:E.
      + apply eqk_iff in E. destruct p as [k'|k' w]; cbn in E; subst k'; [exists v; constructor; auto|exists w; constructor].
      + apply eqk_neq in E. exists v. constructor; auto.
    - rewrite <- contains_iff, run_contains in J. apply in_app_or in I. destruct I as [I|[<-|[]]]; [exfalso; eauto|].
      destruct p as [k'|k' w]; cbn in Q; subst k'; [exists dflt; apply V_first; intros o I E; eauto|exists w; constructor].
  Qed.
End Map.

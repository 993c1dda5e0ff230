(** Sequences of keys. *)
From Verif Require Export Proofs.InvProofs.
From Coq Require Import Lia ZifyBool.
Open Scope Z_scope.

(** * Visiting the results in turn *)
Inductive stut {A} : list A -> list A -> Prop :=
| ST_nil R : stut [] R
| ST_skip L x R : stut L R -> stut L (x :: R)
| ST_take L x R : stut L (x :: R) -> stut (x :: L) (x :: R).

Lemma stut_in {A} (L R : list A) : stut L R -> incl L R.
Proof.
  induction 1 as [R|L x R H IH|L x R H IH]; intros y I; [destruct I|right; auto|]. destruct I as [<-|I]; [left; reflexivity|auto].
Qed.
Lemma stut_sub {A} (L L' R : list A) : stut L R -> sublist L' L -> stut L' R.
Proof.
  intros H. revert L'. induction H as [R|L x R H IH|L x R H IH]; intros L' S.
  - inversion S. constructor.
  - constructor. auto.
  - inversion S as [|y l l' S1|y l l' S1]; subst; [auto|]. apply ST_take. auto.
Qed.
Lemma stut_app {A} (L1 R1 L2 R2 : list A) : stut L1 R1 -> stut L2 R2 -> stut (L1 ++ L2) (R1 ++ R2).
Proof.
  intros H1 H2. induction H1 as [R|L x R H IH|L x R H IH]; cbn [app] in *.
  - induction R as [|x R IH]; [exact H2|]. cbn [app]. constructor. exact IH.
  - constructor. exact IH.
  - apply ST_take. exact IH.
Qed.
Lemma filter_sub {A} (f : A -> bool) l : sublist (filter f l) l.
Proof. induction l as [|x l IH]; [constructor|]. cbn [filter]. destruct (f x); constructor; exact IH. Qed.
Lemma map_sub {A B} (f : A -> B) l l' : sublist l l' -> sublist (map f l) (map f l').
Proof. induction 1; cbn [map]; constructor; assumption. Qed.

Lemma stut_first (L R : list Z) x : stut (x :: L) R -> NoDup R -> find (fun y => existsb (Z.eqb y) (x :: L)) R = Some x.
Proof.
  intros H. remember (x :: L) as K eqn:E. revert x L E. induction H as [R|K y R H IH|K y R H IH]; intros x L E N; [discriminate| |].
  - inversion_clear N as [|? ? N1 N2]. cbn [find].
    assert (Q : existsb (Z.eqb y) K = false). { apply mem_not. intros I. apply N1, (stut_in _ _ H), I. }
    rewrite Q. eapply IH; eauto.
  - injection E as -> ->. cbn [find]. cbn [existsb]. rewrite Z.eqb_refl. reflexivity.
Qed.

Lemma items_stut n : forall r, stut (map fst (items r n)) (r :: inside [] n).
Proof.
  induction n as [n IH] using node_kids_ind. intros r. rewrite inside_children. cbn [mem existsb]. unfold rowsL.
  destruct n as [m p|m l|m l]; cbn [items map fst children flat_map].
  - apply ST_take. constructor.
  - apply ST_skip. assert (X : forall l', (forall x, In x l' -> In x l) -> stut (map fst (flat_map (fun x => items (nid x) x) l')) (flat_map (rows_elem []) (map ENode l'))).
    { induction l' as [|x l' IHl]; intros S; [constructor|]. cbn [flat_map map]. rewrite map_app. apply stut_app; [|apply IHl; intros; apply S; right; assumption].
      exact (IH (ENode x) (in_map ENode _ _ (S x (or_introl eq_refl))) (nid x)). }
    apply X. auto.
  - apply ST_skip. match goal with |- context [map ?g l] => set (G := g) end.
    assert (X : forall l', (forall x, In x l' -> In x l) -> stut (map fst (flat_map (fun x => (mid (fst (fst x)), Key (snd (fst x))) :: items (mid (fst (fst x))) (snd x)) l')) (flat_map (rows_elem []) (map G l'))).
    { induction l' as [|x l' IHl]; intros S; [constructor|]. cbn [flat_map map]. rewrite map_app. apply stut_app; [|apply IHl; intros; apply S; right; assumption].
      cbn [map fst]. unfold rows_elem, G. cbn [eid value_of]. apply ST_take.
      assert (J : In (G x) (children (NObj m l))) by (apply in_map, S; left; reflexivity). exact (IH _ J (mid (fst (fst x)))). }
    apply X. auto.
Qed.

Fixpoint nexts (R res : list Z) (k : nat) (i : Z) : option Z :=
  match k with
  | O => Some i
  | S k => match next_result R res i with Some j => nexts R res k j | None => None end
  end.
Lemma nexts_snoc R res k : forall i j r, nexts R res k i = Some j -> next_result R res j = Some r -> nexts R res (S k) i = Some r.
Proof.
  induction k as [|k IH]; intros i j r E N; cbn [nexts] in *; [injection E as ->; rewrite N; reflexivity|].
  destruct (next_result R res i) as [x|]; [|discriminate]. exact (IH x j r E N).
Qed.
Lemma nexts_trans R res k2 : forall k1 i j r, nexts R res k1 i = Some j -> nexts R res k2 j = Some r -> nexts R res (k1 + k2) i = Some r.
Proof.
  induction k1 as [|k1 IH]; intros i j r E1 E2; cbn [nexts plus] in *; [injection E1 as ->; exact E2|].
  destruct (next_result R res i) as [x|]; [|discriminate]. exact (IH x j r E1 E2).
Qed.

Lemma find_split (f : Z -> bool) l r : find f l = Some r -> exists a b, l = a ++ r :: b /\ (forall x, In x a -> f x = false) /\ f r = true.
Proof.
  induction l as [|x l IH]; cbn [find]; [discriminate|]. destruct (f x) eqn:E.
  - intros [= ->]. exists [], l. split; [reflexivity|]. split; [intros y []|exact E].
  - intros Q. destruct (IH Q) as (a & b & -> & A & B). exists (x :: a), b. split; [reflexivity|]. split; [|exact B]. intros y [<-|I]; auto.
Qed.
Lemma find_app_first (f : Z -> bool) a r b : (forall x, In x a -> f x = false) -> f r = true -> find f (a ++ r :: b) = Some r.
Proof. induction a as [|x a IH]; intros A B; cbn [app find]; [rewrite B; reflexivity|]. rewrite (A x (or_introl eq_refl)). apply IH; [|exact B]. intros y I. apply A. right. exact I. Qed.

Section Tour.
  Variable (R res : list Z) (first : Z).
  Hypotheses (N : NoDup R) (IR : incl res R) (H1 : hd_error res = Some first)
             (H2 : find (fun y => existsb (Z.eqb y) res) R = Some first).

  Lemma R_after pre i post : R = pre ++ i :: post -> rows_after i R = post.
  Proof. intros E. rewrite E. apply rows_after_split. rewrite E in N. intros I. apply NoDup_remove_2 in N. apply N, in_or_app. auto. Qed.

  Lemma tour_wrap : forall n pre i post, (length post <= n)%nat -> R = pre ++ i :: post -> exists k, nexts R res k i = Some first.
  Proof.
    induction n as [|n IH]; intros pre i post L E.
    - exists 1%nat. cbn [nexts]. unfold next_result. rewrite (R_after _ _ _ E). destruct post; [|cbn in L; lia]. cbn [find]. rewrite H1. reflexivity.
    - destruct (find (fun y => existsb (Z.eqb y) res) post) as [j|] eqn:F.
      + destruct (find_split _ _ _ F) as (a & b & -> & _). rewrite app_length in L. cbn [length] in L.
        destruct (IH (pre ++ i :: a) j b ltac:(lia) ltac:(rewrite E, <- app_assoc; reflexivity)) as (k & K).
        exists (S k). cbn [nexts]. unfold next_result. rewrite (R_after _ _ _ E), F. exact K.
      + exists 1%nat. cbn [nexts]. unfold next_result. rewrite (R_after _ _ _ E), F, H1. reflexivity.
  Qed.

  Lemma last_result (f : Z -> bool) l : (exists x, In x l /\ f x = true) -> exists a j b, l = a ++ j :: b /\ f j = true /\ forall x, In x b -> f x = false.
  Proof.
    induction l as [|x l IH]; intros (y & I & F); [destruct I|]. destruct (existsb f l) eqn:E.
    - apply existsb_exists in E. destruct (IH E) as (a & j & b & -> & A & B). exists (x :: a), j, b. auto.
    - exists [], x, l. split; [reflexivity|]. assert (Q : forall z, In z l -> f z = false).
      { intros z J. destruct (f z) eqn:G; [|reflexivity]. assert (existsb f l = true) by (apply existsb_exists; eauto). congruence. }
      split; [|exact Q]. destruct I as [<-|I]; [exact F|]. rewrite (Q y I) in F. discriminate.
  Qed.

  Lemma tour_forward : forall n pre r post, (length pre <= n)%nat -> R = pre ++ r :: post -> In r res -> exists k, nexts R res k first = Some r.
  Proof.
    induction n as [|n IH]; intros pre r post L E I; destruct (Z.eq_dec first r) as [->|NE]; try (exists O; reflexivity).
    - exfalso. destruct pre; [|cbn in L; lia]. rewrite E in H2. cbn [app find] in H2. assert (Q : existsb (Z.eqb r) res = true) by (apply mem_In, I). rewrite Q in H2. congruence.
    - assert (X : exists x, In x pre /\ existsb (Z.eqb x) res = true).
      { rewrite E in H2. destruct (find (fun y => existsb (Z.eqb y) res) pre) as [x|] eqn:F.
        - apply find_some in F. eauto.
        - exfalso. rewrite (find_app_first _ pre r post) in H2; [congruence| |apply mem_In, I]. intros x J. exact (find_none _ _ F x J). }
      destruct (last_result _ pre X) as (a & j & b & -> & J & B). rewrite app_length in L. cbn [length] in L.
      assert (E' : R = a ++ j :: b ++ r :: post) by (rewrite E, <- app_assoc; reflexivity).
      destruct (IH a j _ ltac:(lia) E') as (k & K); [apply mem_In, J|].
      exists (S k). apply (nexts_snoc _ _ _ _ j); [exact K|]. unfold next_result. rewrite (R_after _ _ _ E'), find_app_first; [reflexivity|exact B|apply mem_In, I].
  Qed.

  Lemma tour i r : In i R -> In r res -> exists k, nexts R res k i = Some r.
  Proof.
    intros I J. apply in_split in I. destruct I as (pre & post & E). destruct (tour_wrap _ _ _ _ (le_n _) E) as (k1 & K1).
    assert (Q := IR _ J). apply in_split in Q. destruct Q as (a & b & Q). destruct (tour_forward _ _ _ _ (le_n _) Q J) as (k2 & K2).
    exists (k1 + k2)%nat. exact (nexts_trans _ _ _ _ _ _ _ K1 K2).
  Qed.
End Tour.

Section Wait.
  Variable (rx : bytes -> bool -> bytes -> bool) (root : node).
  Hypothesis M : in_memory root.
  Notation h := (elems root).
  Notation found := (map fst (items (nid root) root)).

  Lemma loop_ready sc v i : roomy root sc -> ready root v i -> exists v', redraw_loop root (fuel_of root) sc v = Some v' /\
    ready root v' i /\ aims root v' /\ vdown v' <> None /\ vcoll v' = vcoll v /\ vres v' = vres v.
  Proof.
    intros RO R. destruct (loop_total root M sc i RO (ready_ids root _ _ R) (fuel_of root) v) as (v' & E).
    - apply R.
    - apply R.
    - unfold fuel_of. lia.
    - unfold fuel_of. lia.
    - exists v'. split; [exact E|]. exact (loop_aims root M _ sc v v' i R E).
  Qed.

  Lemma roomy_size sc w hh : roomy root sc -> 3 <= w < 2 ^ 32 -> roomy root (mkScreen w hh (slen sc)).
  Proof. intros (A & B & C) W. split; [exact W|split; [exact B|exact C]]. Qed.

  Definition good (f : final) : Prop :=
    match f with Waiting _ v _ | Ended _ v _ => exists i, ready root v i | Undefined => False end.

  Lemma wait_good evs : forall sc v stop i, roomy root sc -> wide evs -> ready root v i -> aims root v ->
    (forall a b sc1 v1 st, evs = a ++ b -> wait rx root sc v stop a = Waiting sc1 v1 st -> vdown v1 <> None) ->
    good (wait rx root sc v stop evs).
  Proof.
    induction evs as [|ev evs IH]; intros sc v stop i RO W R A P; [exists i; exact R|].
    assert (N : vdown v <> None) by (exact (P [] _ sc v stop eq_refl eq_refl)).
    assert (W' : wide evs) by (intros w hh J; apply (W w hh); right; exact J).
    destruct ev as [k p|w hh|]; cbn [wait].
    - destruct (evalKey_led root M rx sc k p v i RO R A N) as (o & v1 & E & Q). rewrite E.
      assert (GO : forall v2 j, ready root v2 j -> aims root v2 -> (forall a, wait rx root sc v stop (EvKey k p :: a) = if stop then Ended sc v2 a else wait rx root sc v2 stop a) ->
        good (if stop then Ended sc v2 evs else wait rx root sc v2 stop evs)).
      { intros v2 j R2 A2 X. destruct stop; [exists j; exact R2|]. apply (IH sc v2 false j RO W' R2 A2). intros a b sc1 v1' st EQ WT.
        apply (P (EvKey k p :: a) b sc1 v1' st); [rewrite EQ; reflexivity|]. rewrite X. exact WT. }
      destruct o; [| destruct Q | subst v1; exists i; exact R |].
      + destruct Q as (j & Q). destruct (loop_ready sc v1 j RO Q) as (v2 & L & R2 & A2 & _). rewrite L. apply (GO v2 j R2 A2).
        intros a. cbn [wait]. rewrite E, L. reflexivity.
      + destruct Q as [->|(j & Rj & Aj)].
        * apply (GO v i R A). intros a. cbn [wait]. rewrite E. reflexivity.
        * apply (GO v1 j Rj Aj). intros a. cbn [wait]. rewrite E. reflexivity.
    - assert (RO' := roomy_size sc w hh RO (W w hh (or_introl eq_refl))). cbn zeta. destruct (loop_ready _ v i RO' R) as (v2 & L & R2 & A2 & _). rewrite L.
      apply (IH _ v2 stop i RO' W' R2 A2). intros a b sc1 v1 st EQ WT. apply (P (EvSize w hh :: a) b sc1 v1 st); [rewrite EQ; reflexivity|].
      cbn [wait]. cbn zeta. rewrite L. exact WT.
    - apply (IH sc v true i RO W' R A). intros a b sc1 v1 st EQ WT. apply (P (EvStop :: a) b sc1 v1 st); [rewrite EQ; reflexivity|]. exact WT.
  Qed.

  (** Without searches there is always a row below. *)
  Lemma wait_unsearched evs : forall sc v stop i, roomy root sc -> wide evs -> unsearched evs -> ready root v i -> aims root v -> vdown v <> None ->
    good (wait rx root sc v stop evs).
  Proof.
    induction evs as [|ev evs IH]; intros sc v stop i RO W U R A N; [exists i; exact R|].
    assert (W' : wide evs) by (intros w hh J; apply (W w hh); right; exact J).
    assert (U' : unsearched evs) by (intros k p J; apply (U k p); right; exact J).
    destruct ev as [k p|w hh|]; cbn [wait].
    - destruct (U k p (or_introl eq_refl)) as [U1 U2].
      destruct (evalKey_plain root M rx sc k p v i R A N) as (o & v1 & E & _ & Q); [apply beqb_neq, U1|apply beqb_neq, U2|]. rewrite E.
      destruct o; [| destruct Q | subst v1; exists i; exact R |].
      + destruct Q as (j & Q). destruct (loop_ready sc v1 j RO Q) as (v2 & L & R2 & A2 & N2 & _). rewrite L. destruct stop; [exists j; exact R2|]. apply (IH sc v2 false j); auto.
      + subst v1. destruct stop; [exists i; exact R|]. apply (IH sc v false i); auto.
    - assert (RO' := roomy_size sc w hh RO (W w hh (or_introl eq_refl))). cbn zeta. destruct (loop_ready _ v i RO' R) as (v2 & L & R2 & A2 & N2 & _). rewrite L.
      apply (IH _ v2 stop i); auto.
    - apply (IH sc v true i); auto.
  Qed.

  (** The first redraw of a document. *)
  Lemma run_start sc v : roomy root sc -> incl (vres v) found ->
    exists v', redraw_loop root (fuel_of root) sc (mkView (Some (nid root)) 0 (vcoll v) (vres v) (vup v) (vdown v) (vlast v) (vlines v)) = Some v' /\
      ready root v' (nid root) /\ aims root v' /\ vdown v' <> None /\ vcoll v' = vcoll v /\ vres v' = vres v.
  Proof.
    intros RO F. refine (loop_ready sc (mkView (Some (nid root)) 0 (vcoll v) (vres v) (vup v) (vdown v) (vlast v) (vlines v)) (nid root) RO _).
    unfold ready. cbn. repeat split; auto. lia.
  Qed.

  (** * Pressing n again and again *)
  Definition Nkey : event := EvKey (str "N") None.
  Lemma next_keys k : forall sc v i r, roomy root sc -> ready root v i -> vres v <> [] -> nexts (rows [] root) (vres v) k i = Some r ->
    exists v', wait rx root sc v false (repeat Nkey k) = Waiting sc v' false /\ ready root v' r /\ vres v' = vres v.
  Proof.
    induction k as [|k IH]; intros sc v i r RO R NE E; cbn [nexts repeat wait Nkey] in *; [injection E as <-; eauto|].
    change (evalKey root rx sc (str "N") None v) with (nextResult root sc v).
    destruct (next_led root M sc v i RO R NE) as (o & v1 & j & EQ & VR & R1 & NR & O). rewrite EQ. rewrite NR in E.
    destruct O as [->|[-> _]].
    - destruct (loop_ready sc v1 j RO R1) as (v2 & L & R2 & _ & _ & _ & VR2). rewrite L. 
      destruct (IH sc v2 j r RO R2) as (v' & X & Y & Z'); [rewrite VR2, VR; exact NE|rewrite VR2, VR; exact E|]. exists v'. split; [exact X|]. split; [exact Y|congruence].
    - destruct (IH sc v1 j r RO R1) as (v' & X & Y & Z'); [rewrite VR; exact NE|rewrite VR; exact E|]. exists v'. split; [exact X|]. split; [exact Y|congruence].
  Qed.

  Lemma visits_all sc v i f : roomy root sc -> ready root v i -> vres v = map fst (filter f (items (nid root) root)) ->
    forall r, In r (vres v) -> exists k v', wait rx root sc v false (repeat Nkey k) = Waiting sc v' false /\ vsel v' = Some r /\ In r (rows (vcoll v') root).
  Proof.
    intros RO R EQ r I. assert (ST : stut (vres v) (rows [] root)).
    { rewrite EQ. apply (stut_sub _ _ _ (items_stut root (nid root))). apply map_sub, filter_sub. }
    destruct (vres v) as [|first rest] eqn:E; [destruct I|].
    assert (F := stut_first _ _ _ ST (rows_NoDup root M [])).
    destruct (tour (rows [] root) (first :: rest) first (rows_NoDup root M []) (stut_in _ _ ST) eq_refl F i r) as (k & K); [|exact I|].
    - apply (rows_incl root (vcoll v)). apply R.
    - rewrite <- E in K. destruct (next_keys k sc v i r RO R ltac:(rewrite E; discriminate) K) as (v' & X & (Y1 & Y2 & _) & _). exists k, v'. auto.
  Qed.
End Wait.

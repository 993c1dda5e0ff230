(** Reasoning about Model/Heap.v: which blocks a piece of code owns. *)
From Coq Require Import Permutation Lia ZArith List.
From Verif Require Import Spec.HeapSpec.
From Verif Require Import Model.Heap Model.DiffMem.
Open Scope Z_scope.
Open Scope mem_scope.

(** [h] is [h0] with the blocks [own] besides. *)
Record owns (own : list (Z * block)) (h0 h : heap) : Prop := mkOwns {
  o_wf : wf h0;
  o_le : nxt h0 <= nxt h;
  o_nd : NoDup (map fst own);
  o_new : forall q, In q (map fst own) -> nxt h0 <= q < nxt h;
  o_in : forall p b, In (p, b) own -> blk h p = Some b;
  o_out : forall q, ~ In q (map fst own) -> blk h q = blk h0 q
}.

Lemma owns_perm own own' h0 h : Permutation own own' -> owns own h0 h -> owns own' h0 h.
Proof.
  intros P [W L N NW I O]. assert (PF := Permutation_map fst P). constructor; auto.
  - eapply Permutation_NoDup; eauto.
  - intros q Q. apply NW. eapply Permutation_in; [symmetry; exact PF|exact Q].
  - intros p b Q. apply I. eapply Permutation_in; [symmetry; exact P|exact Q].
  - intros q Q. apply O. intros R. apply Q. eapply Permutation_in; eauto.
Qed.
Lemma owns_nil h : wf h -> owns [] h h.
Proof. intros W. constructor; auto; try easy. constructor. Qed.
Lemma owns_wf own h0 h : owns own h0 h -> wf h.
Proof.
  intros [W L N NW I O] q Q. rewrite O. { apply W. lia. } intros R. apply NW in R. lia.
Qed.
Lemma nodup_app {A} (l1 l2 : list A) : NoDup l1 -> NoDup l2 -> (forall x, In x l1 -> ~ In x l2) -> NoDup (l1 ++ l2).
Proof.
  intros N1 N2 D. induction N1 as [|x l NI N1 IH]; cbn; [exact N2|]. constructor.
  - rewrite in_app_iff. intros [H|H]; [tauto|]. apply (D x); [now left|exact H].
  - apply IH. intros y Y. apply D. now right.
Qed.
Lemma owns_trans own1 own2 h0 h1 h2 : owns own1 h0 h1 -> owns own2 h1 h2 -> owns (own2 ++ own1) h0 h2.
Proof.
  intros A B. pose proof (o_new _ _ _ A) as NA. pose proof (o_new _ _ _ B) as NB. pose proof (o_le _ _ _ A) as LA. pose proof (o_le _ _ _ B) as LB.
  constructor.
  - apply A.
  - lia.
  - rewrite map_app. apply nodup_app; [apply B|apply A|]. intros q Q R. apply NB in Q. apply NA in R. lia.
  - intros q. rewrite map_app, in_app_iff. intros [Q|Q]; [apply NB in Q|apply NA in Q]; lia.
  - intros p b. rewrite in_app_iff. intros [Q|Q]; [now apply B|]. rewrite (o_out _ _ _ B). { now apply A. }
    intros R. apply NB in R. apply (in_map fst) in Q. apply NA in Q. cbn in Q. lia.
  - intros q. rewrite map_app, in_app_iff. intros Q. rewrite (o_out _ _ _ B) by tauto. apply A. tauto.
Qed.

(** Runs that end well, or die as [D] says. *)
Definition wp {A} (m : M A) (h : heap) (Q : A -> heap -> Prop) (D : crash -> Prop) : Prop :=
  match m h with Done a h' => Q a h' | Died c => D c | Faulty _ => False end.
Lemma wp_bind {A B} (m : M A) (k : A -> M B) h Q D : wp m h (fun a h' => wp (k a) h' Q D) D -> wp (mbind m k) h Q D.
Proof. unfold wp, mbind. destruct (m h); auto. Qed.
Lemma wp_mono {A} (m : M A) h (Q Q' : A -> heap -> Prop) (D D' : crash -> Prop) :
  wp m h Q D -> (forall a h', Q a h' -> Q' a h') -> (forall c, D c -> D' c) -> wp m h Q' D'.
Proof. unfold wp. destruct (m h); auto. Qed.
Lemma wp_ret {A} (a : A) h (Q : A -> heap -> Prop) D : Q a h -> wp (mret a) h Q D.
Proof. auto. Qed.
Lemma wp_done {A} (m : M A) h a h' (Q : A -> heap -> Prop) D : m h = Done a h' -> Q a h' -> wp m h Q D.
Proof. unfold wp. intros ->. auto. Qed.
Lemma wp_step {A B} (m : M A) (k : A -> M B) h a h' Q D : m h = Done a h' -> wp (k a) h' Q D -> wp (mbind m k) h Q D.
Proof. unfold wp, mbind. intros ->. auto. Qed.

(** Blocks owned. *)
Lemma new_ok own h0 h b (Q : Z -> heap -> Prop) D : owns own h0 h ->
  (forall p h', owns ((p, b) :: own) h0 h' -> Q p h') -> wp (new_ b) h Q D.
Proof.
  intros O K. unfold wp, new_. apply K. pose proof (owns_wf _ _ _ O) as W. destruct O as [W0 L N NW I OO].
  assert (F : ~ In (nxt h) (map fst own)) by (intros R; apply NW in R; lia). assert (C : 0 <= cells b) by (destruct b; cbn [cells]; lia).
  constructor; cbn [nxt blk map fst]; auto.
  - lia.
  - constructor; auto.
  - intros q [<-|Q']; [lia|]. apply NW in Q'. lia.
  - intros p c [[= <- <-]|Q']; unfold set_blk.
    + now rewrite Z.eqb_refl.
    + destruct (p =? nxt h) eqn:E; [|now apply I]. apply Z.eqb_eq in E. subst p. apply (in_map fst) in Q'. contradiction.
  - intros q Q'. unfold set_blk. destruct (q =? nxt h) eqn:E; [apply Z.eqb_eq in E; subst q; destruct Q'; now left|]. apply OO. intros R. apply Q'. now right.
Qed.
Lemma get_ok own h0 h p b : owns own h0 h -> In (p, b) own -> get p h = Done b h.
Proof. intros O I. unfold get. now rewrite (o_in _ _ _ O p b I). Qed.
Lemma put_ok own h0 h p b b' : owns ((p, b) :: own) h0 h ->
  exists h', put p b' h = Done tt h' /\ owns ((p, b') :: own) h0 h'.
Proof.
  intros O. unfold put. rewrite (o_in _ _ _ O p b (or_introl eq_refl)). eexists. split; [reflexivity|].
  destruct O as [W L N NW I OO]. cbn [map fst] in *. apply NoDup_cons_iff in N as N'. destruct N' as [F N'].
  constructor; cbn [nxt blk map fst]; auto.
  - intros q c [[= <- <-]|Q]; unfold set_blk; [now rewrite Z.eqb_refl|].
    destruct (q =? p) eqn:E; [|apply I; now right]. apply Z.eqb_eq in E. subst q. apply (in_map fst) in Q. contradiction.
  - intros q Q. unfold set_blk. destruct (q =? p) eqn:E; [apply Z.eqb_eq in E; subst q; destruct Q; now left|]. apply OO. exact Q.
Qed.
Lemma free_ok own h0 h p b : owns ((p, b) :: own) h0 h -> exists h', free p h = Done tt h' /\ owns own h0 h'.
Proof.
  intros O. unfold free. rewrite (o_in _ _ _ O p b (or_introl eq_refl)). eexists. split; [reflexivity|].
  destruct O as [W L N NW I OO]. cbn [map fst] in *. apply NoDup_cons_iff in N as N'. destruct N' as [F N'].
  assert (P0 : blk h0 p = None) by (apply W; apply (NW p); now left).
  constructor; cbn [nxt blk]; auto.
  - intros q Q. apply NW. now right.
  - intros q c Q. unfold set_blk. destruct (q =? p) eqn:E; [|apply I; now right]. apply Z.eqb_eq in E. subst q. apply (in_map fst) in Q. contradiction.
  - intros q Q. unfold set_blk. destruct (q =? p) eqn:E; [apply Z.eqb_eq in E; subst q; now rewrite P0|]. apply OO. intros [R|R]; [subst q; rewrite Z.eqb_refl in E; discriminate|contradiction].
Qed.

(** Arrays. *)
Lemma at_nat {A} (l : list A) (i : nat) : at_ l (Z.of_nat i) = nth_error l i.
Proof. unfold at_. destruct (Z.ltb_spec (Z.of_nat i) 0); [lia|]. now rewrite Nat2Z.id. Qed.
Lemma bind_done {A B} (m : M A) (k : A -> M B) h a h' : m h = Done a h' -> mbind m k h = k a h'.
Proof. unfold mbind. now intros ->. Qed.
Lemma read_int_ok own h0 h p l i v : owns own h0 h -> In (p, BInts l) own -> nth_error l i = Some (Some v) ->
  read_int p (Z.of_nat i) h = Done v h.
Proof. intros O I E. unfold read_int. erewrite bind_done by (eapply get_ok; eauto). unfold element. rewrite at_nat, E. reflexivity. Qed.
Lemma read_ptr_ok own h0 h p l i v : owns own h0 h -> In (p, BPtrs l) own -> nth_error l i = Some (Some v) ->
  read_ptr p (Z.of_nat i) h = Done v h.
Proof. intros O I E. unfold read_ptr. erewrite bind_done by (eapply get_ok; eauto). unfold element. rewrite at_nat, E. reflexivity. Qed.
Lemma write_int_ok own h0 h p l i v : owns ((p, BInts l) :: own) h0 h -> (i < length l)%nat ->
  exists h', write_int p (Z.of_nat i) v h = Done tt h' /\ owns ((p, BInts (set_nth i (Some v) l)) :: own) h0 h'.
Proof.
  intros O L. unfold write_int. erewrite bind_done by (eapply get_ok; [eauto|now left]). cbn beta iota. rewrite at_nat.
  destruct (nth_error l i) eqn:E; [|apply nth_error_None in E; lia]. rewrite Nat2Z.id. eapply put_ok; eauto.
Qed.
Lemma write_ptr_ok own h0 h p l i v : owns ((p, BPtrs l) :: own) h0 h -> (i < length l)%nat ->
  exists h', write_ptr p (Z.of_nat i) v h = Done tt h' /\ owns ((p, BPtrs (set_nth i (Some v) l)) :: own) h0 h'.
Proof.
  intros O L. unfold write_ptr. erewrite bind_done by (eapply get_ok; [eauto|now left]). cbn beta iota. rewrite at_nat.
  destruct (nth_error l i) eqn:E; [|apply nth_error_None in E; lia]. rewrite Nat2Z.id. eapply put_ok; eauto.
Qed.
Lemma delete_array_ok own h0 h p b : owns ((p, b) :: own) h0 h -> match b with BObj _ => False | _ => True end ->
  exists h', delete_array p h = Done tt h' /\ owns own h0 h'.
Proof.
  intros O K. unfold delete_array. erewrite bind_done by (eapply get_ok; [eauto|now left]).
  destruct b; [| |destruct K]; eapply free_ok; eauto.
Qed.
Lemma delete_obj_ok own h0 h p o : owns ((p, BObj o) :: own) h0 h -> exists h', delete_obj p h = Done tt h' /\ owns own h0 h'.
Proof. intros O. unfold delete_obj. erewrite bind_done by (eapply get_ok; [eauto|now left]). eapply free_ok; eauto. Qed.
Lemma read_obj_ok own h0 h p o : owns own h0 h -> In (p, BObj o) own -> read_obj p h = Done o h.
Proof. intros O I. unfold read_obj. erewrite bind_done by (eapply get_ok; eauto). reflexivity. Qed.
Lemma change_ok own h0 h p o f : owns ((p, BObj o) :: own) h0 h -> exists h', change p f h = Done tt h' /\ owns ((p, BObj (f o)) :: own) h0 h'.
Proof.
  intros O. unfold change. erewrite bind_done by (eapply read_obj_ok; [eauto|now left]). unfold write_obj.
  erewrite bind_done by (eapply read_obj_ok; [eauto|now left]). eapply put_ok; eauto.
Qed.

(** Arrays of arrays. *)
Lemma read2_ok own h0 h x ps i r row j v : owns own h0 h -> In (x, BPtrs ps) own -> nth_error ps i = Some (Some (Some r)) ->
  In (r, BInts row) own -> nth_error row j = Some (Some v) -> read2 x (Z.of_nat i) (Z.of_nat j) h = Done v h.
Proof.
  intros O I1 E1 I2 E2. unfold read2. erewrite bind_done by (eapply read_ptr_ok; eauto). cbn [deref].
  erewrite bind_done by reflexivity. eapply read_int_ok; eauto.
Qed.
Lemma read2p_ok own h0 h x ps i r row j v : owns own h0 h -> In (x, BPtrs ps) own -> nth_error ps i = Some (Some (Some r)) ->
  In (r, BPtrs row) own -> nth_error row j = Some (Some v) -> read2p x (Z.of_nat i) (Z.of_nat j) h = Done v h.
Proof.
  intros O I1 E1 I2 E2. unfold read2p. erewrite bind_done by (eapply read_ptr_ok; eauto). cbn [deref].
  erewrite bind_done by reflexivity. eapply read_ptr_ok; eauto.
Qed.
Lemma write2_ok own h0 h x ps i r row j v : owns ((r, BInts row) :: own) h0 h -> In (x, BPtrs ps) own ->
  nth_error ps i = Some (Some (Some r)) -> (j < length row)%nat ->
  exists h', write2 x (Z.of_nat i) (Z.of_nat j) v h = Done tt h' /\ owns ((r, BInts (set_nth j (Some v) row)) :: own) h0 h'.
Proof.
  intros O I1 E1 L. unfold write2. erewrite bind_done by (eapply read_ptr_ok; [eauto|right; eauto|eauto]). cbn [deref].
  erewrite bind_done by reflexivity. eapply write_int_ok; eauto.
Qed.
Lemma write2p_ok own h0 h x ps i r row j v : owns ((r, BPtrs row) :: own) h0 h -> In (x, BPtrs ps) own ->
  nth_error ps i = Some (Some (Some r)) -> (j < length row)%nat ->
  exists h', write2p x (Z.of_nat i) (Z.of_nat j) v h = Done tt h' /\ owns ((r, BPtrs (set_nth j (Some v) row)) :: own) h0 h'.
Proof.
  intros O I1 E1 L. unfold write2p. erewrite bind_done by (eapply read_ptr_ok; [eauto|right; eauto|eauto]). cbn [deref].
  erewrite bind_done by reflexivity. eapply write_ptr_ok; eauto.
Qed.

(** Lists. *)
Lemma set_nth_app {A} (l1 : list A) x y l2 : set_nth (length l1) x (l1 ++ y :: l2) = l1 ++ x :: l2.
Proof. induction l1; cbn; congruence. Qed.
Lemma set_nth_length {A} i (x : A) l : length (set_nth i x l) = length l.
Proof. revert i. induction l; destruct i; cbn; auto. Qed.
Lemma nth_error_mid {A} (l1 : list A) x l2 : nth_error (l1 ++ x :: l2) (length l1) = Some x.
Proof. rewrite nth_error_app2 by lia. now rewrite Nat.sub_diag. Qed.

(** A loop that goes through the states [P]. *)
Lemma for_ok {S} (P : nat -> S -> heap -> Prop) (D : crash -> Prop) (body : Z -> S -> M S) (n : nat) (start : Z) (s : S) h :
  P O s h ->
  (forall k s h, (k < n)%nat -> P k s h -> wp (body (start + Z.of_nat k) s) h (fun s' h' => P (k + 1)%nat s' h') D) ->
  wp (for_ n start body s) h (fun s' h' => P n s' h') D.
Proof.
  revert start s h P. induction n as [|n IH]; intros start s h P H0 HS; cbn [for_].
  - apply wp_ret. exact H0.
  - apply wp_bind. pose proof (HS O s h ltac:(lia) H0) as H1. rewrite Z.add_0_r in H1. eapply wp_mono; [exact H1| |auto].
    cbn beta. intros s1 h1 P1. apply (IH (start + 1) s1 h1 (fun k => P (Datatypes.S k))); [exact P1|].
    intros k s2 h2 K P2. replace (start + 1 + Z.of_nat k) with (start + Z.of_nat (Datatypes.S k)) by lia. apply HS; [lia|exact P2].
Qed.

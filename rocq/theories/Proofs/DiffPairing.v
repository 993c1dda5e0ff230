(** The pairing computed by a comparison. *)
From Verif Require Export Proofs.DiffProofs.
From Coq Require Import Lia.
Open Scope Z_scope.

(** * Outlines *)
Notation orec := (Z * (nat * option Z))%type.
Definition eoutline (d : nat) (par : option Z) (x : elem) : list orec :=
  match x with
  | ENode n => outline d par n
  | EEntry m _ v => (mid m, (d, par)) :: outline (S d) (Some (mid m)) v
  end.
Definition eids (x : elem) : list Z := map fst (eoutline 0 None x).

Lemma flat_map_map {A B C} (f : A -> B) (g : B -> list C) l : flat_map g (map f l) = flat_map (fun x => g (f x)) l.
Proof. induction l as [|x l IH]; [reflexivity|]. cbn [map flat_map]. rewrite IH. reflexivity. Qed.

Lemma outline_children d par n : outline d par n = (nid n, (d, par)) :: flat_map (eoutline (S d) (Some (nid n))) (children n).
Proof. destruct n as [m p|m l|m l]; cbn [outline children flat_map]; [reflexivity| |]; rewrite flat_map_map; reflexivity. Qed.

Lemma eoutline_head d par x : exists t, eoutline d par x = (eid x, (d, par)) :: t.
Proof. destruct x; cbn [eoutline eid]; [rewrite outline_children; eauto|eauto]. Qed.

Lemma map_flat_map' {A B C} (f : B -> C) (g : A -> list B) l : map f (flat_map g l) = flat_map (fun x => map f (g x)) l.
Proof. induction l as [|x l IH]; [reflexivity|]. cbn [flat_map]. rewrite map_app, IH. reflexivity. Qed.
Lemma flat_map_ext_F {A B} (f g : A -> list B) l : (forall x, In x l -> f x = g x) -> flat_map f l = flat_map g l.
Proof. induction l as [|x l IH]; intros H; [reflexivity|]. cbn [flat_map]. rewrite (H x) by (left; reflexivity). f_equal. apply IH. intros y I. apply H. right. exact I. Qed.

Lemma outline_ids n : forall d par, map fst (outline d par n) = ids n.
Proof.
  induction n as [m p|m l IH|m l IH] using node_ind'; intros d par.
  - reflexivity.
  - unfold ids. cbn [outline elements map fst]. f_equal. rewrite !map_flat_map'. apply flat_map_ext_F. intros x I. rewrite Forall_forall in IH.
    rewrite (IH x I). unfold ids. clear. generalize 1%nat, 2%nat. intros d d'.
    revert d d'. induction x as [m p|m l IH|m l IH] using node_ind'; intros d d'; cbn [elements map fst]; [reflexivity| |]; f_equal;
      rewrite !map_flat_map'; apply flat_map_ext_F; intros y I; rewrite Forall_forall in IH; [apply IH, I|].
    cbn [map fst]. f_equal. apply (IH y I).
  - unfold ids. cbn [outline elements map fst]. f_equal. rewrite !map_flat_map'. apply flat_map_ext_F. intros x I. rewrite Forall_forall in IH.
    cbn [map fst]. f_equal. rewrite (IH x I). unfold ids. clear. generalize 1%nat, 3%nat. intros d d'.
    generalize (snd x). clear x. intros x.
    revert d d'. induction x as [m p|m l IH|m l IH] using node_ind'; intros d d'; cbn [elements map fst]; [reflexivity| |]; f_equal;
      rewrite !map_flat_map'; apply flat_map_ext_F; intros y I; rewrite Forall_forall in IH; [apply IH, I|].
    cbn [map fst]. f_equal. apply (IH y I).
Qed.

Lemma eoutline_ids d par x : map fst (eoutline d par x) = eids x.
Proof. unfold eids. destruct x; cbn [eoutline map fst]; rewrite !outline_ids; reflexivity. Qed.

Lemma ids_children n : ids n = nid n :: flat_map eids (children n).
Proof. rewrite <- (outline_ids n 0 None), outline_children. cbn [map fst]. f_equal. rewrite map_flat_map'. apply flat_map_ext_F. intros x _. apply eoutline_ids. Qed.

Lemma eids_node n : eids (ENode n) = ids n.
Proof. apply outline_ids. Qed.
Lemma eids_entry m k v : eids (EEntry m k v) = mid m :: ids v.
Proof. unfold eids. cbn [eoutline map fst]. rewrite outline_ids. reflexivity. Qed.
Lemma eid_in x : In (eid x) (eids x).
Proof. destruct (eoutline_head 0 None x) as (t & E). unfold eids. rewrite E. left. reflexivity. Qed.

(** * Sublists *)
Lemma sublist_nil {A} (l : list A) : sublist [] l.
Proof. induction l; constructor; auto. Qed.
Lemma sublist_app {A} (a b a' b' : list A) : sublist a a' -> sublist b b' -> sublist (a ++ b) (a' ++ b').
Proof. intros H1 H2. induction H1; cbn [app]; [exact H2|apply SL_skip; auto|apply SL_keep; auto]. Qed.
Lemma sublist_In {A} (a b : list A) x : sublist a b -> In x a -> In x b.
Proof. intros H. induction H; cbn [In]; intuition. Qed.
Lemma sublist_map {A B} (f : A -> B) a b : sublist a b -> sublist (map f a) (map f b).
Proof. induction 1; cbn [map]; [constructor|apply SL_skip; auto|apply SL_keep; auto]. Qed.
Lemma sublist_NoDup {A} (a b : list A) : sublist a b -> NoDup b -> NoDup a.
Proof.
  induction 1 as [|x l l' H IH|x l l' H IH]; intros N; [constructor| |]; inversion_clear N as [|? ? N1 N2]; [auto|].
  constructor; [|auto]. intros I. apply N1. eapply sublist_In; eauto.
Qed.

(** * Maps *)
Lemma mset_In {B} k (w : B) l u v : In (u, v) (mset k w l) <-> (u = k /\ v = w) \/ (u <> k /\ In (u, v) l).
Proof.
  unfold mset. cbn [In]. rewrite filter_In. cbn [fst]. split.
  - intros [[= -> ->]|[I N]]; [auto|]. right. split; [|exact I]. intros ->. rewrite Z.eqb_refl in N. discriminate.
  - intros [[-> ->]|[N I]]; [auto|]. right. split; [exact I|]. apply Z.eqb_neq in N. rewrite N. reflexivity.
Qed.

Definition keys {B} (l : list (Z * B)) : list Z := map fst l.
Lemma keys_In {B} (l : list (Z * B)) u v : In (u, v) l -> In u (keys l).
Proof. intros I. apply (in_map fst) in I. exact I. Qed.

Lemma mset_keys {B} k (w : B) l : NoDup (keys l) -> NoDup (keys (mset k w l)).
Proof.
  unfold keys, mset. cbn [map fst]. intros N. constructor.
  - rewrite in_map_iff. intros ([u v] & E & I). cbn in E. subst u. apply filter_In in I. destruct I as [_ I]. cbn in I. rewrite Z.eqb_refl in I. discriminate.
  - induction l as [|[u v] l IH]; [constructor|]. cbn [filter map fst] in *. inversion_clear N as [|? ? N1 N2].
    destruct (negb (u =? k)); [|auto]. cbn [map fst]. constructor; [|auto].
    rewrite in_map_iff in *. intros ([u' v'] & E & I). apply filter_In in I. apply N1. exists (u', v'). split; [exact E|apply I].
Qed.

Definition msets {B} (l0 l : list (Z * B)) : list (Z * B) := fold_left (fun l e => mset (fst e) (snd e) l) l0 l.
Lemma msets_keys {B} (l0 : list (Z * B)) : forall l, NoDup (keys l) -> NoDup (keys (msets l0 l)).
Proof. induction l0 as [|[k w] l0 IH]; intros l N; [exact N|]. cbn [msets fold_left]. apply IH, mset_keys, N. Qed.

Lemma msets_In {B} (l0 : list (Z * B)) : forall l u v, NoDup (keys l0) ->
  (In (u, v) (msets l0 l) <-> In (u, v) l0 \/ (~ In u (keys l0) /\ In (u, v) l)).
Proof.
  induction l0 as [|[k w] l0 IH]; intros l u v N; [cbn; tauto|]. unfold keys in N. cbn [map fst] in N. inversion_clear N as [|? ? N1 N2].
  change (msets ((k, w) :: l0) l) with (msets l0 (mset k w l)). rewrite IH by exact N2. rewrite mset_In. cbn [keys map fst In]. fold (keys l0).
  split.
  - intros [I|[NI [[-> ->]|[NK I]]]]; auto. right. split; [|exact I]. intros [Q|Q]; congruence || auto.
  - intros [[[= -> ->]|I]|[NI I]].
    + right. split; [exact N1|auto].
    + auto.
    + right. split; [intros Q; apply NI; right; exact Q|]. right. split; [intros ->; apply NI; left; reflexivity|exact I].
Qed.

(** * Pairs *)
Definition idp (P : list (orec * orec)) : list (Z * Z) := map (fun p => (fst (fst p), fst (snd p))) P.
Lemma idp_app P Q : idp (P ++ Q) = idp P ++ idp Q.
Proof. apply map_app. Qed.
Lemma idp_fst P u v : In (u, v) (idp P) -> In u (map fst (map fst P)).
Proof. unfold idp. rewrite in_map_iff. intros (p & [= <- <-] & I). rewrite map_map. apply in_map_iff. eauto. Qed.
Lemma idp_snd P u v : In (u, v) (idp P) -> In v (map fst (map snd P)).
Proof. unfold idp. rewrite in_map_iff. intros (p & [= <- <-] & I). rewrite map_map. apply in_map_iff. eauto. Qed.

(** The map [eqs] holds the pairs of [I], each one way or the other (or both). *)
Definition agrees (eqs : Z -> Z -> Prop) (I : list (Z * Z)) : Prop :=
  (forall u v, eqs u v -> In (u, v) I \/ In (v, u) I) /\ (forall u v, In (u, v) I -> eqs u v \/ eqs v u).

(** Same depth; parents paired, [root] being the pair of roots. *)
Definition hangs (root : Z * Z) (I : list (Z * Z)) (p : orec * orec) : Prop :=
  fst (snd (fst p)) = fst (snd (snd p)) /\
  exists pu pv, snd (snd (fst p)) = Some pu /\ snd (snd (snd p)) = Some pv /\ ((pu, pv) = root \/ In (pu, pv) I).

Lemma hangs_mono root I I' p : (forall x, In x I -> In x I') -> hangs root I p -> hangs root I' p.
Proof. intros M (D & pu & pv & E1 & E2 & H). split; [exact D|]. exists pu, pv. intuition. Qed.

Definition Inv (x y : elem) (m : mat) : Prop :=
  NoDup (keys (meqv m)) /\
  exists r : bool, forall d px py, exists Q,
    sublist (map fst Q) (tl (eoutline d px x)) /\ sublist (map snd Q) (tl (eoutline d py y)) /\
    Forall (hangs (eid x, eid y) (idp Q)) Q /\
    agrees (fun u v => In (u, v) (meqv m)) ((if r then [(eid x, eid y)] else []) ++ idp Q).

Definition InvN (a b : node) (m : mat) : Prop :=
  NoDup (keys (meqv m)) /\
  exists r : bool, forall d px py, exists Q, (r = false -> Q = []) /\
    sublist (map fst Q) (tl (outline d px a)) /\ sublist (map snd Q) (tl (outline d py b)) /\
    Forall (hangs (nid a, nid b) (idp Q)) Q /\
    agrees (fun u v => In (u, v) (meqv m)) ((if r then [(nid a, nid b)] else []) ++ idp Q).

Lemma tl_ids x d par : map fst (tl (eoutline d par x)) = tl (eids x).
Proof. rewrite <- (eoutline_ids d par x). destruct (eoutline d par x); reflexivity. Qed.
Lemma eids_head x : eids x = eid x :: tl (eids x).
Proof. unfold eids. destruct (eoutline_head 0 None x) as (t & ->). reflexivity. Qed.

(** Consequences for the map of the pair. *)
Lemma Inv_sides x y m u v : Inv x y m -> In (u, v) (meqv m) -> (In u (eids x) /\ In v (eids y)) \/ (In u (eids y) /\ In v (eids x)).
Proof.
  intros (_ & r & H) I. destruct (H O None None) as (Q & S1 & S2 & _ & A & _).
  assert (K : forall u v, In (u, v) ((if r then [(eid x, eid y)] else []) ++ idp Q) -> In u (eids x) /\ In v (eids y)).
  { intros p q J. apply in_app_or in J. destruct J as [J|J].
    - destruct r; [|destruct J]. destruct J as [[= <- <-]|[]]. split; apply eid_in.
    - rewrite (eids_head x), (eids_head y). split; right.
      + apply idp_fst in J. rewrite <- (tl_ids x 0 None). eapply sublist_In; [apply sublist_map, S1|exact J].
      + apply idp_snd in J. rewrite <- (tl_ids y 0 None). eapply sublist_In; [apply sublist_map, S2|exact J]. }
  destruct (A u v I) as [J|J]; apply K in J; tauto.
Qed.

Lemma NoDup_app_not {A} (a b : list A) x : NoDup (a ++ b) -> In x a -> In x b -> False.
Proof.
  induction a as [|y a IH]; cbn [app]; intros N I J; [destruct I|]. inversion_clear N as [|? ? N1 N2]. destruct I as [->|I].
  - apply N1. apply in_or_app. auto.
  - eauto.
Qed.
Lemma NoDup_app_l {A} (a b : list A) : NoDup (a ++ b) -> NoDup a.
Proof. induction a as [|x a IH]; intros N; [constructor|]. inversion_clear N as [|? ? N1 N2]. constructor; [|auto]. intros I. apply N1, in_or_app. auto. Qed.
Lemma NoDup_app_r {A} (a b : list A) : NoDup (a ++ b) -> NoDup b.
Proof. induction a as [|x a IH]; intros N; [exact N|]. inversion_clear N. auto. Qed.
Lemma NoDup_app_in {A} (a b : list A) : NoDup a -> NoDup b -> (forall x, In x a -> In x b -> False) -> NoDup (a ++ b).
Proof.
  intros Na Nb D. induction a as [|x a IH]; [exact Nb|]. inversion_clear Na as [|? ? N1 N2]. cbn [app]. constructor.
  - intros I. apply in_app_or in I. destruct I as [I|I]; [auto|]. apply (D x); [left; reflexivity|exact I].
  - apply IH; [exact N2|]. intros y I J. apply (D y); [right; exact I|exact J].
Qed.

Lemma Inv_root x y m v : NoDup (eids x ++ eids y) -> Inv x y m -> In (eid x, v) (meqv m) -> v = eid y.
Proof.
  intros N (_ & r & H) I. destruct (H O None None) as (Q & S1 & S2 & _ & A & _).
  assert (NX : ~ In (eid x) (map fst (map fst Q))).
  { intros J. pose proof (NoDup_app_l _ _ N) as NX. rewrite (eids_head x) in NX. inversion_clear NX as [|? ? N1 _]. apply N1.
    rewrite <- (tl_ids x 0 None). eapply sublist_In; [apply sublist_map, S1|exact J]. }
  assert (NY : In (eid x) (eids y) -> False) by (intros J; exact (NoDup_app_not _ _ _ N (eid_in x) J)).
  destruct (A _ _ I) as [J|J]; apply in_app_or in J; destruct J as [J|J].
  - destruct r; [|destruct J]. destruct J as [[= J]|[]]. congruence.
  - apply idp_fst in J. contradiction.
  - destruct r; [|destruct J]. destruct J as [[= J1 J2]|[]]. exfalso. apply NY. rewrite <- J2. apply eid_in.
  - exfalso. apply NY. apply idp_snd in J. rewrite (eids_head y). right. rewrite <- (tl_ids y 0 None). eapply sublist_In; [apply sublist_map, S2|exact J].
Qed.

(** * Pairs collected on a route *)
Definition collected (st : list step) (u v : Z) : Prop :=
  exists x y o s, In (StM x y o s) st /\ ((u = eid x /\ v = eid y) \/ In (u, v) (meqv s)).

Lemma route_impl (R R' : elem -> elem -> mat -> Prop) la lb st : (forall x y s, In x la -> In y lb -> R x y s -> R' x y s) -> route R la lb st -> route R' la lb st.
Proof.
  intros H RT. induction RT as [|la lb x st RT IH|la lb y st RT IH|la lb x y o s st RT IH HR]; constructor.
  - apply IH. intros. apply H; auto. apply in_or_app. auto.
  - apply IH. intros. apply H; auto. apply in_or_app. auto.
  - apply IH. intros. apply H; auto; apply in_or_app; auto.
  - apply H; auto; apply in_or_app; right; left; reflexivity.
Qed.

Lemma flat_map_snoc {A B} (f : A -> list B) l x : flat_map f (l ++ [x]) = flat_map f l ++ f x.
Proof. rewrite flat_map_app. cbn [flat_map]. rewrite app_nil_r. reflexivity. Qed.

Lemma route_eqs la lb st : route Inv la lb st -> forall ops eqs, NoDup (flat_map eids la ++ flat_map eids lb) ->
  NoDup (keys eqs) -> (forall u, In u (keys eqs) -> ~ In u (flat_map eids la ++ flat_map eids lb)) ->
  let eqs' := snd (fold_left run_step st (ops, eqs)) in
  NoDup (keys eqs') /\ forall u v, In (u, v) eqs' <-> In (u, v) eqs \/ collected st u v.
Proof.
  induction 1 as [|la lb x st RT IH|la lb y st RT IH|la lb x y o s st RT IH HR]; intros ops eqs N NK D.
  - cbn. split; [exact NK|]. intros u v. split; [auto|]. intros [I|(x & y & o & s & [] & _)]. exact I.
  - cbn [fold_left run_step]. rewrite flat_map_snoc in N, D.
    destruct (IH (mset (eid x) OAdd ops) eqs) as [K1 K2].
    + rewrite <- app_assoc in N. apply NoDup_app_in; [exact (NoDup_app_l _ _ N)|exact (NoDup_app_r _ _ (NoDup_app_r _ _ N))|].
      intros z I J. apply (NoDup_app_not _ _ z N I). apply in_or_app. auto.
    + exact NK.
    + intros u I J. apply (D u I). apply in_app_or in J. rewrite <- app_assoc. apply in_or_app. destruct J; [auto|]. right. apply in_or_app. auto.
    + split; [exact K1|]. intros u v. rewrite K2. apply or_iff_compat_l. unfold collected. split; intros (x' & y' & o' & s' & I & H).
      * exists x', y', o', s'. split; [right; exact I|exact H].
      * destruct I as [I|I]; [discriminate|]. eauto 8.
  - cbn [fold_left run_step]. rewrite flat_map_snoc in N, D.
    destruct (IH (mset (eid y) OAdd ops) eqs) as [K1 K2].
    + rewrite app_assoc in N. exact (NoDup_app_l _ _ N).
    + exact NK.
    + intros u I J. apply (D u I). rewrite app_assoc. apply in_or_app. auto.
    + split; [exact K1|]. intros u v. rewrite K2. apply or_iff_compat_l. unfold collected. split; intros (x' & y' & o' & s' & I & H).
      * exists x', y', o', s'. split; [right; exact I|exact H].
      * destruct I as [I|I]; [discriminate|]. eauto 8.
  - cbn [fold_left run_step]. rewrite !flat_map_snoc in N, D. fold (msets (meqv s) eqs). fold (msets (mops s) (mset (eid x) o (mset (eid y) o ops))).
    assert (NXY : NoDup (eids x ++ eids y)).
    { apply NoDup_app_in.
      - exact (NoDup_app_r _ _ (NoDup_app_l _ _ N)).
      - exact (NoDup_app_r _ _ (NoDup_app_r _ _ N)).
      - intros z I J. apply (NoDup_app_not _ _ z N); apply in_or_app; auto. }
    assert (SK : forall u v, In (u, v) (meqv s) -> In u (eids x ++ eids y)).
    { intros u v I. apply in_or_app. destruct (Inv_sides x y s u v HR I) as [[A _]|[A _]]; auto. }
    assert (E1 : forall u v, In (u, v) (mset (eid x) (eid y) (msets (meqv s) eqs)) <-> In (u, v) eqs \/ (u = eid x /\ v = eid y) \/ In (u, v) (meqv s)).
    { intros u v. rewrite mset_In, msets_In by apply HR. split.
      - intros [H|[_ [H|[_ H]]]]; auto.
      - intros [H|[H|H]]; auto.
        + right. pose proof (D u (keys_In _ _ _ H)) as Du. split.
          * intros ->. apply Du. apply in_or_app. left. apply in_or_app. right. apply eid_in.
          * right. split; [|exact H]. intros J. unfold keys in J. apply in_map_iff in J. destruct J as ([u' v'] & E & J). cbn in E. subst u'.
            apply SK in J. apply in_app_or in J. apply Du. apply in_or_app. destruct J; [left|right]; apply in_or_app; auto.
        + destruct (Z.eq_dec u (eid x)) as [->|NE]; [|auto]. left. split; [reflexivity|]. eapply Inv_root; eauto. }
    destruct (IH (msets (mops s) (mset (eid x) o (mset (eid y) o ops))) (mset (eid x) (eid y) (msets (meqv s) eqs))) as [K1 K2].
    + rewrite <- app_assoc in N. apply NoDup_app_in; [exact (NoDup_app_l _ _ N)|exact (NoDup_app_l _ _ (NoDup_app_r _ _ (NoDup_app_r _ _ N)))|].
      intros z I J. apply (NoDup_app_not _ _ z N I). apply in_or_app. right. apply in_or_app. auto.
    + apply mset_keys, msets_keys, NK.
    + intros u I J. unfold keys in I. apply in_map_iff in I. destruct I as ([u' v] & E & I). cbn in E. subst u'. apply E1 in I.
      assert (Q : In u (eids x ++ eids y) -> False).
      { intros Q. apply in_app_or in J. apply in_app_or in Q. 
        destruct J as [J|J]; destruct Q as [Q|Q].
        - exact (NoDup_app_not _ _ u (NoDup_app_l _ _ N) J Q).
        - apply (NoDup_app_not _ _ u N); apply in_or_app; auto.
        - apply (NoDup_app_not _ _ u N); apply in_or_app; auto.
        - exact (NoDup_app_not _ _ u (NoDup_app_r _ _ N) J Q). }
      destruct I as [I|[[-> _]|I]].
      * apply (D u (keys_In _ _ _ I)). apply in_app_or in J. apply in_or_app. destruct J; [left|right]; apply in_or_app; auto.
      * apply Q, in_or_app. left. apply eid_in.
      * apply Q. eapply SK, I.
    + split; [exact K1|]. intros u v. rewrite K2, E1. unfold collected. split.
      * intros [[H|H]|(x' & y' & o' & s' & I & H)]; [auto| |].
        -- right. exists x, y, o, s. split; [left; reflexivity|exact H].
        -- right. exists x', y', o', s'. split; [right; exact I|exact H].
      * intros [H|(x' & y' & o' & s' & [E|I] & H)]; [auto|injection E as <- <- <- <-; auto|]. right. eauto 8.
Qed.

Lemma route_pairs la lb st : route Inv la lb st -> forall d pa pb, exists Q,
  sublist (map fst Q) (flat_map (eoutline d (Some pa)) la) /\ sublist (map snd Q) (flat_map (eoutline d (Some pb)) lb) /\
  Forall (hangs (pa, pb) (idp Q)) Q /\ agrees (collected st) (idp Q).
Proof.
  induction 1 as [|la lb x st RT IH|la lb y st RT IH|la lb x y o s st RT IH HR]; intros d pa pb.
  - exists []. cbn. split; [constructor|]. split; [constructor|]. split; [constructor|]. split; [|intros u v []].
    intros u v (x & y & o & s & [] & _).
  - destruct (IH d pa pb) as (Q & S1 & S2 & F & A1 & A2). exists Q. rewrite flat_map_snoc. split; [|split; [exact S2|split; [exact F|]]].
    + rewrite <- (app_nil_r (map fst Q)). apply sublist_app; [exact S1|apply sublist_nil].
    + split.
      * intros u v (x' & y' & o' & s' & [I|I] & H); [discriminate|]. apply A1. exists x', y', o', s'. auto.
      * intros u v I. destruct (A2 u v I) as [(x' & y' & o' & s' & J & H)|(x' & y' & o' & s' & J & H)]; [left|right]; exists x', y', o', s'; split; auto; right; exact J.
  - destruct (IH d pa pb) as (Q & S1 & S2 & F & A1 & A2). exists Q. rewrite flat_map_snoc. split; [exact S1|split; [|split; [exact F|]]].
    + rewrite <- (app_nil_r (map snd Q)). apply sublist_app; [exact S2|apply sublist_nil].
    + split.
      * intros u v (x' & y' & o' & s' & [I|I] & H); [discriminate|]. apply A1. exists x', y', o', s'. auto.
      * intros u v I. destruct (A2 u v I) as [(x' & y' & o' & s' & J & H)|(x' & y' & o' & s' & J & H)]; [left|right]; exists x', y', o', s'; split; auto; right; exact J.
  - destruct (IH d pa pb) as (Q & S1 & S2 & F & A1 & A2). destruct HR as (_ & r & HR). destruct (HR d (Some pa) (Some pb)) as (Q1 & T1 & T2 & F1 & B1 & B2).
    destruct (eoutline_head d (Some pa) x) as (tx & EX). destruct (eoutline_head d (Some pb) y) as (ty & EY).
    rewrite EX in T1. rewrite EY in T2. cbn [tl] in T1, T2.
    set (rx := (eid x, (d, Some pa))) in *. set (ry := (eid y, (d, Some pb))) in *.
    exists (Q ++ (rx, ry) :: Q1). rewrite !flat_map_snoc, !map_app, EX, EY. cbn [map fst snd].
    assert (IP : idp (Q ++ (rx, ry) :: Q1) = idp Q ++ (eid x, eid y) :: idp Q1) by (rewrite idp_app; reflexivity).
    split; [apply sublist_app; [exact S1|constructor; exact T1]|]. split; [apply sublist_app; [exact S2|constructor; exact T2]|]. rewrite IP. split; [|split].
    + apply Forall_app. split; [|constructor].
      * eapply Forall_impl; [|exact F]. intros p. apply hangs_mono. intros z I. apply in_or_app. auto.
      * split; [reflexivity|]. exists pa, pb. cbn. auto.
      * eapply Forall_impl; [|exact F1]. intros p (D & pu & pv & E1 & E2 & H). split; [exact D|]. exists pu, pv. split; [exact E1|]. split; [exact E2|].
        right. apply in_or_app. right. destruct H as [H|H]; [left; congruence|right; exact H].
    + intros u v (x' & y' & o' & s' & [E|I] & H).
      * injection E as <- <- <- <-. destruct H as [[-> ->]|H]; [left; apply in_or_app; right; left; reflexivity|].
        destruct (B1 u v H) as [J|J]; [left|right]; apply in_or_app; right; apply in_app_or in J; (destruct J as [J|J]; [destruct r; [|destruct J]; destruct J as [J|[]]; left; exact J|right; exact J]).
      * destruct (A1 u v) as [J|J]; [exists x', y', o', s'; auto|left|right]; apply in_or_app; auto.
    + intros u v I. apply in_app_or in I. destruct I as [I|[[= <- <-]|I]].
      * destruct (A2 u v I) as [(x' & y' & o' & s' & J & H)|(x' & y' & o' & s' & J & H)]; [left|right]; exists x', y', o', s'; split; auto; right; exact J.
      * left. exists x, y, o, s. split; [left; reflexivity|auto].
      * destruct (B2 u v) as [J|J]; [apply in_or_app; auto|left|right]; exists x, y, o, s; (split; [left; reflexivity|auto]).
Qed.

(** * The comparison of two values *)
Lemma scored_inv r x y st : NoDup (keys (meqv (scored r (eid x) (eid y) st))) /\ Inv x y (scored r (eid x) (eid y) st).
Proof.
  assert (N : NoDup (keys (meqv (scored r (eid x) (eid y) st)))) by (unfold scored; destruct st; cbn; repeat constructor; auto).
  split; [exact N|]. split; [exact N|]. exists st. intros d px py. exists []. cbn [map idp].
  split; [apply sublist_nil|]. split; [apply sublist_nil|]. split; [constructor|]. rewrite app_nil_r. unfold scored. destruct st; cbn; split; intros u v H; auto.
Qed.

Lemma manual_inv x y c o : Inv x y (manual c o).
Proof.
  split; [constructor|]. exists false. intros d px py. exists []. cbn. split; [apply sublist_nil|]. split; [apply sublist_nil|]. split; [constructor|].
  split; intros u v [].
Qed.

Lemma InvN_scored r a b st : InvN a b (scored r (nid a) (nid b) st).
Proof.
  split; [apply (scored_inv r (ENode a) (ENode b) st)|]. exists st. intros d px py. exists []. split; [reflexivity|]. cbn [map idp].
  split; [apply sublist_nil|]. split; [apply sublist_nil|]. split; [constructor|]. rewrite app_nil_r. unfold scored. destruct st; cbn; split; intros u v H; auto.
Qed.

Lemma InvN_manual a b c o : InvN a b (manual c o).
Proof.
  split; [constructor|]. exists false. intros d px py. exists []. split; [reflexivity|]. cbn. split; [apply sublist_nil|]. split; [apply sublist_nil|]. split; [constructor|].
  split; intros u v [].
Qed.

Lemma InvN_Inv a b m : InvN a b m -> Inv (ENode a) (ENode b) m.
Proof. intros (N & r & H). split; [exact N|]. exists r. intros d px py. destruct (H d px py) as (Q & _ & K). exists Q. exact K. Qed.

Lemma InvN_entry ma ka va mb kb vb m : InvN va vb m -> Inv (EEntry ma ka va) (EEntry mb kb vb) m.
Proof.
  intros (N & r & H). split; [exact N|]. exists false. intros d px py.
  destruct (H (S d) (Some (mid ma)) (Some (mid mb))) as (Q & Q0 & S1 & S2 & F & A).
  rewrite (outline_children _ _ va) in S1. rewrite (outline_children _ _ vb) in S2. cbn [tl] in S1, S2.
  cbn [eoutline tl eid]. rewrite (outline_children _ _ va), (outline_children _ _ vb).
  set (ra := (nid va, (S d, Some (mid ma)))) in *. set (rb := (nid vb, (S d, Some (mid mb)))) in *.
  destruct r.
  - exists ((ra, rb) :: Q). cbn [map fst snd idp app] in *. split; [constructor; exact S1|]. split; [constructor; exact S2|]. split; [|exact A].
    constructor.
    + split; [reflexivity|]. exists (mid ma), (mid mb). cbn. auto.
    + eapply Forall_impl; [|exact F]. intros p (D & pu & pv & E1 & E2 & HH). split; [exact D|]. exists pu, pv. split; [exact E1|]. split; [exact E2|].
      right. destruct HH as [HH|HH]; [left; cbn; congruence|right; exact HH].
  - rewrite (Q0 eq_refl) in *. exists []. cbn [map]. split; [apply sublist_nil|]. split; [apply sublist_nil|]. split; [constructor|exact A].
Qed.

Lemma child_ids n x : In x (children n) -> NoDup (ids n) -> NoDup (eids x) /\ (forall u, In u (eids x) -> In u (ids n) /\ u <> nid n).
Proof.
  rewrite ids_children. intros I N. inversion_clear N as [|? ? N1 N2]. apply in_split in I. destruct I as (l1 & l2 & E). rewrite E in *.
  rewrite flat_map_app in *. cbn [flat_map] in *. split.
  - apply NoDup_app_r in N2. apply NoDup_app_l in N2. exact N2.
  - intros u J. assert (K : In u (flat_map eids l1 ++ eids x ++ flat_map eids l2)) by (apply in_or_app; right; apply in_or_app; auto).
    split; [right; exact K|]. intros ->. contradiction.
Qed.

Lemma sub_ids x : NoDup (eids x) -> NoDup (ids (sub_nodes x)).
Proof. destruct x as [n|m k v]; [rewrite eids_node|rewrite eids_entry]; cbn [sub_nodes]; [auto|]. intros N. inversion_clear N. assumption. Qed.
Lemma sub_ids_in x u : In u (ids (sub_nodes x)) -> In u (eids x).
Proof. destruct x as [n|m k v]; [rewrite eids_node|rewrite eids_entry]; cbn [sub_nodes]; [auto|]. right. assumption. Qed.

(** * The two shapes of the comparison of containers *)
Definition R_step (a b : node) (x y : elem) (s : mat) : Prop := (pair x y = inl s /\ In x (children a) /\ In y (children b)) /\ Inv x y s.

Lemma route_and (R R' : elem -> elem -> mat -> Prop) la lb st : (forall x y s, In x la -> In y lb -> R x y s -> R' x y s) ->
  route R la lb st -> route (fun x y s => (R x y s /\ In x la /\ In y lb) /\ R' x y s) la lb st.
Proof.
  intros H RT. eapply route_impl; [|exact RT]. intros x y s I1 I2 P. auto.
Qed.

Lemma container_shape0 a b m : is_container a = true -> is_container b = true ->
  fits_memory a -> fits_memory b -> NoDup (ids a ++ ids b) -> build a b = inl m ->
  (forall x y s, In x (children a) -> In y (children b) -> pair x y = inl s -> Inv x y s) ->
  let d := mresult m in let mx := Z.max (Z.of_nat (length (children a))) (Z.of_nat (length (children b))) in
  (d / mx = 1 /\ m = mkMat (mset (nid b) OAdd (mset (nid a) OAdd [])) [] d false) \/
  (d / mx <> 1 /\ exists st ops eqs,
     route (R_step a b) (children a) (children b) st /\
     fold_left run_step st ([], []) = (ops, eqs) /\
     m = mkMat (mset (nid a) OEqu (mset (nid b) OEqu ops)) (mset (nid b) (nid a) (mset (nid a) (nid b) eqs)) d true /\
     NoDup (keys (meqv m)) /\
     forall u v, In (u, v) (meqv m) <-> (u = nid b /\ v = nid a) \/ (u = nid a /\ v = nid b) \/ collected st u v).
Proof.
  intros CA CB FA FB N H HI.
  destruct (build_subs a b m CA CB H) as (subs & (L1 & L2 & HR) & HC). clear H.
  pose proof (fits_size a FA) as SA. pose proof (fits_size b FB) as SB.
  rewrite (container_result a b subs m HC).
  set (n := length (children a)) in *. set (k := length (children b)) in *.
  destruct (walk_route subs (children a) (children b) L1 L2 ltac:(fold n k; lia) (fun x y s => pair x y = inl s)
    HR (n + k) n k [] [] ltac:(unfold n; lia) ltac:(unfold k; lia) ltac:(lia)) as (st & RT & WE).
  unfold n in RT. unfold k in RT. rewrite !firstn_all in RT. fold n k in WE.
  pose proof (route_and _ Inv _ _ _ HI RT) as RS. apply (route_impl _ Inv) in RT; [|exact HI].
  unfold container_mat in HC. fold n k in HC.
  pose proof (cv_bound _ subs n k L1 L2 eq_refl ltac:(lia) n k (le_n _) (le_n _)) as CB2. unfold cv in CB2.
  set (t := dp_table (width (Z.of_nat n) (Z.of_nat k)) k subs) in *.
  destruct (Z.max (Z.of_nat n) (Z.of_nat k) =? 0) eqn:E0; [discriminate|].
  destruct (rel_similar (fst (cell_at t n k)) (Z.max (Z.of_nat n) (Z.of_nat k)) ltac:(lia) ltac:(lia)) as (R1 & R2 & R3).
  set (rel := f32_of_Z _) in *. rewrite R1, R2, R3 in HC. intros d mx.
  destruct (Z.eqb_spec (fst (cell_at t n k) / Z.max (Z.of_nat n) (Z.of_nat k)) 1) as [E1|E1]; cbn [negb dbind] in HC.
  - left. split; [exact E1|]. injection HC as <-. reflexivity.
  - right. split; [exact E1|]. rewrite WE in HC. cbn [dbind] in HC.
    assert (NC : NoDup (flat_map eids (children a) ++ flat_map eids (children b))).
    { rewrite !ids_children in N. inversion_clear N as [|? ? _ N']. apply NoDup_app_in.
      - exact (NoDup_app_l _ _ N').
      - apply NoDup_app_r in N'. inversion_clear N'. assumption.
      - intros z Z1 Z2. apply (NoDup_app_not _ _ z N' Z1). right. exact Z2. }
    destruct (route_eqs _ _ _ RT [] [] NC ltac:(constructor) ltac:(intros u [])) as [K1 K2].
    exists st. destruct (fold_left run_step st ([], [])) as [ops eqs]. cbn [snd] in K1, K2. exists ops, eqs. injection HC as <-. cbn [meqv].
    split; [exact RS|]. split; [reflexivity|]. split; [reflexivity|]. split; [apply mset_keys, mset_keys, K1|].
    assert (NEab : nid a <> nid b).
    { intros E. apply (NoDup_app_not _ _ (nid a) N); [rewrite ids_children; left; reflexivity|]. rewrite E, ids_children. left. reflexivity. }
    assert (KE : forall u v, In (u, v) eqs -> u <> nid a /\ u <> nid b).
    { intros u v I. apply K2 in I. destruct I as [[]|I].
      destruct (route_pairs _ _ _ RT 1%nat (nid a) (nid b)) as (Q & S1 & S2 & _ & A1 & _).
      assert (S1' : forall z, In z (map fst (map fst Q)) -> In z (flat_map eids (children a))).
      { intros z J. apply (sublist_In _ _ z (sublist_map fst _ _ S1)) in J. rewrite map_flat_map' in J.
        rewrite (flat_map_ext_F _ eids) in J; [exact J|]. intros x _. apply eoutline_ids. }
      assert (S2' : forall z, In z (map fst (map snd Q)) -> In z (flat_map eids (children b))).
      { intros z J. apply (sublist_In _ _ z (sublist_map fst _ _ S2)) in J. rewrite map_flat_map' in J.
        rewrite (flat_map_ext_F _ eids) in J; [exact J|]. intros x _. apply eoutline_ids. }
      rewrite !ids_children in N.
      assert (IN : In u (flat_map eids (children a)) \/ In u (flat_map eids (children b))).
      { destruct (A1 u v I) as [J|J]; [left; apply S1', (idp_fst _ _ _ J)|right; apply S2', (idp_snd _ _ _ J)]. }
      inversion_clear N as [|? ? N1 N2].
      split; intros ->.
      - apply N1. apply in_or_app. destruct IN; [auto|right; right; assumption].
      - destruct IN as [IN|IN].
        + apply (NoDup_app_not _ _ (nid b) N2 IN). left. reflexivity.
        + apply NoDup_app_r in N2. inversion_clear N2. contradiction. }
    intros u v. rewrite !mset_In. split.
    + intros [I|[_ [I|[_ I]]]]; [auto|auto|]. apply K2 in I. destruct I as [[]|I]. auto.
    + intros [I|[I|I]]; [auto| |].
      * right. destruct I as [-> ->]. split; [exact NEab|]. auto.
      * right. assert (J : In (u, v) eqs) by (apply K2; auto). destruct (KE u v J) as [J1 J2]. auto.
Qed.

Lemma NoDup_sub_nodes a b x y : NoDup (ids a ++ ids b) -> In x (children a) -> In y (children b) ->
  NoDup (eids x ++ eids y) /\ NoDup (ids (sub_nodes x) ++ ids (sub_nodes y)).
Proof.
  intros N I1 I2. pose proof (NoDup_app_l _ _ N) as Na. pose proof (NoDup_app_r _ _ N) as Nb.
  destruct (child_ids a x I1 Na) as [Nx Dx]. destruct (child_ids b y I2 Nb) as [Ny Dy]. split.
  - apply NoDup_app_in; [exact Nx|exact Ny|]. intros z Z1 Z2. apply (NoDup_app_not _ _ z N); [apply Dx, Z1|apply Dy, Z2].
  - apply NoDup_app_in; [apply sub_ids, Nx|apply sub_ids, Ny|]. intros z Z1 Z2. apply sub_ids_in in Z1, Z2.
    apply (NoDup_app_not _ _ z N); [apply Dx, Z1|apply Dy, Z2].
Qed.

Lemma build_inv : forall a b m, fits_memory a -> fits_memory b -> NoDup (ids a ++ ids b) -> build a b = inl m -> InvN a b m.
Proof.
  induction a as [a IH] using node_children_ind. intros b m FA FB N H.
  destruct (is_container a) eqn:CA.
  2:{ destruct a as [ma pa| |]; try discriminate. cbn [build] in H. destruct b as [mb pb|mb lb|mb lb]; injection H as <-.
      - apply (InvN_scored _ (NPrim ma pa) (NPrim mb pb)).
      - apply InvN_manual.
      - apply InvN_manual. }
  destruct (is_container b) eqn:CB.
  2:{ destruct b as [mb pb| |]; try discriminate. destruct a; [discriminate| |]; cbn [build is_container] in H; injection H as <-; apply InvN_manual. }
  assert (HI : forall x y s, In x (children a) -> In y (children b) -> pair x y = inl s -> Inv x y s).
  { intros x y s I1 I2 P. destruct (NoDup_sub_nodes a b x y N I1 I2) as [_ ND].
      pose proof (IH x I1 (sub_nodes y)) as IHx.
      destruct x as [xa|mx kx xv]; destruct y as [yb|my ky yv]; cbn [pair node_with entry_with sub_nodes] in *.
      - apply InvN_Inv. apply IHx; auto; [exact (fits_child _ _ _ FA I1)|exact (fits_child _ _ _ FB I2)].
      - destruct (is_container xa); injection P as <-; [apply manual_inv|apply (scored_inv score0 (ENode xa) (EEntry my ky yv))].
      - destruct (is_container yb); injection P as <-; [apply manual_inv|apply (scored_inv score0 (EEntry mx kx xv) (ENode yb))].
      - destruct (beqb kx ky).
        + apply InvN_entry. apply IHx; auto; [exact (fits_child _ _ _ FA I1)|exact (fits_child _ _ _ FB I2)].
        + injection P as <-. apply (scored_inv score0 (EEntry mx kx xv) (EEntry my ky yv)). }
  destruct (container_shape0 a b m CA CB FA FB N H HI) as [(_ & ->)|(_ & st & ops & eqs & RT & _ & _ & NK & K)].
  - split; [constructor|]. exists false. intros d px py. exists []. split; [reflexivity|]. cbn.
    split; [apply sublist_nil|]. split; [apply sublist_nil|]. split; [constructor|]. split; intros u v [].
  - split; [exact NK|]. exists true. intros d px py.
    assert (RT' : route Inv (children a) (children b) st) by (eapply route_impl; [|exact RT]; intros x y s _ _ Q; apply Q).
    destruct (route_pairs _ _ _ RT' (S d) (nid a) (nid b)) as (Q & S1 & S2 & F & A1 & A2).
    exists Q. split; [discriminate|]. rewrite !outline_children. cbn [tl]. split; [exact S1|]. split; [exact S2|]. split; [exact F|].
    cbn [app]. split.
    + intros u v I. apply K in I. destruct I as [[-> ->]|[[-> ->]|I]]; [right; left; reflexivity|left; left; reflexivity|].
      destruct (A1 u v I) as [J|J]; [left|right]; right; exact J.
    + intros u v [[= <- <-]|I].
      * left. apply K. auto.
      * destruct (A2 u v I) as [J|J]; [left|right]; apply K; auto.
Qed.

Lemma pair_inv a b x y s : fits_memory a -> fits_memory b -> NoDup (ids a ++ ids b) ->
  In x (children a) -> In y (children b) -> pair x y = inl s -> Inv x y s.
Proof.
  intros FA FB N I1 I2 P. destruct (NoDup_sub_nodes a b x y N I1 I2) as [_ ND].
  destruct x as [xa|mx kx xv]; destruct y as [yb|my ky yv]; cbn [pair node_with entry_with sub_nodes] in *.
  - apply InvN_Inv. apply build_inv; auto; [exact (fits_child _ _ _ FA I1)|exact (fits_child _ _ _ FB I2)].
  - destruct (is_container xa); injection P as <-; [apply manual_inv|apply (scored_inv score0 (ENode xa) (EEntry my ky yv))].
  - destruct (is_container yb); injection P as <-; [apply manual_inv|apply (scored_inv score0 (EEntry mx kx xv) (ENode yb))].
  - destruct (beqb kx ky).
    + apply InvN_entry. apply build_inv; auto; [exact (fits_child _ _ _ FA I1)|exact (fits_child _ _ _ FB I2)].
    + injection P as <-. apply (scored_inv score0 (EEntry mx kx xv) (EEntry my ky yv)).
Qed.

Lemma container_shape a b m : is_container a = true -> is_container b = true ->
  fits_memory a -> fits_memory b -> NoDup (ids a ++ ids b) -> build a b = inl m ->
  let d := mresult m in let mx := Z.max (Z.of_nat (length (children a))) (Z.of_nat (length (children b))) in
  (d / mx = 1 /\ m = mkMat (mset (nid b) OAdd (mset (nid a) OAdd [])) [] d false) \/
  (d / mx <> 1 /\ exists st ops eqs,
     route (R_step a b) (children a) (children b) st /\
     fold_left run_step st ([], []) = (ops, eqs) /\
     m = mkMat (mset (nid a) OEqu (mset (nid b) OEqu ops)) (mset (nid b) (nid a) (mset (nid a) (nid b) eqs)) d true /\
     NoDup (keys (meqv m)) /\
     forall u v, In (u, v) (meqv m) <-> (u = nid b /\ v = nid a) \/ (u = nid a /\ v = nid b) \/ collected st u v).
Proof.
  intros CA CB FA FB N H. apply container_shape0; auto. intros x y s I1 I2. apply (pair_inv a b); auto.
Qed.

(** * The pairing *)
Lemma find_spec {A} (f : A -> bool) l : match find f l with Some x => In x l /\ f x = true | None => forall x, In x l -> f x = false end.
Proof.
  induction l as [|y l IH]; cbn [find]; [intros x []|]. destruct (f y) eqn:E; [split; [left; reflexivity|exact E]|].
  destruct (find f l) as [x|]; [destruct IH; split; [right|]; assumption|]. intros x [<-|I]; auto.
Qed.

Lemma pairing_full a b m : fits_memory a -> fits_memory b -> NoDup (ids a ++ ids b) -> build a b = inl m ->
  exists P,
    sublist (map fst P) (outline 1 None a) /\ sublist (map snd P) (outline 1 None b) /\
    (forall x y, getEquivalence m x = Some y <-> In (x, y) (idp P) \/ In (y, x) (idp P)) /\
    Forall (fun p => fst (snd (fst p)) = fst (snd (snd p)) /\
      match snd (snd (fst p)), snd (snd (snd p)) with
      | None, None => True | Some pu, Some pv => In (pu, pv) (idp P) | _, _ => False end) P /\
    (forall x y, In (x, y) (meqv m) -> In (x, y) (idp P) \/ In (y, x) (idp P)).
Proof.
  intros FA FB N H. destruct (build_inv a b m FA FB N H) as (NK & r & K). destruct (K 1%nat None None) as (Q & Q0 & S1 & S2 & F & A1 & A2).
  rewrite !outline_children in *. cbn [tl] in S1, S2.
  set (ra := (nid a, (1%nat, @None Z))) in *. set (rb := (nid b, (1%nat, @None Z))) in *.
  set (P := (if r then [(ra, rb)] else []) ++ Q).
  assert (IP : idp P = (if r then [(nid a, nid b)] else []) ++ idp Q) by (unfold P; rewrite idp_app; destruct r; reflexivity).
  assert (T1 : sublist (map fst P) (ra :: flat_map (eoutline 2 (Some (nid a))) (children a))).
  { unfold P. destruct r; cbn [app map fst]; constructor; exact S1. }
  assert (T2 : sublist (map snd P) (rb :: flat_map (eoutline 2 (Some (nid b))) (children b))).
  { unfold P. destruct r; cbn [app map snd]; constructor; exact S2. }
  exists P. split; [exact T1|]. split; [exact T2|]. rewrite <- IP in A1, A2.
  assert (LA : sublist (map fst (map fst P)) (ids a)).
  { rewrite <- (outline_ids a 1 None), outline_children. apply sublist_map. exact T1. }
  assert (LB : sublist (map fst (map snd P)) (ids b)).
  { rewrite <- (outline_ids b 1 None), outline_children. apply sublist_map. exact T2. }
  assert (UA : forall u v v', In (u, v) (idp P) -> In (u, v') (idp P) -> v = v').
  { pose proof (sublist_NoDup _ _ LA (NoDup_app_l _ _ N)) as ND. unfold idp. clearbody P. clear - ND. rewrite map_map in ND. revert ND.
    induction P as [|p P IHP]; cbn [map]; [intros _ u v v' []|]. intros ND u v v' [E1|I1] [E2|I2].
    - congruence.
    - inversion_clear ND as [|? ? N1 _]. exfalso. apply N1. injection E1 as E1 _. rewrite E1. apply in_map_iff in I2. destruct I2 as (q & [= <- _] & I2). apply in_map_iff. eauto.
    - inversion_clear ND as [|? ? N1 _]. exfalso. apply N1. injection E2 as E2 _. rewrite E2. apply in_map_iff in I1. destruct I1 as (q & [= <- _] & I1). apply in_map_iff. eauto.
    - inversion_clear ND. eauto. }
  assert (UB : forall u u' v, In (u, v) (idp P) -> In (u', v) (idp P) -> u = u').
  { pose proof (sublist_NoDup _ _ LB (NoDup_app_r _ _ N)) as ND. unfold idp. clearbody P. clear - ND. rewrite map_map in ND. revert ND.
    induction P as [|p P IHP]; cbn [map]; [intros _ u u' v []|]. intros ND u u' v [E1|I1] [E2|I2].
    - congruence.
    - inversion_clear ND as [|? ? N1 _]. exfalso. apply N1. injection E1 as _ E1. rewrite E1. apply in_map_iff in I2. destruct I2 as (q & [= _ <-] & I2). apply in_map_iff. eauto.
    - inversion_clear ND as [|? ? N1 _]. exfalso. apply N1. injection E2 as _ E2. rewrite E2. apply in_map_iff in I1. destruct I1 as (q & [= _ <-] & I1). apply in_map_iff. eauto.
    - inversion_clear ND. eauto. }
  assert (XA : forall u v, In (u, v) (idp P) -> In u (ids a) /\ In v (ids b)).
  { intros u v I. split; [eapply sublist_In; [exact LA|exact (idp_fst _ _ _ I)]|eapply sublist_In; [exact LB|exact (idp_snd _ _ _ I)]]. }
  assert (G : forall x y, getEquivalence m x = Some y -> In (x, y) (idp P) \/ In (y, x) (idp P)).
  { intros x y. unfold getEquivalence. pose proof (find_spec (fun p => (fst p =? x) || (snd p =? x)) (meqv m)) as FS.
    destruct (find _ (meqv m)) as [[u v]|]; [|discriminate]. destruct FS as [I C]. cbn [fst snd] in C.
    destruct (u =? x) eqn:EU; intros [= <-].
    - apply Z.eqb_eq in EU. subst u. apply A1, I.
    - cbn [orb] in C. apply Z.eqb_eq in C. subst v. destruct (A1 _ _ I); auto. }
  split.
  - intros x y. split; [apply G|]. intros I.
    assert (E : exists z, getEquivalence m x = Some z).
    { unfold getEquivalence. pose proof (find_spec (fun p => (fst p =? x) || (snd p =? x)) (meqv m)) as FS.
      destruct (find _ (meqv m)) as [[u v]|]; [eauto|].
      assert (J : In (x, y) (meqv m) \/ In (y, x) (meqv m)) by (destruct I as [I|I]; destruct (A2 _ _ I); auto).
      destruct J as [J|J]; apply FS in J; cbn [fst snd] in J; rewrite Z.eqb_refl, ?orb_true_r in J; discriminate. }
    destruct E as (z & E). rewrite E. f_equal. apply G in E.
    destruct I as [I|I]; destruct E as [E|E].
    + eauto.
    + exfalso. apply (NoDup_app_not _ _ x N); [apply (XA _ _ I)|apply (XA _ _ E)].
    + exfalso. apply (NoDup_app_not _ _ x N); [apply (XA _ _ E)|apply (XA _ _ I)].
    + eauto.
  - split; [|exact A1]. unfold P at 2. apply Forall_app. split.
    + destruct r; constructor; [|constructor]. cbn. auto.
    + rewrite Forall_forall in F |- *. intros p I. destruct (F p I) as (D & pu & pv & E1 & E2 & HH). split; [exact D|]. rewrite E1, E2, IP.
      apply in_or_app. destruct r; [|rewrite (Q0 eq_refl) in I; destruct I].
      destruct HH as [HH|HH]; [left; left; congruence|right; exact HH].
Qed.

Lemma pairing_spec a b m : fits_memory a -> fits_memory b -> NoDup (ids a ++ ids b) -> build a b = inl m ->
  exists P,
    sublist (map fst P) (outline 1 None a) /\ sublist (map snd P) (outline 1 None b) /\
    (forall x y, getEquivalence m x = Some y <-> In (x, y) (idp P) \/ In (y, x) (idp P)) /\
    Forall (fun p => fst (snd (fst p)) = fst (snd (snd p)) /\
      match snd (snd (fst p)), snd (snd (snd p)) with
      | None, None => True | Some pu, Some pv => In (pu, pv) (idp P) | _, _ => False end) P.
Proof. intros FA FB N H. destruct (pairing_full a b m FA FB N H) as (P & A & B & C & D & _). exists P. auto. Qed.

(** Whatever the map holds is found from both sides. *)
Lemma meqv_found a b m u v : fits_memory a -> fits_memory b -> NoDup (ids a ++ ids b) -> build a b = inl m ->
  In (u, v) (meqv m) -> getEquivalence m u = Some v /\ getEquivalence m v = Some u.
Proof.
  intros FA FB N H I. destruct (pairing_full a b m FA FB N H) as (P & _ & _ & C & _ & D). split; apply C; destruct (D u v I); auto.
Qed.


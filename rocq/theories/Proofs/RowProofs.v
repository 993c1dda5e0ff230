(** Elements in memory and rows. *)
From Verif Require Export Model.SimpleView Spec.ViewSpec Proofs.DiffPairing.
From Coq Require Import Lia.
Open Scope Z_scope.

Lemma sub_value e : sub_nodes e = value_of e.
Proof. destruct e; reflexivity. Qed.

Lemma node_kids_ind (P : node -> Prop) :
  (forall n, (forall x, In x (children n) -> P (value_of x)) -> P n) -> forall n, P n.
Proof. intros H. apply node_children_ind. intros n IH. apply H. intros x I. rewrite <- sub_value. auto. Qed.

(** * Memory *)
Definition eelems (e : elem) : list elem := match e with ENode n => elems n | EEntry _ _ v => e :: elems v end.

Lemma elems_children n : elems n = ENode n :: flat_map eelems (children n).
Proof. destruct n as [m p|m l|m l]; cbn [elems children flat_map]; [reflexivity| |]; rewrite flat_map_map; reflexivity. Qed.

Lemma elems_head e : In e (eelems e).
Proof. destruct e as [n|m k v]; cbn [eelems]; [rewrite elems_children|]; left; reflexivity. Qed.

Lemma eelems_value e : In (ENode (value_of e)) (eelems e).
Proof. destruct e as [n|m k v]; cbn [eelems value_of]; [|right]; rewrite elems_children; left; reflexivity. Qed.

Lemma elems_eid n : map eid (elems n) = ids n.
Proof.
  induction n as [n IH] using node_kids_ind. rewrite elems_children, ids_children. cbn [map eid]. f_equal.
  rewrite map_flat_map'. apply flat_map_ext_F. intros x I. specialize (IH x I).
  destruct x as [v|m k v]; cbn [eelems value_of map eid] in *; [rewrite eids_node|rewrite eids_entry]; [exact IH|]. f_equal. exact IH.
Qed.

Lemma elems_trans n : forall e x, In e (elems n) -> In x (eelems e) -> In x (elems n).
Proof.
  induction n as [n IH] using node_kids_ind. intros e x I J. rewrite elems_children in I. destruct I as [<-|I]; [exact J|].
  rewrite elems_children. right. apply in_flat_map in I. destruct I as (c & C & I). apply in_flat_map. exists c. split; [exact C|].
  destruct c as [v|m k v]; cbn [eelems value_of] in *.
  - apply (IH _ C e x I J).
  - destruct I as [<-|I]; [exact J|]. right. apply (IH _ C e x I J).
Qed.

Lemma child_elem n e : In e (children n) -> In e (elems n).
Proof. intros I. rewrite elems_children. right. apply in_flat_map. exists e. split; [exact I|apply elems_head]. Qed.

Section Memory.
  Variable root : node.
  Hypothesis M : in_memory root.
  Notation h := (elems root).

  Lemma lookup_in e : In e h -> lookup h (eid e) = Some e.
  Proof.
    destruct M as [_ N]. rewrite <- elems_eid in N. intros I. unfold lookup. revert N I.
    induction h as [|x l IH]; intros N I; [destruct I|]. cbn [find map] in *. inversion_clear N as [|? ? N1 N2].
    destruct (eid x =? eid e) eqn:E.
    - apply Z.eqb_eq in E. destruct I as [->|I]; [reflexivity|]. exfalso. apply N1. rewrite E. apply in_map, I.
    - destruct I as [->|I]; [rewrite Z.eqb_refl in E; discriminate|]. auto.
  Qed.

  Lemma lookup_some i e : lookup h i = Some e -> In e h /\ eid e = i.
  Proof. unfold lookup. intros E. apply find_some in E. destruct E as [I E]. apply Z.eqb_eq in E. auto. Qed.

  Lemma eid_inj e e' : In e h -> In e' h -> eid e = eid e' -> e = e'.
  Proof. intros I J E. apply lookup_in in I, J. rewrite E in I. congruence. Qed.

  Lemma lookup_ids i : In i (ids root) -> exists e, lookup h i = Some e.
  Proof. rewrite <- elems_eid. intros I. apply in_map_iff in I. destruct I as (e & <- & I). exists e. apply lookup_in, I. Qed.

  (** Parents. *)
  Lemma linked_sub n : forall par, linked par n -> forall c, In (ENode c) (elems n) ->
    (exists par', linked par' c).
  Proof.
    induction n as [n IH] using node_kids_ind. intros par L c I. rewrite elems_children in I. destruct I as [[= <-]|I]; [eauto|].
    apply in_flat_map in I. destruct I as (x & C & I).
    inversion L as [? m p E|? m l E F|? m l E F]; subst; cbn [children] in C.
    - destruct C.
    - apply in_map_iff in C. destruct C as (y & <- & C). rewrite Forall_forall in F. cbn [eelems] in I.
      refine (IH (ENode y) _ _ (F y C) c I). cbn [children]. apply in_map, C.
    - apply in_map_iff in C. destruct C as (y & <- & C). rewrite Forall_forall in F. cbn [eelems] in I. destruct I as [[=]|I].
      refine (IH (EEntry (fst (fst y)) (snd (fst y)) (snd y)) _ _ (proj2 (F y C)) c I). cbn [children].
      exact (in_map (fun e => EEntry (fst (fst e)) (snd (fst e)) (snd e)) _ _ C).
  Qed.

  Lemma child_parent c e : In (ENode c) h -> In e (children c) -> epar e = Some (nid c).
  Proof.
    intros I J. destruct (linked_sub root None (proj1 M) c I) as (par & L).
    inversion L as [? m p E|? m l E F|? m l E F]; subst; cbn [children] in J.
    - destruct J.
    - apply in_map_iff in J. destruct J as (y & <- & J). rewrite Forall_forall in F. specialize (F y J). cbn [epar]. inversion F; subst; assumption.
    - apply in_map_iff in J. destruct J as (y & <- & J). rewrite Forall_forall in F. apply (F y J).
  Qed.

  Lemma entry_parent n : forall par, linked par n -> forall m k v, In (EEntry m k v) (elems n) ->
    mpar (node_meta v) = Some (mid m).
  Proof.
    induction n as [n IH] using node_kids_ind. intros par L m k v I. rewrite elems_children in I. destruct I as [[=]|I].
    apply in_flat_map in I. destruct I as (x & C & I).
    inversion L as [? m0 p E|? m0 l E F|? m0 l E F]; subst; cbn [children] in C.
    - destruct C.
    - apply in_map_iff in C. destruct C as (y & <- & C). rewrite Forall_forall in F. cbn [eelems] in I.
      refine (IH (ENode y) _ _ (F y C) m k v I). cbn [children]. apply in_map, C.
    - apply in_map_iff in C. destruct C as (y & <- & C). rewrite Forall_forall in F. cbn [eelems] in I. destruct I as [[= <- <- <-]|I].
      + destruct (F y C) as [_ Q]. inversion Q; subst; assumption.
      + refine (IH (EEntry (fst (fst y)) (snd (fst y)) (snd y)) _ _ (proj2 (F y C)) m k v I). cbn [children].
        exact (in_map (fun e => EEntry (fst (fst e)) (snd (fst e)) (snd e)) _ _ C).
  Qed.

  Lemma value_parent m k v : In (EEntry m k v) h -> epar (ENode v) = Some (mid m).
  Proof. intros I. exact (entry_parent root None (proj1 M) m k v I). Qed.

  Lemma root_parent : epar (ENode root) = None.
  Proof. destruct M as [L _]. inversion L; subst; assumption. Qed.

  Lemma root_in : In (ENode root) h.
  Proof. rewrite elems_children. left. reflexivity. Qed.

  Lemma value_in e : In e h -> In (ENode (value_of e)) h.
  Proof. intros I. eapply elems_trans; [exact I|apply eelems_value]. Qed.
  Lemma kid_in c e : In (ENode c) h -> In e (children c) -> In e h.
  Proof. intros I J. eapply elems_trans; [exact I|]. apply child_elem, J. Qed.


  (** Every element but the root is a child of a container or the value of an
      entry. *)
  Lemma elem_origin n : forall e, In e (elems n) -> e = ENode n \/
    (exists c, In (ENode c) (elems n) /\ In e (children c)) \/
    (exists m k v, In (EEntry m k v) (elems n) /\ e = ENode v).
  Proof.
    induction n as [n IH] using node_kids_ind. intros e I. rewrite elems_children in I. destruct I as [<-|I]; [auto|]. right.
    apply in_flat_map in I. destruct I as (x & C & I).
    assert (S : forall y, In y (elems (value_of x)) -> In y (elems n)).
    { intros y J. apply (elems_trans n x); [apply child_elem, C|]. destruct x; cbn [eelems value_of] in *; [|right]; exact J. }
    assert (K : In (ENode n) (elems n)) by (rewrite elems_children; left; reflexivity).
    assert (X : In x (elems n)) by (apply child_elem, C).
    specialize (IH x C). destruct x as [v|m k v]; cbn [eelems value_of] in *.
    - destruct (IH e I) as [->|[(c & P & Q)|(m & k & v' & P & Q)]]; [left; eauto|left; eauto|right].
      exists m, k, v'. auto.
    - destruct I as [<-|I]; [left; eauto|].
      destruct (IH e I) as [->|[(c & P & Q)|(m' & k' & v' & P & Q)]]; [right; eauto 6|left; eauto|right].
      exists m', k', v'. auto.
  Qed.

  (** dynamic_casts of parents. *)
  Lemma is_entry_node c : In (ENode c) h -> is_entry h (nid c) = false.
  Proof. intros I. unfold is_entry. rewrite (lookup_in (ENode c) I : lookup h (nid c) = _). reflexivity. Qed.
  Lemma is_entry_entry m k v : In (EEntry m k v) h -> is_entry h (mid m) = true.
  Proof. intros I. unfold is_entry. rewrite (lookup_in (EEntry m k v) I : lookup h (mid m) = _). reflexivity. Qed.
  Lemma kid_row c e : In (ENode c) h -> In e (children c) -> parent_is_entry h e = false.
  Proof. intros I J. unfold parent_is_entry. rewrite (child_parent c e I J). apply is_entry_node, I. Qed.
  Lemma value_not_row m k v : In (EEntry m k v) h -> parent_is_entry h (ENode v) = true.
  Proof. intros I. unfold parent_is_entry. rewrite (value_parent m k v I). eapply is_entry_entry, I. Qed.
  Lemma root_row : parent_is_entry h (ENode root) = false.
  Proof. unfold parent_is_entry. rewrite root_parent. reflexivity. Qed.

  Lemma container_child c e : In e (children c) -> is_container c = true.
  Proof. destruct c; [intros []|reflexivity|reflexivity]. Qed.

  (** * Rows *)
  Definition rows_elem (coll : list Z) (e : elem) : list Z := eid e :: inside coll (value_of e).
  Definition rowsL (coll : list Z) (l : list elem) : list Z := flat_map (rows_elem coll) l.

  Lemma inside_children coll n : inside coll n = if mem (nid n) coll then [] else rowsL coll (children n).
  Proof.
    unfold rowsL, mem. destruct n as [m p|m l|m l]; cbn [inside children flat_map nid node_meta]; [destruct existsb; reflexivity| |];
      rewrite flat_map_map; reflexivity.
  Qed.

  Inductive place (coll : list Z) : nat -> list Z -> elem -> list Z -> Prop :=
  | PL_root : place coll 0 [] (ENode root) []
  | PL_child k pre p post l1 e l2 : place coll k pre p post -> mem (nid (value_of p)) coll = false ->
      children (value_of p) = l1 ++ e :: l2 ->
      place coll (S k) (pre ++ eid p :: rowsL coll l1) e (rowsL coll l2 ++ post).

  Lemma rowsL_app coll l l' : rowsL coll (l ++ l') = rowsL coll l ++ rowsL coll l'.
  Proof. apply flat_map_app. Qed.
  Lemma rowsL_cons coll e l : rowsL coll (e :: l) = rows_elem coll e ++ rowsL coll l.
  Proof. reflexivity. Qed.

  Lemma place_rows coll k pre e post : place coll k pre e post -> rows coll root = pre ++ rows_elem coll e ++ post.
  Proof.
    induction 1 as [|k pre p post l1 e l2 P IH C K]; [unfold rows, rows_elem; cbn [app value_of eid]; rewrite app_nil_r; reflexivity|].
    rewrite IH. unfold rows_elem at 1. rewrite inside_children, C, K, rowsL_app, rowsL_cons.
    rewrite <- !app_assoc. cbn [app]. rewrite <- !app_assoc. reflexivity.
  Qed.

  Lemma place_in coll k pre e post : place coll k pre e post -> In e h.
  Proof.
    induction 1 as [|k pre p post l1 e l2 P IH C K]; [apply root_in|].
    eapply kid_in; [apply value_in, IH|]. rewrite K. apply in_elt.
  Qed.

  Lemma place_row coll k pre e post : place coll k pre e post -> parent_is_entry h e = false.
  Proof.
    intros P. inversion P as [|k' pre' p post' l1 e' l2 Q C K]; subst; [apply root_row|].
    eapply kid_row; [apply value_in; eapply place_in, Q|]. rewrite K. apply in_elt.
  Qed.

  Lemma place_of_node coll n : forall k pre p post, place coll k pre p post -> value_of p = n ->
    forall i, In i (rows_elem coll p) -> exists k' pre' e post', place coll k' pre' e post' /\ eid e = i.
  Proof.
    induction n as [n IH] using node_kids_ind. intros k pre p post P E i I. unfold rows_elem in I. destruct I as [<-|I]; [eauto 6|].
    rewrite inside_children, E in I. destruct (mem (nid n) coll) eqn:C; [destruct I|].
    apply in_flat_map in I. destruct I as (c & K & I). apply in_split in K. destruct K as (l1 & l2 & K).
    refine (IH c _ _ _ c _ _ eq_refl i I); [rewrite K; apply in_elt|].
    apply (PL_child coll k pre p post l1 c l2 P); rewrite E; [exact C|exact K].
  Qed.

  Lemma place_of coll i : In i (rows coll root) -> exists k pre e post, place coll k pre e post /\ eid e = i.
  Proof. intros I. eapply (place_of_node coll root); [apply PL_root|reflexivity|exact I]. Qed.

  (** Rows are distinct. *)
  Lemma inside_sub coll n : sublist (inside coll n) (flat_map eids (children n)).
  Proof.
    induction n as [n IH] using node_kids_ind. rewrite inside_children. destruct (mem (nid n) coll); [apply sublist_nil|].
    unfold rowsL. assert (Q : forall l, (forall x, In x l -> In x (children n)) -> sublist (flat_map (rows_elem coll) l) (flat_map eids l)).
    { induction l as [|x l IHl]; intros S; [apply SL_nil|]. cbn [flat_map]. apply sublist_app; [|apply IHl; intros y J; apply S; right; exact J].
      specialize (IH x (S x (or_introl eq_refl))). destruct x as [v|m k v]; unfold rows_elem; cbn [value_of eid] in *.
      - rewrite eids_node, ids_children. apply SL_keep, IH.
      - rewrite eids_entry, ids_children. apply SL_keep, SL_skip, IH. }
    apply Q. auto.
  Qed.
  Lemma rows_sub coll : sublist (rows coll root) (ids root).
  Proof. unfold rows. rewrite ids_children. apply SL_keep, inside_sub. Qed.
  Lemma rows_NoDup coll : NoDup (rows coll root).
  Proof. eapply sublist_NoDup; [apply rows_sub|apply M]. Qed.
  Lemma rows_ids coll i : In i (rows coll root) -> In i (ids root).
  Proof. apply sublist_In, rows_sub. Qed.

  Lemma NoDup_split {A} (x : A) (a b a' b' : list A) : NoDup (a ++ x :: b) -> a ++ x :: b = a' ++ x :: b' -> a = a' /\ b = b'.
  Proof.
    revert a'. induction a as [|y a IH]; intros a' N E.
    - destruct a' as [|y' a']; cbn [app] in *; [injection E; auto|]. injection E as -> E.
      exfalso. inversion_clear N as [|? ? N1 N2]. apply N1. rewrite E. apply in_elt.
    - destruct a' as [|y' a']; cbn [app] in *.
      + injection E as -> E. exfalso. inversion_clear N as [|? ? N1 N2]. apply N1. apply in_elt.
      + injection E as -> E. inversion_clear N as [|? ? N1 N2]. destruct (IH a' N2 E) as [-> ->]. auto.
  Qed.

  Lemma place_split coll k pre e post a b : place coll k pre e post -> rows coll root = a ++ eid e :: b ->
    pre = a /\ inside coll (value_of e) ++ post = b.
  Proof.
    intros P E. assert (Q := place_rows _ _ _ _ _ P). assert (N := rows_NoDup coll). rewrite Q in E, N.
    unfold rows_elem in *. cbn [app] in *. exact (NoDup_split _ _ _ _ _ N E).
  Qed.

  (** * findNext *)
  Lemma after_split l1 i l2 : ~ In i l1 -> after i (l1 ++ i :: l2) = hd_error l2.
  Proof.
    induction l1 as [|x l1 IH]; intros N; cbn [app after].
    - rewrite Z.eqb_refl. destruct l2; reflexivity.
    - destruct (x =? i) eqn:E; [apply Z.eqb_eq in E; exfalso; apply N; left; exact E|]. apply IH. intros I. apply N. right. exact I.
  Qed.

  Lemma NoDup_ids_sub n : forall c, NoDup (ids n) -> In (ENode c) (elems n) -> NoDup (ids c).
  Proof.
    induction n as [n IH] using node_kids_ind. intros c N I. rewrite elems_children in I. destruct I as [[= <-]|I]; [exact N|].
    apply in_flat_map in I. destruct I as (x & C & I). apply in_split in C. destruct C as (l1 & l2 & C).
    rewrite ids_children, C, flat_map_app in N. inversion_clear N as [|? ? _ N1]. apply NoDup_app_r in N1. cbn [flat_map] in N1. apply NoDup_app_l in N1.
    refine (IH x _ c _ _); [rewrite C; apply in_elt| |].
    - destruct x; cbn [value_of]; [rewrite eids_node in N1; exact N1|]. rewrite eids_entry in N1. inversion N1; assumption.
    - destruct x; cbn [eelems value_of] in *; [exact I|]. destruct I as [[=]|I]; exact I.
  Qed.

  Lemma kids_NoDup c : In (ENode c) h -> NoDup (map eid (children c)).
  Proof.
    intros I. assert (N := NoDup_ids_sub root c (proj2 M) I). rewrite ids_children in N. inversion_clear N as [|? ? _ N1].
    eapply sublist_NoDup; [|exact N1]. clear. induction (children c) as [|x l IH]; [apply SL_nil|]. cbn [map flat_map].
    destruct (eoutline_head 0 None x) as (t & E). unfold eids at 1. rewrite E. cbn [map fst app]. apply SL_keep.
    change (sublist ([] ++ map eid l) (map fst t ++ flat_map eids l)). apply sublist_app; [apply sublist_nil|exact IH].
  Qed.

  Lemma kids_after c l1 e l2 : In (ENode c) h -> children c = l1 ++ e :: l2 ->
    after (eid e) (map eid (children c)) = hd_error (map eid l2).
  Proof.
    intros I K. assert (N := kids_NoDup c I). rewrite K, map_app in *. cbn [map] in *. apply after_split.
    intros J. apply NoDup_remove_2 in N. apply N, in_or_app. auto.
  Qed.

  (** One step of findNext. *)
  Lemma findNext_child f c l1 e l2 : In (ENode c) h -> children c = l1 ++ e :: l2 ->
    findNext (S f) h (eid e) = match l2 with r :: _ => Some (Some (eid r)) | [] => findNext f h (nid c) end.
  Proof.
    intros I K. assert (J : In e (children c)) by (rewrite K; apply in_elt).
    cbn [findNext]. rewrite (lookup_in e) by (eapply kid_in; eauto). cbn [obind]. rewrite (child_parent c e I J).
    rewrite (lookup_in (ENode c) I : lookup h (nid c) = _). cbn [obind]. rewrite (container_child c e J), (kids_after c l1 e l2 I K).
    destruct l2; reflexivity.
  Qed.
  Lemma findNext_value f m k v : In (EEntry m k v) h -> findNext (S f) h (nid v) = Some None.
  Proof.
    intros I. cbn [findNext]. rewrite (lookup_in (ENode v) (value_in _ I) : lookup h (nid v) = _). cbn [obind].
    rewrite (value_parent m k v I). rewrite (lookup_in _ I : lookup h (mid m) = _). reflexivity.
  Qed.
  Lemma findNext_root f : findNext (S f) h (nid root) = Some None.
  Proof. cbn [findNext]. rewrite (lookup_in _ root_in : lookup h (nid root) = _). cbn [obind]. rewrite root_parent. reflexivity. Qed.

  (** The answer is right whenever there is one. *)
  Lemma findNext_place coll k pre e post : place coll k pre e post -> forall f, (k < f)%nat ->
    exists o, findNext f h (eid e) = Some o /\ (o = None \/ exists r post', o = Some r /\ post = r :: post').
  Proof.
    induction 1 as [|k pre p post l1 e l2 P IH C K]; intros f L; (destruct f as [|f]; [lia|]).
    - exists None. split; [apply findNext_root|auto].
    - assert (I := place_in _ _ _ _ _ P). rewrite (findNext_child f _ l1 e l2 (value_in _ I) K).
      destruct l2 as [|r l2].
      + cbn [rowsL flat_map app]. destruct p as [n|m kk v]; cbn [value_of] in *.
        * destruct (IH f ltac:(lia)) as (o & F & D). cbn [eid] in F. eauto.
        * destruct f as [|f]; [lia|]. exists None. split; [eapply findNext_value, I|auto].
      + eexists. split; [reflexivity|]. right. exists (eid r). rewrite rowsL_cons. unfold rows_elem. cbn [app]. eauto.
  Qed.

  (** Not below an entry: the answer is complete. *)
  Lemma findNext_full coll k pre e post : place coll k pre e post ->
    (forall m kk v, In (EEntry m kk v) h -> ~ In (eid e) (ids v)) -> forall f, (k < f)%nat ->
    findNext f h (eid e) = Some (hd_error post).
  Proof.
    induction 1 as [|k pre p post l1 e l2 P IH C K]; intros NE f L; (destruct f as [|f]; [lia|]).
    - apply findNext_root.
    - assert (I := place_in _ _ _ _ _ P). rewrite (findNext_child f _ l1 e l2 (value_in _ I) K).
      assert (J : In e (children (value_of p))) by (rewrite K; apply in_elt).
      destruct l2 as [|r l2]; [|rewrite rowsL_cons; reflexivity].
      cbn [rowsL flat_map app]. destruct p as [n|m kk v]; cbn [value_of] in *.
      + apply IH; [|lia]. intros m kk v Q N. apply (NE m kk v Q). cbn [eid] in N. rewrite <- elems_eid in N |- *.
        apply in_map_iff in N. destruct N as (x & E & N). assert (x = ENode n).
        { apply eid_inj; [|exact I|exact E]. eapply elems_trans; [exact (value_in _ Q)|exact N]. }
        subst x. apply in_map. eapply elems_trans; [exact N|apply child_elem, J].
      + exfalso. apply (NE m kk v I). rewrite <- elems_eid. apply in_map, child_elem, J.
  Qed.

  (** Depth. *)
  Lemma place_size coll k pre e post : place coll k pre e post -> (k + length (eelems e) <= length h)%nat.
  Proof.
    induction 1 as [|k pre p post l1 e l2 P IH C K]; [cbn [eelems]; lia|].
    assert (length (eelems e) < length (eelems p))%nat; [|lia].
    enough (length (eelems e) < length (elems (value_of p)))%nat by (destruct p; cbn [eelems value_of length] in *; lia).
    rewrite elems_children, K, flat_map_app. cbn [flat_map length]. rewrite !app_length. lia.
  Qed.
  Lemma place_deep coll k pre e post : place coll k pre e post -> (k < deep root)%nat.
  Proof. intros P. apply place_size in P. assert (length (eelems e) <> 0)%nat by (destruct (eelems e) eqn:E; [assert (Q := elems_head e); rewrite E in Q; destruct Q|discriminate]). unfold deep, mem_of. lia. Qed.

  (** findPrev *)
  Lemma before_split l1 i l2 : forall prev, ~ In i l1 -> before i prev (l1 ++ i :: l2) = Some (last l1 prev).
  Proof.
    induction l1 as [|x l1 IH]; intros prev N; cbn [app before].
    - rewrite Z.eqb_refl. reflexivity.
    - destruct (x =? i) eqn:E; [apply Z.eqb_eq in E; exfalso; apply N; left; exact E|]. rewrite IH by (intros I; apply N; right; exact I).
      destruct l1 as [|y l1]; [reflexivity|]. cbn [last]. f_equal. clear. revert y. induction l1 as [|z l1 IH]; intros y; [reflexivity|]. cbn [last]. destruct l1; [reflexivity|]. apply (IH z).
  Qed.
  Lemma findPrev_child c l1 e l2 : In (ENode c) h -> children c = l1 ++ e :: l2 ->
    findPrev h (eid e) = Some (hd_error (rev (map eid l1))).
  Proof.
    intros I K. assert (J : In e (children c)) by (rewrite K; apply in_elt). assert (N := kids_NoDup c I).
    unfold findPrev. rewrite (lookup_in e) by (eapply kid_in; eauto). cbn [obind]. rewrite (child_parent c e I J).
    rewrite (lookup_in (ENode c) I : lookup h (nid c) = _). cbn [obind]. rewrite (container_child c e J). rewrite K, map_app in *. cbn [map] in *.
    destruct l1 as [|x l1]; cbn [map app] in *; [rewrite Z.eqb_refl; reflexivity|].
    inversion_clear N as [|? ? N1 N2]. destruct (eid x =? eid e) eqn:E.
    { apply Z.eqb_eq in E. exfalso. apply N1. rewrite E. apply in_elt. }
    rewrite before_split by (intros Q; apply NoDup_remove_2 in N2; apply N2, in_or_app; auto).
    f_equal. cbn [rev]. clear. generalize (eid x). generalize (map eid l1). intros l. induction l as [|y l IH] using rev_ind; intros z; [reflexivity|].
    rewrite last_last, rev_app_distr. reflexivity.
  Qed.
  Lemma findPrev_root : findPrev h (nid root) = Some None.
  Proof. unfold findPrev. rewrite (lookup_in _ root_in : lookup h (nid root) = _). cbn [obind]. rewrite root_parent. reflexivity. Qed.
  Lemma findPrev_value m k v : In (EEntry m k v) h -> findPrev h (nid v) = Some None.
  Proof.
    intros I. unfold findPrev. rewrite (lookup_in (ENode v) (value_in _ I) : lookup h (nid v) = _). cbn [obind].
    rewrite (value_parent m k v I). rewrite (lookup_in _ I : lookup h (mid m) = _). reflexivity.
  Qed.
End Memory.

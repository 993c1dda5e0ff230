(** All rows, given that one leads from a row to the first one inside of it and to the
    next one beside it. *)
From Verif Require Import Spec.ViewSpec Spec.ViewerSpec Proofs.RowProofs Proofs.TreeProofs Proofs.ShownProofs Proofs.ViewProofs Proofs.PressProofs.
From Coq Require Import Lia.
Open Scope Z_scope.

Section Reach.
  Variables (root : node) (coll : list Z) (R : Z -> Prop).
  Hypothesis Top : R (nid root).
  Hypothesis First : forall i n c l, In (i, n) (shown (nid root) root) -> members n = c :: l -> ~ In (nid n) coll -> R i -> R c.
  Hypothesis Next : forall t a n pre b post, In t (root :: entry_values root) -> In (a, n) (level t) -> inside [] t = pre ++ a :: inside [] n ++ b :: post -> R a -> R b.

  Lemma chain {A} (f : A -> Z) (g : A -> node) (l : list A) t p q : In t (root :: entry_values root) -> (forall x, In x l -> In (f x, g x) (level t)) ->
    inside [] t = p ++ flat_map (fun x => f x :: inside [] (g x)) l ++ q -> (forall c k, map f l = c :: k -> R c) -> forall x, In x l -> R (f x).
  Proof.
    intros T L E F. revert p E F. induction l as [|y l IH]; intros p E F x X; [destruct X|]. destruct X as [<-|X]; [apply (F (f y) (map f l)); reflexivity|].
    cbn [flat_map] in E. assert (RY : R (f y)) by (apply (F (f y) (map f l)); reflexivity).
    apply (IH (fun x X => L x (or_intror X)) (p ++ f y :: inside [] (g y))); [rewrite E; cbn [app]; rewrite <- !app_assoc; cbn [app]; rewrite <- ?app_assoc; reflexivity| |exact X].
    intros c k K. destruct l as [|z l]; [discriminate|]. injection K as <- _.
    apply (Next t (f y) (g y) p (f z) (inside [] (g z) ++ flat_map (fun x => f x :: inside [] (g x)) l ++ q) T (L y (or_introl eq_refl))); [|exact RY].
    rewrite E. cbn [flat_map app]. rewrite <- !app_assoc. cbn [app]. rewrite <- ?app_assoc. reflexivity.
  Qed.

  Lemma below n : forall t i p q, In t (root :: entry_values root) -> incl (level n) (level t) -> incl (entry_values n) (entry_values root) ->
    incl (shown i n) (shown (nid root) root) -> inside [] t = p ++ inside [] n ++ q -> R i -> forall r, In r (inside coll n) -> R r.
  Proof.
    induction n as [m x|m l IH|m l IH] using node_ind'; intros t i p q T LV EV SH E RI r I; [destruct I| |]; cbn [inside] in I; destruct (existsb (Z.eqb (mid m)) coll) eqn:C; try destruct I.
    - assert (NC : ~ In (mid m) coll) by (intros K; assert (X : existsb (Z.eqb (mid m)) coll = true) by (apply existsb_exists; exists (mid m); split; [exact K|apply Z.eqb_refl]); congruence).
      assert (S1 : In (i, NArr m l) (shown (nid root) root)) by (apply SH; left; reflexivity).
      assert (RL : forall x, In x l -> R (nid x)).
      { apply (chain nid (fun x => x) l t p q T); [|exact E|]. { intros x X. apply LV. cbn [level]. apply in_flat_map. exists x. split; [exact X|left; reflexivity]. }
        intros c k K. exact (First i (NArr m l) c k S1 K NC RI). }
      apply in_flat_map in I. destruct I as (x & X & I). destruct I as [<-|I]; [apply RL; exact X|].
      apply in_split in X. destruct X as (l1 & l2 & ->). rewrite Forall_forall in IH.
      apply (IH x ltac:(apply in_elt) t (nid x) (p ++ flat_map (fun x => nid x :: inside [] x) l1 ++ [nid x]) (flat_map (fun x => nid x :: inside [] x) l2 ++ q)); auto.
      + intros y Y. apply LV. cbn [level]. apply in_flat_map. exists x. split; [apply in_elt|right; exact Y].
      + intros y Y. apply EV. cbn [entry_values]. apply in_flat_map. exists x. split; [apply in_elt|exact Y].
      + intros y Y. apply SH. cbn [shown]. right. apply in_flat_map. exists x. split; [apply in_elt|exact Y].
      + rewrite E. cbn [inside existsb]. rewrite flat_map_app. cbn [flat_map]. rewrite <- ?app_assoc. cbn [app]. rewrite <- ?app_assoc. reflexivity.
      + apply RL. apply in_elt.
    - assert (NC : ~ In (mid m) coll) by (intros K; assert (X : existsb (Z.eqb (mid m)) coll = true) by (apply existsb_exists; exists (mid m); split; [exact K|apply Z.eqb_refl]); congruence).
      assert (S1 : In (i, NObj m l) (shown (nid root) root)) by (apply SH; left; reflexivity).
      assert (RL : forall x, In x l -> R (mid (fst (fst x)))).
      { apply (chain (fun x : meta * bytes * node => mid (fst (fst x))) (fun x => snd x) l t p q T); [|exact E|]. { intros x X. apply LV. cbn [level]. apply in_map_iff. exists x. auto. }
        intros c k K. exact (First i (NObj m l) c k S1 K NC RI). }
      apply in_flat_map in I. destruct I as (x & X & I). destruct I as [<-|I]; [apply RL; exact X|].
      rewrite Forall_forall in IH.
      apply (IH x X (snd x) (mid (fst (fst x))) [] []); auto.
      + right. apply EV. cbn [entry_values]. apply in_flat_map. exists x. split; [exact X|left; reflexivity].
      + apply incl_refl.
      + intros y Y. apply EV. cbn [entry_values]. apply in_flat_map. exists x. split; [exact X|right; exact Y].
      + intros y Y. apply SH. cbn [shown]. right. apply in_flat_map. exists x. split; [exact X|exact Y].
      + rewrite app_nil_r. reflexivity.
  Qed.

  Lemma all_rows r : In r (rows coll root) -> R r.
  Proof.
    intros [<-|I]; [exact Top|]. apply (below root root (nid root) [] []) with (r := r); auto; try apply incl_refl; [left; reflexivity|]. rewrite app_nil_r. reflexivity.
  Qed.
End Reach.

(** One leads up as well: then only the last rows may be out of reach, and not even these unless [Else]. *)
Section Up.
  Variables (root : node) (coll : list Z) (R : Z -> Prop) (Else : Prop).
  Hypothesis M : in_memory root.
  Hypothesis Vis : forall i, R i -> In i (rows coll root).
  Hypothesis Top : R (nid root).
  Hypothesis Up : forall pre r l b post, rows coll root = pre ++ r :: l ++ b :: post -> R b -> R r.
  Hypothesis First : forall i n c l, In (i, n) (shown (nid root) root) -> members n = c :: l -> ~ In (nid n) coll ->
    (i = nid n \/ exists pre, rows coll root = pre ++ i :: inside coll n) -> R i -> R c \/ Else.
  Hypothesis Next : forall t a n pre b post, In t (root :: entry_values root) -> In (a, n) (level t) -> inside [] t = pre ++ a :: inside [] n ++ b :: post -> R a -> R b.

  Lemma lplace_level t pre e post : lplace t pre e post -> In (eid e, value_of e) (level t) /\ (forall c, e = ENode c -> incl (level c) (level t)).
  Proof.
    assert (KID : forall c e, In e (children c) -> In (eid e, value_of e) (level c) /\ (forall x, e = ENode x -> incl (level x) (level c))).
    { intros [m p|m l|m l] d I; cbn [children] in I; [destruct I| |].
      - apply in_map_iff in I. destruct I as (x & <- & I). cbn [eid value_of level]. split; [apply in_flat_map; exists x; split; [exact I|left; reflexivity]|].
        intros y [= ->] z Z. apply in_flat_map. exists y. split; [exact I|right; exact Z].
      - apply in_map_iff in I. destruct I as (x & <- & I). cbn [eid value_of level]. split; [apply in_map_iff; exists x; auto|discriminate]. }
    induction 1 as [l1 e l2 K|pre c post l1 e l2 P [IH1 IH2] K].
    - apply (KID t e). rewrite K. apply in_elt.
    - destruct (KID c e ltac:(rewrite K; apply in_elt)) as (Q1 & Q2). split; [apply (IH2 c eq_refl), Q1|]. intros x E. eapply incl_tran; [apply (Q2 x E)|apply (IH2 c eq_refl)].
  Qed.
  Lemma kid_values c e : In e (children c) -> incl (entry_values (value_of e)) (entry_values c) /\ (forall m k v, e = EEntry m k v -> In v (entry_values c)).
  Proof.
    intros I. destruct c as [m p|m l|m l]; cbn [children] in I; [destruct I| |]; apply in_map_iff in I; destruct I as (x & <- & I); cbn [value_of entry_values].
    - split; [intros y Y; apply in_flat_map; exists x; auto|discriminate].
    - split; [intros y Y; apply in_flat_map; exists x; split; [exact I|right; exact Y]|]. intros ? ? v [= _ _ <-]. apply in_flat_map. exists x. split; [exact I|left; reflexivity].
  Qed.
  Lemma place_values k pre e post : place root coll k pre e post -> incl (entry_values (value_of e)) (entry_values root) /\ (forall m k v, e = EEntry m k v -> In v (entry_values root)).
  Proof.
    induction 1 as [|k pre p post l1 e l2 P [IH1 _] C K]; [split; [apply incl_refl|discriminate]|].
    destruct (kid_values (value_of p) e ltac:(rewrite K; apply in_elt)) as (Q1 & Q2). split; [eapply incl_tran; eassumption|]. intros m kk v E. apply IH1, (Q2 _ _ _ E).
  Qed.
  Lemma place_lplace k pre p post : place root coll k pre p post -> exists t, In t (root :: entry_values root) /\
    forall l1 e l2, children (value_of p) = l1 ++ e :: l2 -> exists pre' post', lplace t pre' e (rowsL [] l2 ++ post').
  Proof.
    induction 1 as [|k pre p post l1 e l2 P IH C K].
    - exists root. split; [left; reflexivity|]. intros l1 e l2 K. exists (rowsL [] l1), []. rewrite app_nil_r. apply LP_top, K.
    - destruct e as [c|mm kk v].
      + destruct IH as (t & T & IH). exists t. split; [exact T|]. intros k1 x k2 X. destruct (IH _ _ _ K) as (pre' & post' & L). eexists _, _. apply (LP_in t _ c _ k1 x k2 L X).
      + exists v. split; [right; eapply place_values; [econstructor; eassumption|reflexivity]|]. intros k1 x k2 X. exists (rowsL [] k1), []. rewrite app_nil_r. apply LP_top, X.
  Qed.

  Lemma after_end k pre e post : place root coll k pre e post -> (forall r, In r pre -> R r) -> R (eid e) -> forall b post', post = b :: post' -> R b.
  Proof.
    induction 1 as [|k pre p post l1 e l2 P IH C K]; intros A RE b post' E; [discriminate E|].
    assert (RP : R (eid p)) by (apply A, in_elt). destruct l2 as [|x l2].
    - cbn [rowsL flat_map app] in E. apply (IH (fun r I => A r (in_or_app _ _ _ (or_introl I))) RP b post' E).
    - rewrite rowsL_cons in E. unfold rows_elem in E. cbn [app] in E. injection E as <- _. destruct (place_lplace _ _ _ _ P) as (t & T & L). destruct (L _ _ _ K) as (pre' & post'' & LP).
      destruct (lplace_level _ _ _ _ LP) as (LV & _). assert (E := lplace_rows _ _ _ _ LP). rewrite rowsL_cons in E. unfold rows_elem in E. cbn [app] in E.
      exact (Next t (eid e) (value_of e) pre' (eid x) _ T LV E RE).
  Qed.

  Lemma any_row r : In r (rows coll root) -> R r \/ Else.
  Proof.
    apply (all_rows root coll (fun r => R r \/ Else) (or_introl Top)); [|intros t a n pre b post T L E [RA|Q]; [left; exact (Next t a n pre b post T L E RA)|right; exact Q]].
    intros i n c l SH ME NC [RI|Q]; [|right; exact Q]. destruct (Z.eq_dec i (nid n)) as [EI|NI]; [exact (First i n c l SH ME NC (or_introl EI) RI)|].
    destruct (shown_visible root M _ _ _ SH (Vis i RI)) as (k & pre & e & post & PL & EI & EV). assert (Q := place_rows root _ _ _ _ _ PL). unfold rows_elem in Q. rewrite EI, EV in Q.
    destruct post as [|b post]; [apply (First i n c l SH ME NC); [right; exists pre; rewrite app_nil_r in Q; exact Q|exact RI]|].
    assert (RB : R b).
    { apply (after_end _ _ _ _ PL) with (post' := post); [| |reflexivity]; [|rewrite EI; exact RI].
      intros q I. apply in_split in I. destruct I as (p1 & p2 & ->). apply (Up p1 q p2 i (inside coll n ++ b :: post)); [rewrite Q; rewrite <- app_assoc; reflexivity|exact RI]. }
    rewrite <- EV, members_eid in ME. destruct (children (value_of e)) as [|ce cl] eqn:CH; [discriminate ME|]. cbn [map] in ME. injection ME as ME _.
    assert (NM : mem (nid n) coll = false) by (apply mem_not; exact NC). rewrite <- EV in NM, Q. rewrite inside_children, NM, CH, rowsL_cons in Q. unfold rows_elem in Q. rewrite ME in Q. cbn [app] in Q.
    left. apply (Up (pre ++ [i]) c (inside coll (value_of ce) ++ rowsL coll cl) b post); [rewrite Q, <- !app_assoc; cbn [app]; rewrite <- ?app_assoc; reflexivity|exact RB].
  Qed.
End Up.

(** A redraw of the comparison draws the beginning of an element at most once. *)
From Verif Require Export Proofs.SplitRows.
From Verif Require Import Proofs.DiffMarks.
From Coq Require Import Lia ZifyBool Permutation.
Open Scope Z_scope.

Lemma nd_move {A} (o : list A) x s : NoDup (o ++ x :: s) -> NoDup ((x :: o) ++ s).
Proof. apply Permutation_NoDup, Permutation_sym, Permutation_middle. Qed.
Lemma nd_drop {A} (o k s : list A) : NoDup (o ++ k ++ s) -> NoDup (o ++ s).
Proof. induction k as [|x k IH]; [auto|]. intros N. apply IH. exact (NoDup_remove_1 o (k ++ s) x N). Qed.
Lemma nd_left {A} (o k : list A) : NoDup (o ++ k) -> NoDup o.
Proof. intros N. rewrite <- (app_nil_r o). apply (nd_drop o k []). rewrite app_nil_r. exact N. Qed.

Section Once.
  Variable (r : node) (h : list elem) (sc : screen) (coll : list Z) (dm : mat).
  Hypothesis M : NoDup (ids r).

  Definition opened (w : win) : list Z := map (fun x => fst (fst x)) (filter (fun x => negb (snd (fst x))) (wlog w)).
  Definition future (st : list (Z * node)) : list Z := flat_map (fun x => flat_map eids (skipn (Z.to_nat (fst x + 1)) (children (snd x)))) st.
  Definition bounded (st : list (Z * node)) : Prop := Forall (fun x => -1 <= fst x) st.
  Definition fresh (w : win) : Prop := bounded (wstack w) /\ NoDup (opened w ++ future (wstack w)).

  Definition logs (i : Z) (w w' : win) : Prop := opened w' = i :: opened w /\ wstack w' = wstack w.
  Lemma put_logs s i len maxw w : ok any (logs i w) (put dm s i false len maxw w).
  Proof.
    unfold put. destruct (_ <=? _); [split; reflexivity|]. destruct (getNbLines _ _); [|exact Logic.I]. cbn. unfold displayDiffOp, logs, opened. destruct (shown_op _ _); split; reflexivity.
  Qed.
  Lemma check_same e w : opened (check h e w) = opened w /\ wstack (check h e w) = wstack w.
  Proof.
    unfold check, opened. destruct (negb (wfound w)).
    - destruct (sel_is _ _); [destruct (_ <=? _); auto|]. destruct (negb _); auto.
    - destruct (wdown w); [auto|]. cbv zeta. destruct (lookup _ _); [|auto]. destruct (negb _); auto.
  Qed.

  Definition after_fresh (x : bool * win) : Prop := fresh (snd x).
  Lemma open_fresh n w : bounded (wstack w) -> NoDup (opened w ++ ids n ++ future (wstack w)) -> ok any after_fresh (open_container sc coll dm n w).
  Proof.
    intros B N. rewrite ids_children in N. cbn [app] in N. apply nd_move in N. unfold open_container. destruct (mem _ _); (eapply ok_bind; [apply put_logs|]); intros w' [L1 L2].
    - unfold ok, after_fresh, fresh. cbn [snd]. rewrite L1, L2. split; [exact B|]. exact (nd_drop (nid n :: opened w) _ _ N).
    - destruct (bottom sc w'); unfold ok, after_fresh, fresh; cbn [snd wstack set_wx set_wstack].
      + rewrite L1, L2. split; [exact B|]. exact (nd_drop (nid n :: opened w) _ _ N).
      + change (opened (set_wx _ _)) with (opened w'). rewrite L1, L2. split; [constructor; [cbn; lia|exact B]|exact N].
  Qed.

  Lemma elem_fresh e w : bounded (wstack w) -> NoDup (opened w ++ eids e ++ future (wstack w)) -> ok any after_fresh (draw_elem h sc coll dm e w).
  Proof.
    intros B N. unfold draw_elem. cbv zeta. destruct (check_same e w) as [C1 C2]. rewrite <- C1, <- C2 in *. set (w1 := check h e w) in *. clearbody w1. clear C1 C2.
    destruct e as [n|m k v].
    - rewrite eids_node in N. destruct (is_container n); [apply open_fresh; assumption|]. eapply ok_bind; [apply put_logs|]. intros w' [L1 L2].
      rewrite ids_children in N. cbn [app] in N. apply nd_move in N. unfold ok, after_fresh, fresh. cbn [snd]. rewrite L1, L2. split; [exact B|]. exact (nd_drop (nid n :: opened w1) _ _ N).
    - rewrite eids_entry in N. cbn [app] in N. apply nd_move in N. unfold draw_entry.
      assert (F : forall w', logs (mid m) w1 w' -> fresh w'). { intros w' [L1 L2]. unfold fresh. rewrite L1, L2. split; [exact B|]. exact (nd_drop (mid m :: opened w1) _ _ N). }
      assert (KA : forall tx l, ok any after_fresh (r <~ key_after sc dm (EEntry m k v) tx l w1 ; let '(b, w) := r in Done (b && negb (bottom sc w), w))).
      { intros tx l. eapply ok_bind with (P := after_fresh); [|intros [b w'] E; exact E]. unfold key_after. destruct (_ <=? _); [apply F; split; reflexivity|].
        eapply ok_bind; [apply put_logs|]. intros w' E. exact (F w' E). }
      destruct (_ && _); [apply KA|]. destruct (negb _); [apply KA|]. destruct (children v); [apply KA|].
      eapply ok_bind with (P := fun x => logs (mid m) w1 (snd x)).
      + unfold key_alone. destruct (_ <=? _); [split; reflexivity|]. eapply ok_bind; [apply put_logs|]. intros w' E. exact E.
      + intros [[|] w'] E; [|exact (F w' E)]. cbn [snd] in E. eapply ok_bind with (P := after_fresh); [|intros x E'; exact E']. destruct E as [L1 L2]. apply open_fresh; rewrite L2; [exact B|]. rewrite L1. exact N.
  Qed.

  Definition under (w : win) : Prop := wroot w = r /\ (wstack w = [] -> wlog w = []) /\ fresh w.
  Lemma next_fresh w : under w -> ok any after_fresh (draw_next h sc coll dm w).
  Proof.
    intros (R & E & B & N). unfold draw_next. destruct (wstack w) as [|[i c] t] eqn:ST.
    - rewrite R. apply elem_fresh; rewrite ST; [constructor|]. rewrite eids_node. unfold opened. rewrite (E eq_refl). cbn. rewrite app_nil_r. exact M.
    - inversion B as [|? ? B1 B2]; subst. cbn [fst] in B1. cbn [future flat_map fst snd] in N. fold (future t) in N. destruct (_ =? _).
      + unfold close_container. eapply ok_bind with (P := fun w' => opened w' = opened w /\ wstack w' = t).
        * unfold put. destruct (_ <=? _); [split; reflexivity|]. destruct (getNbLines _ _); [|exact Logic.I]. cbn. unfold displayDiffOp, opened. destruct (shown_op _ _); split; reflexivity.
        * intros w' [L1 L2]. unfold ok, after_fresh, fresh. cbn [snd]. rewrite L1, L2. split; [exact B2|]. exact (nd_drop _ _ _ N).
      + destruct (nth_error (children c) (Z.to_nat (i + 1))) as [e|] eqn:NTH; [|exact Logic.I]. apply elem_fresh; cbn [wstack set_wstack].
        * constructor; [cbn; lia|exact B2].
        * change (opened (set_wstack _ _)) with (opened w). cbn [future flat_map fst snd]. fold (future t).
          rewrite (skipn_nth _ _ _ NTH) in N. cbn [flat_map] in N. rewrite <- app_assoc in N. replace (Z.to_nat (i + 1 + 1)) with (S (Z.to_nat (i + 1))) by lia. exact N.
  Qed.
  Definition once (w : win) : Prop := NoDup (opened w).
  Lemma one_fresh w : under w -> ok any (item_ok unit (fun _ => under) (fun _ => once) tt) (one_item h sc coll dm w).
  Proof.
    intros U. unfold one_item. eapply ok_bind; [apply (ok_and _ _ _ _ (next_fresh w U) (next_core h sc coll dm w))|]. intros [x w'] [[F1 F2] K]. unfold kept in K. cbn [snd] in *.
    destruct (negb x || _) eqn:EB.
    - destruct (_ && _); [exact Logic.I|]. eapply ok_bind with (P := fun _ => True); [apply ok_true|]. intros d _. cbn [ok item_ok]. exact (nd_left _ _ F2).
    - cbn [ok item_ok]. split; [injection K as -> _ _ _; apply U|]. split; [|split; assumption]. intros ST. rewrite ST in EB. destruct x; discriminate EB.
  Qed.
End Once.

Lemma redraw_once_each a b h sc coll dm w v ws : NoDup (ids a ++ ids b) -> wroot w = a -> wroot v = b -> redraw_all h sc coll dm [w; v] = Done (true, ws) -> Forall once ws.
Proof.
  intros D RW RV R.
  assert (W := each_window h sc coll dm node (fun x w => (x = a \/ x = b) /\ under x w) (fun _ w => once w)).
  assert (NA : NoDup (ids a)) by exact (nd_left _ _ D). assert (NB : NoDup (ids b)) by exact (nd_drop [] (ids a) (ids b) D).
  assert (F : Forall2 (fun _ w => once w) [a; b] ws).
  { apply (W) with (ws := [w; v]); try exact R.
    - intros x u [X U]. assert (N : NoDup (ids x)) by (destruct X as [-> | ->]; assumption). eapply ok_mono; [apply (one_fresh x h sc coll dm N u U)|]. intros [[[|]|] u'] K; cbn [item_ok] in *; auto.
    - intros x u y U. exact U.
    - intros x u y U. exact U.
    - intros x u y U. exact U.
    - intros x u y U. exact U.
    - constructor; [|constructor; [|constructor]]; (split; [auto|]); (split; [assumption|]); (split; [reflexivity|]); (split; [constructor|constructor]). }
  inversion F as [|? ? ? ? F0 F3]; subst. inversion F3 as [|? ? ? ? F1 F4]; subst. inversion F4; subst. auto.
Qed.

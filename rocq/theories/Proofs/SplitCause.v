(** Where the marks in the margin come from. *)
From Verif Require Export Spec.DiffSpec Proofs.DiffSelf Proofs.SplitKeys Proofs.SplitMarks.
From Coq Require Import Lia ZifyBool.
Open Scope Z_scope.

Section Cause.
  Variable (h : list elem) (dm : mat) (G : Z -> Prop).

  (** Elements of [G] only. *)
  Definition within (n : node) : Prop := forall i, In i (ids n) -> G i.
  (** Some element has no counterpart. *)
  Definition lone : Prop := exists u, G u /\ getEquivalence dm u = None.
  Definition cause (w : win) (q : Z * op) : Prop :=
    snd q <> OEqu /\ ((exists i c y, G i /\ In (i, c, y) (wlog w) /\ shown_op dm i = snd q) \/ snd q = ORem /\ lone).
  Definition told (w : win) : Prop := forall q, In q (wmarks w) -> cause w q.
  Definition home (w : win) : Prop := within (wroot w) /\ Forall (fun p => within (snd p)) (wstack w).
  Definition good (w : win) : Prop := home w /\ told w.

  Lemma within_child n e : within n -> In e (children n) -> forall i, In i (eids e) -> G i.
  Proof. intros H I i J. apply H. rewrite ids_children. right. apply in_flat_map. exists e. auto. Qed.
  Lemma within_self n : within n -> G (nid n).
  Proof. intros H. apply H. rewrite ids_children. left. reflexivity. Qed.

  Section Draw.
  Variable (sc : screen) (coll : list Z).
  Lemma check_good e w : good w -> good (check h e w).
  Proof.
    intros H. unfold check. destruct (negb (wfound w)).
    - destruct (sel_is _ _); [destruct (wy w <=? wscroll w); exact H|]. destruct (negb _); exact H.
    - destruct (wdown w); [exact H|]. cbv zeta. destruct (lookup _ _); [|exact H]. destruct (negb _); exact H.
  Qed.
  Lemma log_good w l : good w -> good (add_log w l).
  Proof.
    intros (H & K). split; [exact H|]. intros q I. destruct (K q I) as (N & [(i & c & y & A & B & C)|L]); (split; [exact N|]); [left|right; exact L].
    exists i, c, y. split; [exact A|]. split; [right; exact B|exact C].
  Qed.
  Lemma put_good a i c d e w : G i -> good w -> ok any good (put dm a i c d e w).
  Proof.
    intros GI H. unfold put. destruct (wy w <=? wscroll w); [exact (log_good w _ H)|]. destruct (getNbLines _ _) as [k|]; [|exact Logic.I]. cbn [lift SplitView.bind ok].
    assert (L := log_good w (i, c, wy w) H). destruct L as (A & B). unfold displayDiffOp.
    assert (X : shown_op dm i = OEqu \/ shown_op dm i <> OEqu) by (destruct (shown_op dm i); auto; right; discriminate).
    destruct X as [X|X]; [rewrite X; split; [exact A|exact B]|]. set (o := shown_op dm i) in *.
    assert (Y : good (set_wy (add_mark (add_log w (i, c, wy w)) ((if a then wy w - wscroll w else wy w), o)) (wy w + k))).
    { split; [exact A|]. intros q [<-|Q]; [|exact (B q Q)]. split; [exact X|]. left. exists i, c, (wy w). split; [exact GI|]. split; [left; reflexivity|reflexivity]. }
    destruct o; try exact Y. destruct (X eq_refl).
  Qed.
  Definition fair {A} (r : A * win) : Prop := good (snd r).
  Lemma open_good n w : within n -> good w -> ok any fair (open_container sc coll dm n w).
  Proof.
    intros N H. assert (GI := within_self n N).
    unfold open_container. destruct (mem _ _); (eapply ok_bind; [apply put_good; [exact GI|exact H]|]); intros w' T'; [exact T'|]. destruct (bottom _ _); [exact T'|].
    destruct T' as ((A & B) & C). split; [|exact C]. split; [exact A|]. constructor; [exact N|exact B].
  Qed.
  Lemma elem_good e w : (forall i, In i (eids e) -> G i) -> good w -> ok any fair (draw_elem h sc coll dm e w).
  Proof.
    intros N H. unfold draw_elem. assert (C := check_good e w H). set (w1 := check h e w) in *. clearbody w1. cbv zeta.
    destruct e as [n|m k v].
    - assert (WN : within n) by (intros i I; apply N; rewrite eids_node; exact I). destruct (is_container n); [apply open_good; assumption|]. eapply ok_bind; [apply put_good; [apply within_self, WN|exact C]|]. intros w' E. exact E.
    - rewrite eids_entry in N. assert (GE : G (mid m)) by (apply N; left; reflexivity). assert (WV : within v) by (intros i I; apply N; right; exact I). unfold draw_entry.
      assert (KA : forall tx l, ok any fair (r <~ key_after sc dm (EEntry m k v) tx l w1 ; let '(b, w) := r in Done (b && negb (bottom sc w), w))).
      { intros tx l. eapply ok_bind with (P := fair); [|intros [b w'] E; exact E]. unfold key_after. destruct (_ <=? _); [exact (log_good _ _ C)|].
        eapply ok_bind; [apply put_good; [exact GE|exact C]|]. intros w' E. exact E. }
      destruct (_ && _); [apply KA|]. destruct (negb _); [apply KA|]. destruct (children v); [apply KA|].
      eapply ok_bind with (P := fair).
      + unfold key_alone. destruct (_ <=? _); [exact (log_good _ _ C)|]. eapply ok_bind; [apply put_good; [exact GE|exact C]|]. intros w' E. exact E.
      + intros [[|] w'] E; [|exact E]. eapply ok_bind; [apply open_good; [exact WV|exact E]|]. intros r E'. exact E'.
  Qed.
  Lemma next_good w : good w -> ok any fair (draw_next h sc coll dm w).
  Proof.
    intros ((R & S) & T). unfold draw_next. destruct (wstack w) as [|[i c] t] eqn:ST; [apply elem_good; [rewrite eids_node; exact R|split; [split; [exact R|rewrite ST; exact S]|exact T]]|].
    inversion S as [|p0 l0 S1 S2]; subst. cbn [snd] in S1. destruct (_ =? _).
    - unfold close_container. eapply ok_bind; [apply put_good; [apply within_self, S1|split; [split; [exact R|exact S2]|exact T]]|]. intros w' E. exact E.
    - destruct (nth_error _ _) eqn:NE; [|exact Logic.I]. apply nth_error_In in NE. apply elem_good; [apply (within_child c _ S1 NE)|].
      split; [split; [exact R|constructor; [exact S1|exact S2]]|exact T].
  Qed.
  Lemma one_good w : good w -> ok any fair (one_item h sc coll dm w).
  Proof.
    intros T. unfold one_item. eapply ok_bind; [apply next_good, T|]. intros [r w'] K. unfold fair in K. cbn [snd] in K.
    destruct (_ || _); [|exact K]. destruct (_ && _); [exact K|].
    eapply ok_bind with (P := fun _ => True); [|intros d _; exact K].
    destruct (wdown w'); [exact Logic.I|]. eapply ok_bind with (P := fun _ => True); [apply ok_true|]. intros x _. apply ok_true.
  Qed.
  Lemma added_good f : forall w, good w -> ok any fair (added_items h sc coll dm f w).
  Proof.
    induction f as [|f IH]; intros w T; [exact Logic.I|]. cbn [added_items]. eapply ok_bind; [apply one_good, T|]. intros [[[|]|] w'] K; try exact K.
    eapply ok_bind with (P := fun _ => True); [apply ok_true|]. intros [|] _; [|exact K]. apply IH, K.
  Qed.
  Lemma gap_good k : lone -> forall w, good w -> good (gap_lines k w).
  Proof.
    intros L. induction k as [|k IH]; intros w T; [exact T|]. cbn [gap_lines]. apply IH. destruct T as (H & K). split; [exact H|].
    intros q [<-|Q]; [|exact (K q Q)]. split; [discriminate|right; auto].
  Qed.
  Lemma added_lone w : good w -> next_added dm w = Done true -> lone.
  Proof.
    intros ((R & S) & _) N. unfold next_added in N.
    assert (Z0 : forall i, G i -> isAdded dm i = true -> lone) by (intros i GI A; exists i; split; [exact GI|unfold isAdded in A; destruct (getEquivalence dm i); [discriminate|reflexivity]]).
    destruct (wstack w) as [|[i c] t]; [injection N as N; apply (Z0 _ (within_self _ R) N)|].
    inversion S as [|p0 l0 S1 S2]; subst. cbn [snd] in S1. destruct (_ <=? _); [injection N as N; apply (Z0 (nid c)); [apply within_self, S1|exact N]|].
    destruct (nth_error _ _) as [e|] eqn:NE; [|discriminate]. injection N as N. apply nth_error_In in NE. apply (Z0 (eid e)); [|exact N]. apply (within_child c e S1 NE), eid_in.
  Qed.

  Definition goods (ps : list part) : Prop := Forall (fun p => good (fst p)) ps.
  Lemma goods_fst ps : goods ps -> Forall good (map fst ps).
  Proof. intros H. apply Forall_map. exact H. Qed.
  Lemma gap_all_good f after : forall before, goods before -> goods after ->
    ok any (fun r => match r with None => True | Some (_, ps) => goods ps end) (display_gap h sc coll dm f before after).
  Proof.
    induction after as [|[w busy] t IH]; intros before TB TA; [exact Logic.I|]. cbn [display_gap]. inversion TA as [|p ps H F]; subst. cbn [fst] in H.
    destruct (if busy then next_added dm w else Done false) as [[|]|] eqn:NA; cbn [SplitView.bind]; [| |exact Logic.I].
    - assert (L : lone) by (destruct busy; [exact (added_lone w H NA)|discriminate]).
      assert (X : forall k ls, goods ls -> goods (map (fun p : part => (gap_lines k (fst p), snd p)) ls)) by (intros k ls Q; apply Forall_map; eapply Forall_impl; [|exact Q]; intros q; apply (gap_good k L)).
      eapply ok_bind; [apply added_good, H|]. intros [[fin|] w'] K; unfold ok.
      + apply Forall_app. split; [apply X, TB|]. constructor; [exact K|apply X, F].
      + apply Forall_app. split; [exact TB|]. constructor; [exact K|exact F].
    - apply IH; [|exact F]. apply Forall_app. split; [exact TB|]. constructor; [exact H|constructor].
  Qed.
  Lemma display_good ps : forall mx, goods ps -> ok any (fun r => let '(b, l, mx') := r in Forall (fun p => good (fst (fst p))) l) (display h sc coll dm ps mx).
  Proof.
    induction ps as [|[w busy] t IH]; intros mx T; [constructor|]. inversion T as [|p ps H F]; subst. cbn [display fst] in *. destruct busy.
    - eapply ok_bind; [apply one_good, H|]. intros [[fin|] w'] K.
      + eapply ok_bind; [apply IH, F|]. intros [[b l] mx'] C. constructor; [exact K|exact C].
      + constructor; [exact K|]. apply Forall_map. exact F.
    - eapply ok_bind; [apply IH, F|]. intros [[b l] mx'] C. constructor; [exact H|exact C].
  Qed.
  Lemma items_good f : forall ps, goods ps -> ok any (fun r => Forall good (snd r)) (redraw_items h sc coll dm f ps).
  Proof.
    induction f as [|f IH]; intros ps T; [exact Logic.I|]. cbn [redraw_items]. destruct (existsb snd ps); [|apply goods_fst, T].
    eapply ok_bind; [apply (gap_all_good (S f) ps [] (Forall_nil _) T)|]. intros [[[|] ps']|] H.
    - apply IH, H.
    - apply goods_fst, H.
    - eapply ok_bind; [apply (display_good ps 0 T)|]. intros [[b l] mx] C. destruct b.
      + apply IH, Forall_map. exact C.
      + apply Forall_map. exact C.
  Qed.
  Lemma redraw_good ws : Forall (fun w => within (wroot w)) ws -> ok any (fun r => Forall good (snd r)) (redraw_all h sc coll dm ws).
  Proof.
    intros H. apply items_good, Forall_map. eapply Forall_impl; [|exact H]. intros w W. split; [split; [exact W|constructor]|intros q []].
  Qed.
  End Draw.

  (** Keys and waiting. *)
  Definition fine (p : split) : Prop := Forall (fun w => within (wroot w) /\ told w) (pwins p).
  Lemma fine_root p : fine p -> Forall (fun w => within (wroot w)) (pwins p).
  Proof. apply Forall_impl. intros w. apply proj1. Qed.
  Lemma fine_good ws c d : Forall good ws -> fine (mkSplit ws c d).
  Proof. apply Forall_impl. intros w ((A & _) & B). auto. Qed.
  Lemma select_fine p s : fine p -> fine (setSelection dm p s).
  Proof.
    unfold fine, setSelection. cbn [pwins]. generalize 0. induction (pwins p) as [|w ws IH]; intros z H; [constructor|]. inversion H as [|w0 l0 A B]; subst. constructor; [|exact (IH _ B)].
    destruct (z =? _); exact A.
  Qed.
  Lemma once_fine sc p : fine p -> ok any fine (redraw_once h dm sc p).
  Proof. intros H. eapply ok_bind; [apply redraw_good, fine_root, H|]. intros r X. apply fine_good, X. Qed.
  Lemma redraws_fine f : forall sc p, fine p -> ok any fine (redraws h dm f sc p).
  Proof.
    induction f as [|f IH]; intros sc p H; [exact Logic.I|]. cbn [redraws]. eapply ok_bind; [apply redraw_good, fine_root, H|]. intros [b ws] X.
    assert (Y := fine_good ws (pact p) (pcoll p) X). destruct b; [exact Y|apply IH, Y].
  Qed.
  Ltac skip := eapply ok_bind; [apply ok_true|]; intros ? _.
  Definition fines (r : inputResult * split) : Prop := fine (snd r).
  Lemma next_fine sc p : fine p -> ok any fines (split_next h dm sc p).
  Proof.
    intros M. unfold split_next. skip. destruct (wres a) as [|x l].
    - eapply ok_bind; [apply once_fine, M|]. intros p' M'. exact M'.
    - destruct (snd _).
      + skip. exact (select_fine p (Some z) M).
      + skip. eapply ok_bind; [apply once_fine, (select_fine p (Some x) M)|]. intros p' M'. exact M'.
  Qed.
  Lemma change_fine d c p : fine p -> ok any fines (changeWindow dm d c p).
  Proof.
    intros M. unfold changeWindow. destruct (_ && _); [exact M|]. destruct (_ =? 0); [exact Logic.I|]. cbv zeta. skip. unfold fines. cbn [ok snd]. destruct (wsel a); [exact M|apply (select_fine (mkSplit _ _ _)), M].
  Qed.
  Definition well (w : win) : Prop := within (wroot w) /\ told w.
  Lemma set_fine ws i x : Forall well ws -> well x -> Forall well (set_win ws i x).
  Proof.
    intros H X. unfold set_win. rewrite <- (firstn_skipn (Z.to_nat i) ws) in H. apply Forall_app in H. destruct H as (H & Y). apply Forall_app. split; [exact H|].
    destruct (skipn _ _) as [|y t]; [constructor|]. inversion Y; subst. constructor; assumption.
  Qed.
  Lemma at_fine p i w : fine p -> at_ p i = Done w -> well w.
  Proof.
    intros H. unfold at_. destruct (_ <? _); [discriminate|]. destruct (nth_error _ _) as [w0|] eqn:N; [|discriminate]. intros [= <-]. apply nth_error_In in N. unfold fine in H. rewrite Forall_forall in H. exact (H _ N).
  Qed.
  Lemma key_fine rx sc k q p : fine p -> ok any fines (split_key h dm rx sc k q p).
  Proof.
    intros M. assert (SM := fun s => select_fine p s M).
    unfold split_key. destruct (beqb k (str "Q")); [exact M|].
    destruct (_ || _); [unfold split_up; skip; apply SM|].
    destruct (_ || _); [unfold split_down; skip; apply SM|].
    destruct (beqb k _).
    { unfold split_pup. do 3 skip. destruct a1; [apply SM|]. skip. destruct (epar _); [|exact M]. skip. destruct a2; [|exact M]. skip. apply SM. }
    destruct (beqb k _). { unfold split_pdown. do 3 skip. destruct a1; [apply SM|exact M]. }
    destruct (_ || _).
    { unfold split_expand. skip. destruct (wsel a); [|exact M]. skip. cbv zeta. destruct (negb _); [exact M|]. destruct (mem _ _); [exact M|]. destruct (children _); [exact M|]. unfold split_down. skip. apply SM. }
    destruct (_ || _).
    { unfold split_collapse. do 3 skip. cbv zeta. destruct (_ && _); [|exact M]. do 2 skip. apply SM. }
    destruct (beqb k _).
    { unfold split_search. destruct q as [q|]; [|exact M]. cbv zeta.
      assert (M1 : fine (mkSplit (map (fun w => set_wres w []) (pwins p)) (pact p) (pcoll p))).
      { unfold fine. cbn [pwins]. apply Forall_map. exact M. }
      destruct (isEmpty q); [exact M1|].
      destruct (at_ _ _) as [w0|] eqn:A; cbn [SplitView.bind]; [|exact Logic.I]. apply (at_fine _ _ _ M1) in A.
      apply next_fine. unfold fine. cbn [pwins]. apply set_fine; [exact M1|exact A]. }
    destruct (beqb k _); [apply next_fine, M|].
    destruct (beqb k _); [apply change_fine, M|].
    destruct (_ || _); [apply change_fine, M|].
    destruct (_ || _); [apply change_fine, M|]. exact M.
  Qed.
  Lemma wait_fine rx f evs : forall sc p stop, fine p -> ok any (fun e => fine (end_split e)) (split_wait h dm rx f sc p stop evs).
  Proof.
    induction evs as [|[k q|w hh|] t IH]; intros sc p stop M; [exact M| | |].
    - cbn [split_wait]. eapply ok_bind; [apply key_fine, M|]. intros [r p'] M'. unfold fines in M'. cbn [snd] in M'.
      destruct r; try exact M'.
      + eapply ok_bind; [apply redraws_fine, M'|]. intros p2 M2. destruct stop; [exact M2|apply IH, M2].
      + eapply ok_bind; [apply redraws_fine, M'|]. intros p2 M2. destruct stop; [exact M2|apply IH, M2].
      + destruct stop; [exact M'|apply IH, M'].
    - cbn [split_wait]. cbv zeta. eapply ok_bind; [apply redraws_fine, M|]. intros p2 M2. apply IH, M2.
    - apply IH, M.
  Qed.
End Cause.

(** Whatever has been pressed, every mark is that of an element drawn in its window,
    or stands for elements without counterpart. *)
Lemma run_cause rx f len w hh a b m evs e : build a b = inl m -> split_run rx f len w hh a b evs = Done e ->
  Forall (fun v => forall q, In q (wmarks v) -> snd q <> OEqu /\
    ((exists i c y, In i (ids a ++ ids b) /\ In (i, c, y) (wlog v) /\ shown_op m i = snd q) \/
     snd q = ORem /\ exists u, In u (ids a ++ ids b) /\ getEquivalence m u = None)) (pwins (end_split e)).
Proof.
  intros B R. unfold split_run in R. rewrite B in R. cbv zeta in R.
  set (G := fun i => In i (ids a ++ ids b)). set (p0 := setSelection _ _ _) in R.
  assert (F0 : fine m G p0).
  { apply select_fine. assert (X : forall n, incl (ids n) (ids a ++ ids b) -> within G (wroot (new_win n)) /\ told m G (new_win n)) by (intros n I; split; [exact I|intros q []]).
    constructor; [apply X; intros i; rewrite in_app_iff; auto|]. constructor; [apply X; intros i; rewrite in_app_iff; auto|]. constructor. }
  assert (X : ok any (fun e => fine m G (end_split e)) (split_run rx f len w hh a b evs)).
  { unfold split_run. rewrite B. cbv zeta. eapply ok_bind; [apply redraws_fine; exact F0|]. intros p FP. apply wait_fine, FP. }
  unfold split_run in X. rewrite B in X. cbv zeta in X. fold p0 in X. rewrite R in X. cbn [ok] in X.
  eapply Forall_impl; [|exact X]. intros v (_ & T). exact T.
Qed.

Lemma copies_unmarked rx f len w hh a b evs e : erase a = erase b -> NoDup (ids a ++ ids b) -> all_containers (fun k => Z.of_nat k < 2 ^ 31) a -> ~ has_empty a ->
  split_run rx f len w hh a b evs = Done e -> Forall (fun v => wmarks v = []) (pwins (end_split e)).
Proof.
  intros E N F H R. destruct (self_spec a b E F N H) as (m & B & O & Q). assert (C := run_cause rx f len w hh a b m evs e B R).
  eapply Forall_impl; [|exact C]. intros v T. destruct (wmarks v) as [|q l] eqn:WM; [reflexivity|]. exfalso. cbv beta in T. destruct (T q ltac:(rewrite WM; left; reflexivity)) as (NE & [(i & c & y & I & _ & S)|(_ & u & I & U)]).
  - rewrite O in S by (apply in_app_iff, I). auto.
  - assert (L := copy_length a b E). apply in_app_or in I. destruct I as [I|I]; apply (In_nth _ _ 0) in I; destruct I as (j & J & <-).
    + assert (X : In (nth j (ids a) 0, nth j (ids b) 0) (combine (ids a) (ids b))) by (rewrite <- combine_nth by exact L; apply nth_In; rewrite combine_length; lia).
      rewrite (proj1 (Q _ _ X)) in U. discriminate.
    + assert (X : In (nth j (ids a) 0, nth j (ids b) 0) (combine (ids a) (ids b))) by (rewrite <- combine_nth by exact L; apply nth_In; rewrite combine_length; lia).
      rewrite (proj2 (Q _ _ X)) in U. discriminate.
Qed.

(** Builder::build of Model/DiffMem.v against Model/Diff.v. *)
From Coq Require Import Permutation Lia ZArith List.
From Verif Require Import Proofs.DiffProofs.
From Verif Require Import Spec.HeapSpec.
From Verif Require Import Model.Heap Model.DiffMem Proofs.HeapProofs Proofs.DiffMemProofs Proofs.DiffMemMatrix Proofs.DiffMemPath.
Open Scope Z_scope.
Open Scope mem_scope.

Lemma dp_row0_at W m d : nth m (dp_row0 W m) d = (Z.of_nat m mod W, None).
Proof.
  assert (E := row0_at W m m (Nat.le_refl m)). destruct (F2_nth1 _ _ _ _ _ (row0_like W m) E) as ([v o] & EC & EV & EO). cbn in EV, EO.
  rewrite (nth_error_nth _ _ d EC). subst v. destruct o; [destruct EO|reflexivity].
Qed.

Lemma containers_ok a b subs outs :
  Forall2 (Forall2 refines) subs outs -> length outs = length (children a) -> (forall l, In l outs -> length l = length (children b)) ->
  Z.of_nat (length (children b)) < 2 ^ 31 ->
  refines (containers_mem a b subs) (dbind (seqd (map seqd outs)) (container_mat a b)).
Proof.
  intros SO LO LM FB h WF. unfold containers_mem, zlen.
  set (n := length (children a)) in *. set (m := length (children b)) in *. set (W := width (Z.of_nat n) (Z.of_nat m)).
  apply wp_bind. unfold build_matrice. fold n m. cbv zeta.
  apply wp_bind. eapply new_ok; [apply owns_nil; exact WF|]. intros res h1 O1.
  apply wp_bind. eapply new_ok; [exact O1|]. clear h1 O1. intros X h1 O1.
  apply wp_bind. eapply new_ok; [exact O1|]. clear h1 O1. intros Y h1 O1.
  replace (Z.to_nat (Z.of_nat n + 1)) with (S n) in O1 by lia. rewrite Nat2Z.id in O1. change (Some None) with null in O1.
  apply wp_bind. eapply (first_row_ok X n m W); [eapply owns_perm; [apply perm_swap|exact O1]|]. clear h1 O1. intros r0 h1 O1.
  apply wp_bind. eapply (other_rows_ok X Y n m W); [exact O1|]. clear h1 O1. intros Rs Ss h1 LR LS HS.
  apply wp_bind. eapply wp_mono; [eapply all_cells_ok; [exact SO|exact LO|exact LM|apply row0_like|exact HS]| |].
  2:{ intros c E. rewrite E. reflexivity. }
  clear h1 HS. intros [ia ib] h1 (T1 & ss & ES & FT & EA & EB & LT & FL & HS). cbn [fst snd] in *. subst ia.
  assert (EQ : seqd (map seqd outs) = inl ss).
  { rewrite <- ES, map_map. erewrite map_ext by (intros s; apply seqd_all). apply seqd_all. }
  rewrite EQ. cbn [dbind]. unfold container_mat. cbv zeta. fold n m. fold W. set (t := dp_table W m ss) in *.
  eapply wp_step; [eapply (read_cell X Y Rs Ss h (children a) (children b) (row0 W m) T1 t); eauto|]. fold n m. set (d := fst (cell_at t n m)).
  destruct (Z.max (Z.of_nat n) (Z.of_nat m) =? 0) eqn:EMX; [reflexivity|]. set (rel := f32_of_Z (rel_size d (Z.max (Z.of_nat n) (Z.of_nat m)))).
  destruct (St_change _ _ _ _ _ _ _ _ _ _ _ (fun o => match o with Matrice ops e _ _ => Matrice ops e (Some d) (Some rel) | o => o end) HS) as (h2 & E2 & HS2).
  eapply wp_step; [exact E2|]. clear h1 HS E2. cbn beta iota in HS2.
  set (PO := if f_gt rel sensibility then walk t (children a) (children b) (n + m) n m [] [] else inl ([], [])).
  apply wp_bind. eapply wp_mono with (Q := fun _ h' => exists ops eqs, PO = inl (ops, eqs) /\
      going X Y Rs Ss h res (row0 W m) T1 (Some d) (Some rel) ops eqs h') (D := fun c => PO = inr c).
  - unfold PO. destruct (f_gt rel sensibility) eqn:EF; [|apply wp_ret; eauto].
    assert (N0 : (0 < n)%nat).
    { destruct (Nat.eq_0_gt_0_cases n) as [E|]; [exfalso|assumption]. destruct T1; [|cbn in LT; lia].
      assert (ED : d = Z.of_nat m).
      { unfold d. rewrite E. unfold t, dp_table, cell_at. change (nth 0 (dp_row0 W m :: ?l) []) with (dp_row0 W m). rewrite dp_row0_at. cbn [fst].
        apply Z.mod_small. unfold W, width. fold n m. clear - FB.
        destruct (Z.ltb_spec (Z.of_nat m) 255), (Z.ltb_spec (Z.of_nat m) 65535), (Z.of_nat n <? 255), (Z.of_nat n <? 65535); cbn [andb]; lia. }
      assert (ER : rel = f32_of_Z 0).
      { unfold rel. rewrite ED, E. replace (Z.max (Z.of_nat 0) (Z.of_nat m)) with (Z.of_nat m) by lia. unfold rel_size. rewrite Z.div_same; [reflexivity|].
        apply Z.eqb_neq in EMX. rewrite E in EMX. lia. }
      rewrite ER in EF. vm_compute in EF. discriminate. }
    rewrite (EB N0). eapply wp_step; [reflexivity|]. eapply wp_step; [reflexivity|].
    eapply wp_mono; [eapply path_ok; eauto; try apply Nat.le_refl; exact HS2| |].
    + intros u h' H. exact H.
    + intros c H. exact H.
  - clear h2 HS2. intros _ h2 (ops & eqs & EP & HS2). fold PO. rewrite EP. clearbody PO. cbn [dbind].
    apply wp_bind. eapply clean_ok; [exact LR|exact LT|inversion FL; assumption|exact HS2|].
    clear h2 HS2. intros h2 O2. apply wp_ret. unfold addRoot.
    assert (RD : forall ob h', owns [(res, BObj ob)] h h' -> read_obj res h' = Done ob h') by (intros ob h' O; eapply read_obj_ok; [exact O|now left]).
    apply wp_bind. eapply wp_step; [apply RD, O2|]. cbn [given]. eapply wp_step; [reflexivity|].
    destruct (f_gt sensibility rel).
    + destruct (change_ok _ _ _ _ _ (set_ops (fun ops => mset (nid b) OAdd (mset (nid a) OAdd ops))) O2) as (h3 & E3 & O3).
      eapply wp_done; [exact E3|]. apply wp_ret. eexists _, _. split; [reflexivity|]. split; [|exact O3]. repeat split.
    + cbv zeta. set (o := if f_gt f32_one rel then OMod else OEqu).
      destruct (change_ok _ _ _ _ _ (set_ops (fun ops => mset (nid a) o (mset (nid b) o ops))) O2) as (h3 & E3 & O3). eapply wp_step; [exact E3|].
      destruct (change_ok _ _ _ _ _ (set_eqv (mset (nid a) (nid b))) O3) as (h4 & E4 & O4). eapply wp_step; [exact E4|].
      destruct (change_ok _ _ _ _ _ (set_eqv (mset (nid b) (nid a))) O4) as (h5 & E5 & O5). eapply wp_done; [exact E5|].
      apply wp_ret. eexists _, _. split; [reflexivity|]. split; [|exact O5]. repeat split.
  - intros c EP. fold PO. rewrite EP. reflexivity.
Qed.

Lemma scored_ok r a b s : refines (scored_mem r a b s) (inl (scored r a b s)).
Proof.
  intros h WF. unfold scored_mem. cbv zeta. eapply new_ok; [apply owns_nil; exact WF|]. intros p h' O. eexists _, _. split; [reflexivity|]. split; [|exact O].
  unfold scored. destruct s; repeat split.
Qed.
Lemma manual_ok c o : refines (manual_mem c o) (inl (manual c o)).
Proof.
  intros h WF. unfold manual_mem. apply wp_bind. eapply new_ok; [apply owns_nil; exact WF|]. intros p h1 O1.
  edestruct (change_ok _ _ _ _ _ (fun x => match x with Manual ops _ => Manual ops (Some (Z.of_nat (length (children c)) + 1)) | x => x end) O1) as (h2 & E2 & O2). eapply wp_step; [exact E2|].
  edestruct (change_ok _ _ _ _ _ (set_ops (mset (nid c) ORem)) O2) as (h3 & E3 & O3). eapply wp_step; [exact E3|].
  edestruct (change_ok _ _ _ _ _ (set_ops (mset o OAdd)) O3) as (h4 & E4 & O4). eapply wp_step; [exact E4|].
  apply wp_ret. eexists _, _. split; [reflexivity|]. split; [|exact O4]. repeat split.
Qed.
Lemma percent_ok own h0 h a b (Q : spec_float -> heap -> Prop) D : owns own h0 h ->
  (forall h', owns own h0 h' -> Q (levenshteinPercent a b) h') -> wp (levenshteinPercent_mem a b) h Q D.
Proof.
  intros O K. unfold levenshteinPercent_mem, levenshteinPercent in *.
  destruct a as [|x a]; [destruct b as [|y b]; [apply wp_ret, K, O|]|]; (apply wp_bind; eapply levenshtein_ok; [exact O|]; intros h' O'; apply wp_ret, K, O').
Qed.

(** The calls for the children of two containers. *)
Definition pair_mem (x y : elem) : M Z :=
  match x with ENode n => node_with_mem (build_mem n) n y | EEntry m k v => entry_with_mem (build_mem v) m k y end.
Lemma build_mem_containers a b : is_container a = true -> is_container b = true ->
  build_mem a b = containers_mem a b (map (fun x => map (pair_mem x) (children b)) (children a)).
Proof.
  intros A B. destruct a as [ma pa|ma la|ma la]; [discriminate| |]; cbn [build_mem]; rewrite B; cbn [children]; rewrite map_map; reflexivity.
Qed.
Lemma pair_ok x y : (forall b, fits_memory b -> refines (build_mem (sub_nodes x) b) (build (sub_nodes x) b)) -> fits_memory (sub_nodes y) -> refines (pair_mem x y) (pair x y).
Proof.
  intros H F. destruct x as [n|m k v], y as [n'|m' k' v']; cbn [pair pair_mem node_with node_with_mem entry_with entry_with_mem sub_nodes] in *.
  - apply H, F.
  - destruct (is_container n); [apply manual_ok|apply scored_ok].
  - destruct (is_container n'); [apply manual_ok|apply scored_ok].
  - destruct (beqb k k'); [apply H, F|apply scored_ok].
Qed.
Lemma F2_map {A B C} (R : B -> C -> Prop) (f : A -> B) (g : A -> C) l : (forall x, In x l -> R (f x) (g x)) -> Forall2 R (map f l) (map g l).
Proof. induction l; cbn; constructor; auto. Qed.

Lemma build_ok : forall a b, fits_memory b -> refines (build_mem a b) (build a b).
Proof.
  intros a. induction a as [a IH] using node_children_ind. intros b FB.
  destruct (is_container a) eqn:CA.
  2:{ destruct a as [ma pa| |]; try discriminate. cbn [build build_mem]. destruct b as [mb pb|mb lb|mb lb]; [|apply manual_ok|apply manual_ok].
      intros h WF. apply wp_bind. eapply percent_ok; [apply owns_nil; exact WF|]. intros h' O. eapply wp_mono; [apply scored_ok; eapply owns_wf; exact O| |auto].
      cbn beta. intros p h2 (m & ob & E & T & O2). exists m, ob. split; [exact E|]. split; [exact T|].
      rewrite <- (app_nil_r [_]). eapply owns_trans; eauto. }
  destruct (is_container b) eqn:CB.
  2:{ destruct b as [mb pb| |]; try discriminate. destruct a; [discriminate| |]; cbn [build build_mem is_container]; apply manual_ok. }
  rewrite build_containers, build_mem_containers by assumption.
  replace (map (fun x => seqd (map (pair x) (children b))) (children a)) with (map seqd (map (fun x => map (pair x) (children b)) (children a))) by apply map_map.
  apply containers_ok.
  - apply F2_map. intros x IX. apply F2_map. intros y IY. apply pair_ok; [intros b' FB'; apply IH; assumption|]. eapply fits_child; eauto.
  - apply map_length.
  - intros l I. apply in_map_iff in I. destruct I as (x & <- & _). apply map_length.
  - apply fits_size, FB.
Qed.

(** In terms of the memory before and after. *)
Lemma build_memory a b h : wf h -> all_containers (fun k => Z.of_nat k < 2 ^ 31) b ->
  match build_mem a b h with
  | Done p h' => wf h' /\ blk h p = None /\ (exists o m, blk h' p = Some (BObj o) /\ build a b = inl m /\ tells o m) /\ forall q, q <> p -> blk h' q = blk h q
  | Died c => build a b = inr c
  | Faulty _ => False
  end.
Proof.
  intros WF FB. pose proof (build_ok a b FB h WF) as H. unfold wp in H. destruct (build_mem a b h) as [p h'|f|c]; [|exact H|exact H].
  destruct H as (m & o & E & T & O). split; [eapply owns_wf; eauto|]. split; [apply WF, (o_new _ _ _ O); now left|]. split.
  - exists o, m. split; [apply O; now left|auto].
  - intros q N. apply O. cbn. intuition congruence.
Qed.
Lemma levenshtein_memory a b h : wf h -> exists h', levenshtein_mem a b h = Done (levenshtein a b) h' /\ wf h' /\ forall q, blk h' q = blk h q.
Proof.
  intros WF. assert (H := levenshtein_ok [] h h a b (fun v h' => v = levenshtein a b /\ wf h' /\ forall q, blk h' q = blk h q) (fun _ => False) (owns_nil h WF)).
  unfold wp in H. destruct (levenshtein_mem a b h) as [v h'|f|c].
  - destruct H as (-> & W & B); [|eauto]. intros h1 O. split; [reflexivity|]. split; [eapply owns_wf; eauto|]. intros q. apply O. intros [].
  - destruct H. intros h1 O. split; [reflexivity|]. split; [eapply owns_wf; eauto|]. intros q. apply O. intros [].
  - destruct H. intros h1 O. split; [reflexivity|]. split; [eapply owns_wf; eauto|]. intros q. apply O. intros [].
Qed.

(** All the runs of a viewer of two documents. *)
Lemma life_memory runs h : wf h ->
  (forall a b, In (a, b) runs -> all_containers (fun k => Z.of_nat k < 2 ^ 31) a /\ all_containers (fun k => Z.of_nat k < 2 ^ 31) b /\ ~ meets_empty a b) ->
  exists h', splitOutput_life runs h = Done tt h' /\ forall q, blk h' q = blk h q.
Proof.
  intros WF H. unfold splitOutput_life.
  assert (G : forall d own h1, match d with None => own = [] | Some p => exists o, own = [(p, BObj o)] end -> owns own h h1 ->
    wp ((fix go (d : ptr) (l : list (node * node)) : M ptr :=
    match l with
    | [] => mret d
    | (a, b) :: l => let! d := computeDiff d a b in go d l
    end) d runs) h1 (fun d h2 => exists own, match d with None => own = [] | Some p => exists o, own = [(p, BObj o)] end /\ owns own h h2) (fun _ => False)).
  { induction runs as [|[a b] runs IH]; intros d own h1 HD O; [apply wp_ret; eauto|].
    destruct (H a b (or_introl eq_refl)) as (FA & FB & NM).
    apply wp_bind. unfold computeDiff. assert (exists h2, (match d with Some p => delete_obj p | None => mret tt end) h1 = Done tt h2 /\ owns [] h h2) as (h2 & E2 & O2).
    { destruct d as [p|]; [destruct HD as (o & ->); eapply delete_obj_ok; exact O|subst own; eauto]. }
    eapply wp_step; [exact E2|]. apply wp_bind. eapply wp_mono; [eapply build_ok; [exact FB|eapply owns_wf; exact O2]| |].
    - cbn beta. intros p h3 (m & o & _ & _ & O3). apply wp_ret. eapply (IH); [intros; apply H; now right|exists o; reflexivity|].
      exact (owns_trans _ _ _ _ _ O2 O3).
    - cbn beta. intros c E. destruct (build_outcome a b FA FB) as [(m & E' & _)|(_ & M)]; [congruence|contradiction]. }
  assert (W : wp (splitOutput_life runs) h (fun _ h' => owns [] h h') (fun _ => False)).
  { unfold splitOutput_life. apply wp_bind. eapply wp_mono; [apply (G None [] h eq_refl (owns_nil h WF))| |auto].
    cbn beta. intros d h1 (own & HD & O). destruct d as [p|]; [destruct HD as (o & ->)|subst own; apply wp_ret; exact O].
    destruct (delete_obj_ok _ _ _ _ _ O) as (h2 & E2 & O2). eapply wp_done; eauto. }
  unfold wp in W. fold (splitOutput_life runs). destruct (splitOutput_life runs h) as [[] h'|f|c]; [|contradiction|contradiction].
  exists h'. split; [reflexivity|]. intros q. apply W. intros [].
Qed.

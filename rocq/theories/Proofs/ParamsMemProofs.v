(** What is made for the options is deleted. *)
From Coq Require Import Permutation Lia ZArith List.
From Verif Require Import Proofs.ParserBase Proofs.DiffCmdProofs Spec.CmdSpec Proofs.HeapProofs.
From Verif Require Import Spec.HeapSpec Spec.OptMemSpec.
From Verif Require Import Model.Heap Model.ParamsMem.
Open Scope Z_scope.
Open Scope mem_scope.

(** Strings of the argument vector: their addresses and contents. *)
Definition strblk (s : bytes) : block := BInts (map (fun c => Some (uchar c)) (cstr s) ++ [Some 0]).
Definition strs (S : list (Z * bytes)) : list (Z * block) := map (fun x => (fst x, strblk (snd x))) S.
Definition cellsof (S : list (Z * bytes)) : list (option ptr) := map (fun x => Some (Some (fst x))) S.

Lemma put_mem_ok ss : forall av S k rest h0 h D, (length ss <= k)%nat -> Z.of_nat (length S + length ss) < UINT ->
  owns ((av, BPtrs (cellsof S ++ repeat None k)) :: strs S ++ rest) h0 h ->
  wp (put_mem av ss (Z.of_nat (length S))) h (fun cur h' => exists S', map snd S' = map snd S ++ ss /\ cur = Z.of_nat (length S') /\
    owns ((av, BPtrs (cellsof S' ++ repeat None (k - length ss))) :: strs S' ++ rest) h0 h') D.
Proof.
  induction ss as [|s ss IH]; intros av S k rest h0 h D LK LU O; cbn [put_mem].
  - apply wp_ret. exists S. rewrite app_nil_r, Nat.sub_0_r. auto.
  - cbn [length] in *. apply wp_bind. apply wp_bind. unfold strdup. eapply new_ok; [exact O|]. intros c h1 O1. fold (strblk s) in O1.
    destruct k as [|k]; [lia|].
    assert (O2 : owns ((av, BPtrs (cellsof S ++ repeat None (Datatypes.S k))) :: (c, strblk s) :: strs S ++ rest) h0 h1) by (eapply owns_perm; [apply perm_swap|exact O1]).
    destruct (write_ptr_ok _ _ _ _ _ (length S) (Some c) O2) as (h2 & E & O3).
    { rewrite app_length. unfold cellsof. rewrite map_length. cbn. lia. }
    eapply wp_done; [exact E|]. cbn beta.
    assert (Q : Heap.set_nth (length S) (Some (Some c)) (cellsof S ++ repeat None (Datatypes.S k)) = cellsof (S ++ [(c, s)]) ++ repeat None k).
    { cbn [repeat]. unfold cellsof. rewrite <- (map_length (fun x => Some (Some (fst x))) S) at 1. rewrite set_nth_app, map_app, <- app_assoc. reflexivity. }
    assert (O4 : owns ((av, BPtrs (cellsof (S ++ [(c, s)]) ++ repeat None k)) :: (c, strblk s) :: strs S ++ rest) h0 h2) by (rewrite <- Q; exact O3). clear Q O3.
    replace ((Z.of_nat (length S) + 1) mod UINT) with (Z.of_nat (length (S ++ [(c, s)]))).
    2:{ rewrite app_length. cbn [length]. rewrite Z.mod_small; unfold UINT in *; lia. }
    eapply wp_mono; [apply (IH av (S ++ [(c, s)]) k rest h0 h2 D)| |auto].
    + lia.
    + rewrite app_length. cbn [length]. lia.
    + eapply owns_perm; [|exact O4]. apply perm_skip. unfold strs. rewrite map_app. cbn [map fst snd]. rewrite <- app_assoc. cbn [app].
      apply Permutation_middle.
    + intros cur h' (S' & M & C & O'). exists S'. rewrite map_app in M. cbn [map snd] in M. rewrite <- app_assoc in M. cbn in M. auto.
Qed.

Lemma fill_mem_ok files argv r : subst_args files argv r -> forall av S k rest h0 h D, (length r <= k)%nat -> Z.of_nat (length S + length r) < UINT ->
  owns ((av, BPtrs (cellsof S ++ repeat None k)) :: strs S ++ rest) h0 h ->
  wp (fill_mem av argv files (Z.of_nat (length S))) h (fun cur h' => exists S', map snd S' = map snd S ++ r /\ cur = Z.of_nat (length S') /\
    owns ((av, BPtrs (cellsof S' ++ repeat None (k - length r))) :: strs S' ++ rest) h0 h') D.
Proof.
  assert (STEP : forall ss r av S k rest h0 h D t, (length ss + length r <= k)%nat -> Z.of_nat (length S + (length ss + length r)) < UINT ->
    owns ((av, BPtrs (cellsof S ++ repeat None k)) :: strs S ++ rest) h0 h ->
    (forall av S k rest h0 h D, (length r <= k)%nat -> Z.of_nat (length S + length r) < UINT ->
      owns ((av, BPtrs (cellsof S ++ repeat None k)) :: strs S ++ rest) h0 h ->
      wp (fill_mem av t files (Z.of_nat (length S))) h (fun cur h' => exists S', map snd S' = map snd S ++ r /\ cur = Z.of_nat (length S') /\
      owns ((av, BPtrs (cellsof S' ++ repeat None (k - length r))) :: strs S' ++ rest) h0 h') D) ->
    wp (let! cur := put_mem av ss (Z.of_nat (length S)) in fill_mem av t files cur) h (fun cur h' => exists S', map snd S' = map snd S ++ ss ++ r /\ cur = Z.of_nat (length S') /\
      owns ((av, BPtrs (cellsof S' ++ repeat None (k - (length ss + length r)))) :: strs S' ++ rest) h0 h') D).
  { intros ss r' av S k rest h0 h D t LK LU O IH. apply wp_bind. eapply wp_mono; [apply (put_mem_ok ss av S k rest h0 h D); [lia|lia|exact O]| |auto].
    cbn beta. intros cur h1 (S1 & M1 & -> & O1). assert (L1 := f_equal (@length _) M1). rewrite app_length, !map_length in L1.
    eapply wp_mono; [apply (IH av S1 (k - length ss)%nat rest h0 h1 D); [lia|lia|exact O1]| |auto].
    intros cur h2 (S2 & M2 & C & O2). exists S2. rewrite M2, M1, <- app_assoc. replace (k - (length ss + length r'))%nat with (k - length ss - length r')%nat by lia. auto. }
  induction 1 as [|a r H IH|x a r N H IH]; intros av S k rest h0 h D LK LU O; cbn [fill_mem].
  - apply wp_ret. exists S. rewrite app_nil_r, Nat.sub_0_r. auto.
  - replace (beqb (str "{}") (str "{}")) with true by reflexivity. rewrite app_length in *. apply (STEP files r); auto.
  - destruct (beqb x (str "{}")) eqn:E; [apply beqb_eq in E; contradiction|]. apply (STEP [x] r); auto.
Qed.

(** computeArgv. *)
Lemma compute_ok d argv files r rest h0 h D : subst_args files argv r -> Z.of_nat (length r) + 1 < UINT ->
  owns ((d, BPtrs [Some None]) :: rest) h0 h ->
  wp (computeArgv_mem d argv files) h (fun av h' => exists S, map snd S = r /\
    owns ((av, BPtrs (cellsof S ++ [Some None])) :: strs S ++ (d, BPtrs [Some (Some av)]) :: rest) h0 h') D.
Proof.
  intros SA LU O. unfold computeArgv_mem.
  eapply wp_step. { apply (read_ptr_ok _ h0 h d [Some None] 0%nat None O); [left; reflexivity|reflexivity]. } cbn beta iota.
  rewrite (count_spec _ _ _ SA) by (unfold UINT; lia). rewrite Z.add_0_l, Zplus_mod_idemp_l, Z.mod_small by lia.
  apply wp_bind. unfold new_ptrs. eapply new_ok; [exact O|]. intros av h1 O1. 
  assert (O2 : owns ((d, BPtrs [Some None]) :: (av, BPtrs (repeat None (Z.to_nat (Z.of_nat (length r) + 1)))) :: rest) h0 h1) by (eapply owns_perm; [apply perm_swap|exact O1]). clear O1.
  destruct (write_ptr_ok _ _ _ _ _ 0%nat (Some av) O2) as (h2 & E & O3); [cbn; lia|]. cbn [Heap.set_nth] in O3.
  eapply wp_step; [exact E|]. cbn beta. apply wp_bind.
  assert (O4 : owns ((av, BPtrs (cellsof [] ++ repeat None (Datatypes.S (length r)))) :: strs [] ++ (d, BPtrs [Some (Some av)]) :: rest) h0 h2).
  { eapply owns_perm; [apply perm_swap|]. cbn [cellsof map strs app]. replace (Datatypes.S (length r)) with (Z.to_nat (Z.of_nat (length r) + 1)) by lia. exact O3. }
  eapply wp_mono; [apply (fill_mem_ok files argv r SA av [] (Datatypes.S (length r)) ((d, BPtrs [Some (Some av)]) :: rest) h0 h2 D); [lia|cbn [length]; lia|exact O4]| |auto].
  cbn beta. intros cur h3 (S & M & -> & O5). cbn [map app] in M. assert (L := f_equal (@length _) M). rewrite map_length in L.
  replace (Datatypes.S (length r) - length r)%nat with 1%nat in O5 by lia.
  destruct (write_ptr_ok _ _ _ _ _ (length S) None O5) as (h4 & E4 & O6). { rewrite app_length. unfold cellsof. rewrite map_length. cbn. lia. }
  eapply wp_step; [exact E4|]. apply wp_ret. exists S. split; [exact M|].
  assert (Q : Heap.set_nth (length S) (Some (None : ptr)) (cellsof S ++ repeat None 1) = cellsof S ++ [Some None]).
  { unfold cellsof. rewrite <- (map_length (fun x => Some (Some (fst x))) S) at 1. cbn [repeat]. apply set_nth_app. }
  rewrite <- Q. exact O6.
Qed.

(** ~DiffCmd. *)
Lemma free_args_ok av S2 : forall S1 n rest h0 h D, (length S2 < n)%nat ->
  owns ((av, BPtrs (cellsof (S1 ++ S2) ++ [Some None])) :: strs S2 ++ rest) h0 h ->
  wp (free_args av n (Z.of_nat (length S1))) h (fun _ h' => owns ((av, BPtrs (cellsof (S1 ++ S2) ++ [Some None])) :: rest) h0 h') D.
Proof.
  induction S2 as [|[s x] S2 IH]; intros S1 n rest h0 h D L O; (destruct n as [|n]; [cbn in L; lia|]); cbn [free_args].
  - eapply wp_step. { eapply (read_ptr_ok _ h0 h av _ (length S1) None O); [left; reflexivity|].
      rewrite app_nil_r. unfold cellsof. rewrite <- (map_length (fun x => Some (Some (fst x))) S1). apply nth_error_mid. }
    cbn beta iota. apply wp_ret. exact O.
  - eapply wp_step. { eapply (read_ptr_ok _ h0 h av _ (length S1) (Some s) O); [left; reflexivity|].
      unfold cellsof. rewrite map_app, <- app_assoc. cbn [map app]. rewrite <- (map_length (fun x => Some (Some (fst x))) S1). apply nth_error_mid. }
    cbn beta iota. cbn [strs map app fst snd] in O. eapply owns_perm in O; [|apply perm_swap].
    destruct (delete_array_ok _ _ _ _ _ O I) as (h1 & E & O1). eapply wp_step; [exact E|]. cbn beta.
    replace (Z.of_nat (length S1) + 1) with (Z.of_nat (length (S1 ++ [(s, x)]))) by (rewrite app_length; cbn [length]; lia).
    replace (S1 ++ (s, x) :: S2) with ((S1 ++ [(s, x)]) ++ S2) in * by (rewrite <- app_assoc; reflexivity).
    apply IH; [cbn in L; lia|exact O1].
Qed.

(** The blocks of a DiffCmd: before and after computeArgv. *)
Inductive cmdown (d : Z) : list (Z * block) -> Prop :=
| CO_new : cmdown d [(d, BPtrs [Some None])]
| CO_run av S : cmdown d ((av, BPtrs (cellsof S ++ [Some None])) :: strs S ++ [(d, BPtrs [Some (Some av)])]).

Lemma delete_cmd_ok d own rest h0 h D : cmdown d own -> owns (own ++ rest) h0 h -> wp (delete_cmd d) h (fun _ h' => owns rest h0 h') D.
Proof.
  intros C O. unfold delete_cmd. destruct C as [|av S].
  - eapply wp_step. { apply (read_ptr_ok _ h0 h d [Some None] 0%nat None O); [left; reflexivity|reflexivity]. } cbn beta iota.
    eapply wp_step; [reflexivity|]. cbn beta. destruct (delete_array_ok _ _ _ _ _ O I) as (h1 & E & O1). eapply wp_done; eauto.
  - cbn [app] in O. rewrite <- app_assoc in O. cbn [app] in O.
    eapply wp_step. { apply (read_ptr_ok _ h0 h d [Some (Some av)] 0%nat (Some av) O); [right; apply in_or_app; right; left; reflexivity|reflexivity]. } cbn beta iota.
    apply wp_bind. eapply wp_step. { eapply get_ok; [exact O|left; reflexivity]. } cbn beta iota.
    apply wp_bind. eapply wp_mono; [apply (free_args_ok av S [] _ ((d, BPtrs [Some (Some av)]) :: rest) h0 h D); [|exact O]| |auto].
    { rewrite app_length. unfold cellsof. rewrite map_length. cbn. lia. }
    cbn [app]. intros _ h1 O1. destruct (delete_array_ok _ _ _ _ _ O1 I) as (h2 & E & O2). eapply wp_done; [exact E|].
    destruct (delete_array_ok _ _ _ _ _ O2 I) as (h3 & E3 & O3). eapply wp_done; eauto.
Qed.

(** The inputs. *)
Definition links (ks : list (bytes * Z)) : list (bytes * ptr) := map (fun x => (fst x, Some (snd x))) ks.
Definition objs (l : list Z) : list (Z * block) := map (fun q => (q, BInts [])) l.

Lemma each_delete_ok ks : forall rest h0 h D, owns (objs (map snd ks) ++ rest) h0 h ->
  wp (each delete_object (links ks)) h (fun _ h' => owns rest h0 h') D.
Proof.
  induction ks as [|[k s] ks IH]; intros rest h0 h D O; cbn [links map each fst snd].
  - apply wp_ret. exact O.
  - cbn [objs map snd app] in O. destruct (delete_array_ok _ _ _ _ _ O I) as (h1 & E & O1). eapply wp_step; [exact E|]. apply IH. exact O1.
Qed.

Lemma use_ok s b own h0 h : owns own h0 h -> In (s, b) own -> use (Some s) h = Done tt h.
Proof. intros O I. unfold use. cbn [deref]. unfold mbind, mret. erewrite get_ok by eauto. reflexivity. Qed.

Lemma each_use_ok ks : forall own h0 h n, owns own h0 h -> (forall s, In s (map snd ks) -> In (s, BInts []) own) ->
  each use (firstn n (links ks)) h = Done tt h.
Proof.
  induction ks as [|[k s] ks IH]; intros own h0 h n O A; destruct n; cbn [links map firstn each fst snd]; try reflexivity.
  erewrite bind_done by (eapply use_ok; [exact O|apply A; left; reflexivity]). eapply IH; [exact O|]. intros t T. apply A. right. exact T.
Qed.

Lemma set_miss {V} (d : V) k' v l k x : beqb k' k = false -> set beqb d ((k', v) :: l) k x = (k', v) :: set beqb d l k x.
Proof. intros E. unfold set. cbn [FifoMap.index]. rewrite E. destruct (FifoMap.index beqb d l k). reflexivity. Qed.
Lemma set_hit {V} (d : V) v l k x : set beqb d ((k, v) :: l) k x = (k, x) :: l.
Proof. unfold set. cbn [FifoMap.index]. rewrite beqb_refl. reflexivity. Qed.
Lemma set_links_new ks k s : contains beqb (links ks) k = false -> set beqb (None : ptr) (links ks) k (Some s) = links (ks ++ [(k, s)]).
Proof.
  induction ks as [|[k' s'] ks IH]; intros C; [reflexivity|]. change (links ((k', s') :: ks)) with ((k', Some s') :: links ks) in *. cbn [contains] in C.
  destruct (beqb k' k) eqn:E; [discriminate|]. rewrite set_miss by exact E. rewrite IH by exact C. reflexivity.
Qed.
Lemma set_links_old ks k s : contains beqb (links ks) k = true ->
  exists k1 s1 k2, ks = k1 ++ (k, s1) :: k2 /\ set beqb (None : ptr) (links ks) k (Some s) = links (k1 ++ (k, s) :: k2).
Proof.
  induction ks as [|[k' s'] ks IH]; intros C; [discriminate|]. change (links ((k', s') :: ks)) with ((k', Some s') :: links ks) in *. cbn [contains] in C.
  destruct (beqb k' k) eqn:E.
  - apply beqb_eq in E. subst. exists [], s', ks. rewrite set_hit. auto.
  - destruct (IH C) as (k1 & s1 & k2 & -> & Q). exists ((k', s') :: k1), s1, k2. split; [reflexivity|]. rewrite set_miss by exact E. rewrite Q. reflexivity.
Qed.
Lemma set_names {V} (d : V) l k v : map fst (set beqb d l k v) = if contains beqb l k then map fst l else map fst l ++ [k].
Proof.
  induction l as [|[k' v'] l IH]; [reflexivity|]. cbn [contains]. destruct (beqb k' k) eqn:E.
  - apply beqb_eq in E. subst. rewrite set_hit. reflexivity.
  - rewrite set_miss by exact E. cbn [map fst]. rewrite IH. destruct (contains beqb l k); reflexivity.
Qed.
Lemma contains_names {V} (l : list (bytes * V)) k : contains beqb l k = existsb (fun x => beqb x k) (map fst l).
Proof. induction l as [|[k' v] l IH]; [reflexivity|]. cbn. destruct (beqb k' k); auto. Qed.
Lemma links_names ks : map fst (links ks) = map fst ks.
Proof. unfold links. rewrite map_map. reflexivity. Qed.

(** What the Params owns. *)
Definition cmdblk (c : ptr) : list (Z * block) := match c with Some d => [(d, BPtrs [Some None])] | None => [] end.
Definition pown (self : Z) (ks : list (bytes * Z)) (C : list (Z * block)) (lost : list Z) : list (Z * block) :=
  objs (map snd ks) ++ C ++ (self, BInts []) :: objs lost.
Record minv (p : params) (m : pmem) (seen : list bytes) (ks : list (bytes * Z)) (lost : list Z) : Prop := mkMinv {
  v_in : m_inputs m = links ks;
  v_names : map fst ks = map fst (p_inputs p);
  v_cmd : p_cmd p = None <-> m_cmd m = None;
  v_indiff : p_inDiff p = true -> m_cmd m <> None;
  v_text : p_text p <> None -> exists s, m_text m = Some s /\ In s (map snd ks);
  v_seen : p_text p = None -> incl (map fst ks) seen /\ lost = [];
  v_one : (length lost <= 1)%nat;
  v_args : lost <> [] -> In (str "ARGS") seen
}.

Lemma delete_params_ok self ks c C lost h0 h D m : m_inputs m = links ks -> m_cmd m = c -> match c with Some d => cmdown d C | None => C = [] end ->
  owns (pown self ks C lost) h0 h -> wp (delete_params self m) h (fun _ h' => owns (objs lost) h0 h') D.
Proof.
  intros MI MC HC O. unfold delete_params, pown in *. rewrite MI, MC. apply wp_bind. eapply wp_mono; [apply (each_delete_ok ks (C ++ (self, BInts []) :: objs lost) h0 h D); exact O| |auto].
  cbn beta. intros _ h1 O1. apply wp_bind.
  assert (W : wp (match c with Some d => delete_cmd d | None => mret tt end) h1 (fun _ h' => owns ((self, BInts []) :: objs lost) h0 h') D).
  { destruct c as [d|]; [eapply delete_cmd_ok; eauto|]. subst C. apply wp_ret. exact O1. }
  eapply wp_mono; [exact W| |auto]. cbn beta. intros _ h2 O2. cbn [delete_object]. destruct (delete_array_ok _ _ _ _ _ O2 I) as (h3 & E & O3). eapply wp_done; eauto.
Qed.

Lemma in_pown self ks C lost s : In s (map snd ks) -> In (s, BInts []) (pown self ks C lost).
Proof. intros S. apply in_or_app. left. apply (in_map (fun q => (q, BInts []))) in S. exact S. Qed.

Lemma color_dash tmp : starts (str "-") tmp = false -> starts (str "--color=") tmp = false.
Proof. destruct tmp as [|c tmp]; [reflexivity|]. destruct c as [[][][][][][][][]]; cbn; congruence. Qed.

Definition same (p p' : params) : Prop := p_inputs p' = p_inputs p /\ p_cmd p' = p_cmd p /\ p_inDiff p' = p_inDiff p /\ p_text p' = p_text p.
Lemma flags_same opens p tmp p' : beqb tmp (str "--") = false ->
  existsb (beqb tmp) (map str ["-W"; "--ascii"; "--color"; "--diff"; "--compress"; "--help"; "-h"; "--version"; "-v"; "--keep-order"]%string) = true ->
  read_option opens p tmp = PNext p' -> same p p'.
Proof.
  intros E0 X. destruct p as [st asc col so com df cmd inp ind txt wr]. unfold read_option. cbn [existsb map] in X. rewrite E0.
  destruct (beqb tmp (str "-W")); [intros Q; injection Q as <-; repeat split|]. destruct (beqb tmp (str "--ascii")); [intros Q; injection Q as <-; repeat split|].
  destruct (beqb tmp (str "--color")); [intros Q; injection Q as <-; repeat split|]. destruct (beqb tmp (str "--diff")); [intros Q; injection Q as <-; repeat split|].
  destruct (beqb tmp (str "--compress")); [intros Q; injection Q as <-; repeat split|].
  destruct (beqb tmp (str "--help")); [intros Q; discriminate Q|]. destruct (beqb tmp (str "-h")); [intros Q; discriminate Q|].
  destruct (beqb tmp (str "--version")); [intros Q; discriminate Q|]. destruct (beqb tmp (str "-v")); [intros Q; discriminate Q|].
  destruct (beqb tmp (str "--keep-order")); [intros Q; injection Q as <-; repeat split|]. discriminate X.
Qed.
(** The arguments that are none of these. *)
Lemma others opens st asc col so com df cmd inp ind txt wr tmp : beqb tmp (str "--") = false ->
  existsb (beqb tmp) (map str ["-W"; "--ascii"; "--color"; "--diff"; "--compress"; "--help"; "-h"; "--version"; "-v"; "--keep-order"]%string) = false ->
  read_option opens (mkParams st asc col so com df cmd inp ind txt wr) tmp =
    if beqb tmp (str "--diff-cmd") then
      match cmd with
      | Some _ => PError EDoubleCmd
      | None => PNext (mkParams st asc col so com df (Some DiffCmd_new) inp true txt wr)
      end
    else if starts (str "--color=") tmp then
      let mode := skipn 8 tmp in
      if beqb mode (str "always") then PNext (mkParams st asc true so com df cmd inp ind txt wr)
      else if beqb mode (str "never") then PNext (mkParams st asc false so com df cmd inp ind txt wr)
      else PError (EColor mode)
    else if starts (str "-") tmp then PError (EInvalid tmp)
    else if negb (opens tmp) then PError (ECannotOpen tmp)
    else if contains beqb inp tmp then PError (ESameFile tmp)
    else PNext (mkParams st asc col so com df cmd (set beqb SNull inp tmp (SFile tmp)) ind txt wr).
Proof.
  intros E0 X. cbn [existsb map] in X. repeat (apply orb_false_iff in X; destruct X as [? X]). unfold read_option. rewrite E0.
  repeat match goal with H : beqb tmp _ = false |- _ => rewrite H; clear H end. reflexivity.
Qed.

(** A value that keeps what matters keeps the invariant. *)
Lemma minv_same p p' m seen ks lost a : minv p m seen ks lost -> same p p' -> minv p' m (seen ++ [a]) ks lost.
Proof.
  intros [A1 A2 A3 A4 A5 A6 A7 A8] (S1 & S2 & S3 & S4). constructor; rewrite ?S1, ?S2, ?S3, ?S4; auto.
  - intros T. destruct (A6 T) as [I L]. split; [|exact L]. intros x X. apply in_or_app. left. auto.
  - intros T. apply in_or_app. left. auto.
Qed.

Lemma perm_lost {A} (s s1 x : A) l1 l2 l3 : Permutation (s :: l1 ++ s1 :: l2 ++ l3 ++ [x]) (l1 ++ s :: l2 ++ l3 ++ [x; s1]).
Proof.
  etransitivity; [apply Permutation_middle|]. apply Permutation_app_head. apply perm_skip. rewrite !app_assoc.
  change [x; s1] with ([x] ++ [s1]). rewrite !app_assoc. apply Permutation_cons_append.
Qed.

Lemma arg_ok opens p m a seen ks lost self h0 h D : minv p m seen ks lost -> owns (pown self ks (cmdblk (m_cmd m)) lost) h0 h ->
  wp (arg_mem opens p m a) h (fun m' h' => exists ks' lost', m_inputs m' = links ks' /\ owns (pown self ks' (cmdblk (m_cmd m')) lost') h0 h' /\
    (length lost' <= 1)%nat /\ (lost' <> [] -> In (str "ARGS") (seen ++ [a])) /\ forall p', read_arg opens p a = PNext p' -> minv p' m' (seen ++ [a]) ks' lost') D.
Proof.
  intros V O.
  assert (KEEP : (forall p', read_arg opens p a = PNext p' -> minv p' m (seen ++ [a]) ks lost) -> forall h', owns (pown self ks (cmdblk (m_cmd m)) lost) h0 h' ->
    exists ks' lost', m_inputs m = links ks' /\ owns (pown self ks' (cmdblk (m_cmd m)) lost') h0 h' /\
    (length lost' <= 1)%nat /\ (lost' <> [] -> In (str "ARGS") (seen ++ [a])) /\ forall p', read_arg opens p a = PNext p' -> minv p' m (seen ++ [a]) ks' lost').
  { intros K h' O'. exists ks, lost. split; [apply V|]. split; [exact O'|]. split; [apply V|]. split; [|exact K]. intros L. apply in_or_app. left. now apply (v_args _ _ _ _ _ V). }
  unfold arg_mem, read_arg in *.
  destruct (p_inDiff p) eqn:ID.
  - (* inside of --diff-cmd *)
    assert (W : wp (if beqb a (str ";") then mret m else use (m_cmd m) >>> mret m) h (fun m' h' => m' = m /\ h' = h) D).
    { destruct (beqb a (str ";")); [apply wp_ret; auto|]. pose proof (v_indiff _ _ _ _ _ V ID) as N. destruct (m_cmd m) as [d|] eqn:MC; [|congruence].
      eapply wp_step; [eapply use_ok; [exact O|]|apply wp_ret; auto]. apply in_or_app. right. left. reflexivity. }
    assert (K : forall p', (let '(mkParams st asc col so com df cmd inp ind txt wr) := p in
        if beqb a (str ";") then PNext (mkParams st asc col so com df cmd inp false txt wr)
        else PNext (mkParams st asc col so com df (option_map (fun d => DiffCmd_add d a) cmd) inp ind txt wr)) = PNext p' -> minv p' m (seen ++ [a]) ks lost).
    { intros p' Q. pose proof (minv_same p p m seen ks lost a V ltac:(repeat split)) as [A1 A2 A3 A4 A5 A6 A7 A8]. destruct p as [st asc col so com df cmd inp ind txt wr]. cbn [p_inputs p_cmd p_inDiff p_text m_inputs m_cmd m_text] in *.
      destruct (beqb a (str ";")); injection Q as <-; constructor; cbn [p_inputs p_cmd p_inDiff p_text m_inputs m_cmd m_text]; auto; try discriminate.
      destruct cmd; cbn; auto. split; [discriminate|]. intros N. apply A3 in N. discriminate. }
    destruct (p_text p); (eapply wp_mono; [exact W| |auto]); cbn beta; intros ? ? [-> ->]; apply KEEP; auto.
  - destruct (p_text p) as [t|] eqn:PT.
    + (* after "--" *)
      destruct (v_text _ _ _ _ _ V) as (s & MT & IN); [congruence|]. rewrite MT. eapply wp_step; [eapply use_ok; [exact O|now apply in_pown]|]. apply wp_ret. apply KEEP; [|exact O].
      intros p' Q. pose proof (minv_same p p m seen ks lost a V ltac:(repeat split)) as [A1 A2 A3 A4 A5 A6 A7 A8]. destruct p as [st asc col so com df cmd inp ind txt wr]. cbn [p_inputs p_cmd p_inDiff p_text m_inputs m_cmd m_text] in *.
      injection Q as <-. constructor; cbn [p_inputs p_cmd p_inDiff p_text m_inputs m_cmd m_text]; auto; try discriminate. intros _. exists s. auto.
    + (* an option *)
      destruct (v_seen _ _ _ _ _ V PT) as [SEEN LOST].
      destruct (beqb a (str "--")) eqn:E0.
      { apply wp_bind. eapply new_ok; [exact O|]. intros s h1 O1. apply wp_ret. cbn [m_inputs m_cmd]. rewrite (v_in _ _ _ _ _ V).
        assert (R : forall p', read_option opens p a = PNext p' -> p_inputs p' = set beqb SNull (p_inputs p) (str "ARGS") SArgs /\ p_cmd p' = p_cmd p /\ p_inDiff p' = p_inDiff p /\ p_text p' = Some []).
        { intros p' Q. destruct p. unfold read_option in Q. rewrite E0 in Q. injection Q as <-. cbn. auto. }
        assert (CP : contains beqb (p_inputs p) (str "ARGS") = contains beqb (links ks) (str "ARGS")) by (rewrite !contains_names, links_names, (v_names _ _ _ _ _ V); reflexivity).
        destruct (contains beqb (links ks) (str "ARGS")) eqn:C.
        - destruct (set_links_old ks (str "ARGS") s C) as (k1 & s1 & k2 & KS & ->). exists (k1 ++ (str "ARGS", s) :: k2), [s1].
          assert (IA : In (str "ARGS") seen). { apply SEEN. rewrite KS, map_app. apply in_or_app. right. left. reflexivity. }
          split; [reflexivity|]. split. { eapply owns_perm; [|exact O1]. rewrite LOST, KS. unfold pown, objs. rewrite !map_app. cbn [map snd fst]. rewrite <- !app_assoc. cbn [app].
            apply perm_lost. }
          split; [cbn; lia|]. split; [intros _; apply in_or_app; auto|]. intros p' Q. destruct (R p' Q) as (R1 & R2 & R3 & R4).
          constructor; cbn [m_inputs m_cmd m_text]; rewrite ?R1, ?R2, ?R3, ?R4; auto; try discriminate.
          + rewrite set_names, CP, <- (v_names _ _ _ _ _ V), KS, !map_app. reflexivity.
          + apply V.
          + apply V.
          + intros _. exists s. split; [reflexivity|]. rewrite map_app. apply in_or_app. right. left. reflexivity.
          + intros _. apply in_or_app. auto.
        - rewrite set_links_new by exact C. exists (ks ++ [(str "ARGS", s)]), []. split; [reflexivity|]. split.
          { eapply owns_perm; [|exact O1]. rewrite LOST. unfold pown, objs. rewrite !map_app. cbn [map snd fst]. rewrite <- !app_assoc. cbn [app]. apply Permutation_middle. }
          split; [cbn; lia|]. split; [congruence|]. intros p' Q. destruct (R p' Q) as (R1 & R2 & R3 & R4).
          constructor; cbn [m_inputs m_cmd m_text]; rewrite ?R1, ?R2, ?R3, ?R4; auto; try discriminate; try congruence.
          + rewrite set_names, CP, <- (v_names _ _ _ _ _ V), !map_app. reflexivity.
          + apply V.
          + intros _. exists s. split; [reflexivity|]. rewrite map_app. apply in_or_app. right. left. reflexivity. }
      destruct (existsb (beqb a) (map str _)) eqn:EX.
      { apply wp_ret. apply KEEP; [|exact O]. intros p' Q. eapply minv_same; [exact V|]. eapply flags_same; eauto. }
      destruct p as [st asc col so com df cmd inp ind txt wr]. cbn in ID, PT. subst ind txt.
      assert (OT := others opens st asc col so com df cmd inp false None wr a E0 EX).
      destruct (beqb a (str "--diff-cmd")) eqn:ED.
      { destruct (m_cmd m) as [d|] eqn:MC.
        - apply wp_ret. rewrite MC in *. apply KEEP; [|exact O]. intros p' Q. rewrite OT in Q. destruct cmd; [discriminate|]. exfalso. destruct (v_cmd _ _ _ _ _ V) as [F _]. cbn in F. specialize (F eq_refl). congruence.
        - assert (CN : cmd = None) by (apply (v_cmd _ _ _ _ _ V); exact MC). subst cmd.
          apply wp_bind. unfold new_ptrs. eapply new_ok; [exact O|]. intros d h1 O1. apply wp_ret. exists ks, lost. cbn [m_inputs m_cmd]. split; [apply V|]. split.
          { eapply owns_perm; [|exact O1]. unfold pown. cbn [cmdblk app Z.to_nat Pos.to_nat Pos.iter_op Nat.add repeat]. apply Permutation_middle. }
          split; [apply V|]. split. { intros L. apply in_or_app. left. now apply (v_args _ _ _ _ _ V). }
          intros p' Q. rewrite OT in Q. injection Q as <-. pose proof (minv_same _ _ m seen ks lost a V ltac:(repeat split)) as [A1 A2 A3 A4 A5 A6 A7 A8]. cbn [p_inputs p_cmd p_inDiff p_text m_inputs m_cmd m_text] in *.
          constructor; cbn [p_inputs p_cmd p_inDiff p_text m_inputs m_cmd m_text]; auto; try discriminate. split; discriminate. }
      destruct (starts (str "-") a) eqn:SD.
      { apply wp_ret. apply KEEP; [|exact O]. intros p' Q. rewrite OT in Q. eapply minv_same; [exact V|]. 
        destruct (starts (str "--color=") a); [|discriminate]. cbn zeta in Q. destruct (beqb (skipn 8 a) (str "always")); [injection Q as <-; repeat split|]. destruct (beqb (skipn 8 a) (str "never")); [injection Q as <-; repeat split|discriminate]. }
      rewrite (color_dash _ SD) in OT. 
      apply wp_bind. eapply new_ok; [exact O|]. intros s h1 O1.
      assert (DEL : (forall p', read_option opens (mkParams st asc col so com df cmd inp false None wr) a = PNext p' -> False) ->
         wp (delete_object (Some s) >>> mret m) h1 (fun m' h' => exists ks' lost', m_inputs m' = links ks' /\ owns (pown self ks' (cmdblk (m_cmd m')) lost') h0 h' /\
         (length lost' <= 1)%nat /\ (lost' <> [] -> In (str "ARGS") (seen ++ [a])) /\ forall p', read_option opens (mkParams st asc col so com df cmd inp false None wr) a = PNext p' -> minv p' m' (seen ++ [a]) ks' lost') D).
      { intros F. cbn [delete_object]. destruct (delete_array_ok _ _ _ _ _ O1 I) as (h2 & E & O2). eapply wp_step; [exact E|]. apply wp_ret. apply KEEP; [|exact O2]. intros p' Q. destruct (F p' Q). }
      destruct (opens a) eqn:OP; cbn [negb] in *; [|apply DEL; intros p' Q; congruence].
      assert (CC : contains beqb (m_inputs m) a = contains beqb inp a). { rewrite !contains_names, (v_in _ _ _ _ _ V), links_names, (v_names _ _ _ _ _ V). reflexivity. }
      rewrite CC. destruct (contains beqb inp a) eqn:CI; [apply DEL; intros p' Q; congruence|].
      apply wp_ret. cbn [m_inputs m_cmd]. rewrite (v_in _ _ _ _ _ V) in *. rewrite set_links_new by congruence. exists (ks ++ [(a, s)]), lost. split; [reflexivity|]. split.
      { eapply owns_perm; [|exact O1]. unfold pown, objs. rewrite !map_app. cbn [map snd fst]. rewrite <- !app_assoc. cbn [app]. apply Permutation_middle. }
      split; [apply V|]. split. { intros L. apply in_or_app. left. now apply (v_args _ _ _ _ _ V). }
      intros p' Q. rewrite OT in Q. injection Q as <-. pose proof (minv_same _ _ m seen ks lost a V ltac:(repeat split)) as [A1 A2 A3 A4 A5 A6 A7 A8]. cbn [p_inputs p_cmd p_inDiff p_text m_inputs m_cmd m_text] in *.
      constructor; cbn [p_inputs p_cmd p_inDiff p_text m_inputs m_cmd m_text]; auto; try congruence.
      * rewrite set_names, CI, map_app, A2. reflexivity.
      * intros _. split; [|exact LOST]. rewrite map_app. intros x X. apply in_app_or in X. apply in_or_app. destruct X as [X|[<-|[]]]; [left; auto|right; left; reflexivity].
Qed.

Lemma args_ok opens args : forall p m seen ks lost self h0 h D, minv p m seen ks lost -> owns (pown self ks (cmdblk (m_cmd m)) lost) h0 h ->
  wp (args_mem opens p m args) h (fun rm h' => exists ks' lost', m_inputs (snd rm) = links ks' /\ owns (pown self ks' (cmdblk (m_cmd (snd rm))) lost') h0 h' /\
    (length lost' <= 1)%nat /\ (lost' <> [] -> In (str "ARGS") (seen ++ args)) /\
    forall p', read_args opens p args = PNext p' -> (p_cmd p' = None <-> m_cmd (snd rm) = None)) D.
Proof.
  induction args as [|a args IH]; intros p m seen ks lost self h0 h D V O; cbn [args_mem read_args].
  - apply wp_ret. exists ks, lost. cbn [snd]. rewrite app_nil_r. split; [apply V|]. split; [exact O|]. split; [apply V|]. split; [apply V|].
    intros p' Q. injection Q as <-. apply V.
  - apply wp_bind. eapply wp_mono; [apply (arg_ok opens p m a seen ks lost self h0 h D V O)| |auto].
    cbn beta. intros m' h1 (ks1 & lost1 & A1 & O1 & A2 & A3 & A4).
    assert (STOP : forall r, (forall p', r <> PNext p') -> wp (mret (r, m')) h1 (fun rm h' => exists ks' lost', m_inputs (snd rm) = links ks' /\ owns (pown self ks' (cmdblk (m_cmd (snd rm))) lost') h0 h' /\
      (length lost' <= 1)%nat /\ (lost' <> [] -> In (str "ARGS") (seen ++ a :: args)) /\
      forall p', r = PNext p' -> (p_cmd p' = None <-> m_cmd (snd rm) = None)) D).
    { intros r N. apply wp_ret. exists ks1, lost1. cbn [snd]. split; [exact A1|]. split; [exact O1|]. split; [exact A2|]. split.
      - intros L. specialize (A3 L). apply in_app_or in A3. apply in_or_app. destruct A3 as [X|[X|[]]]; [left|right; left]; exact X.
      - intros p' Q. destruct (N p' Q). }
    destruct (read_arg opens p a) as [p1|st|e]; [|apply STOP; discriminate|apply STOP; discriminate].
    specialize (IH p1 m' (seen ++ [a]) ks1 lost1 self h0 h1 D (A4 p1 eq_refl) O1). rewrite <- app_assoc in IH. exact IH.
Qed.

(** main. *)
Lemma main_ok opens args n files h0 D : wf h0 ->
  (forall p d fs r, Params_read opens args = PNext p -> p_cmd p = Some d -> files = Some fs -> subst_args fs (dc_argv d) r -> Z.of_nat (length r) + 1 < UINT) ->
  wp (main_mem opens args n files) h0 (fun _ h' => exists lost, (length lost <= 1)%nat /\ (lost <> [] -> In (str "ARGS") args) /\ owns (objs lost) h0 h') D.
Proof.
  intros W SZ. unfold main_mem. apply wp_bind. eapply new_ok; [apply (owns_nil h0 W)|]. intros self h1 O1.
  apply wp_bind. eapply wp_mono; [apply (args_ok opens args params0 (mkPmem [] None None) [] [] [] self h0 h1 D)| |auto].
  { constructor; cbn; auto; try congruence; try tauto. intros _. split; [apply incl_refl|reflexivity]. }
  { exact O1. }
  cbn beta. intros rm h2 (ks & lost & MI & O2 & L1 & LA & PC). cbn [app] in LA.
  assert (END : forall C h3, match m_cmd (snd rm) with Some d => cmdown d C | None => C = [] end -> owns (pown self ks C lost) h0 h3 ->
    wp (delete_params self (snd rm)) h3 (fun _ h' => exists lost, (length lost <= 1)%nat /\ (lost <> [] -> In (str "ARGS") args) /\ owns (objs lost) h0 h') D).
  { intros C h3 HC O3. eapply wp_mono; [apply (delete_params_ok self ks _ C lost h0 h3 D (snd rm) MI eq_refl HC O3)| |auto].
    cbn beta. intros _ h4 O4. exists lost. auto. }
  assert (PLAIN : match m_cmd (snd rm) with Some d => cmdown d (cmdblk (m_cmd (snd rm))) | None => cmdblk (m_cmd (snd rm)) = [] end).
  { destruct (m_cmd (snd rm)); cbn; [constructor|reflexivity]. }
  apply wp_bind. destruct (Params_read opens args) as [p|st|e] eqn:PR; [|apply wp_ret; eapply END; eauto|apply wp_ret; eapply END; eauto].
  rewrite MI. eapply wp_step. { eapply each_use_ok; [exact O2|]. intros s S. now apply in_pown. }
  destruct (p_cmd p) as [d|] eqn:PD; [|apply wp_ret; eapply END; eauto]. destruct files as [fs|]; [|apply wp_ret; eapply END; eauto].
  assert (RA : read_args opens params0 args = PNext p).
  { unfold Params_read in PR. destruct (read_args opens params0 args) as [q| |]; try discriminate. destruct (p_diff q); [|congruence].
    destruct (3 <? length (p_inputs q))%nat; [discriminate|]. destruct (length (p_inputs q) <? 2)%nat; [discriminate|congruence]. }
  destruct (PC p RA) as [_ N]. destruct (m_cmd (snd rm)) as [c|] eqn:MC; [|specialize (N eq_refl); congruence]. cbn [deref]. eapply wp_step; [reflexivity|]. cbn beta.
  destruct (subst_total fs (dc_argv d)) as (r & SA). specialize (SZ p d fs r eq_refl PD eq_refl SA).
  apply wp_bind. apply (owns_perm _ ((c, BPtrs [Some None]) :: objs (map snd ks) ++ (self, BInts []) :: objs lost)) in O2.
  2:{ unfold pown. cbn [cmdblk app]. symmetry. apply Permutation_middle. }
  eapply wp_mono; [apply (compute_ok c (dc_argv d) fs r _ h0 h2 D SA SZ O2)| |auto]. cbn beta. intros av h3 (S & M & O3). apply wp_ret.
  apply (END ((av, BPtrs (cellsof S ++ [Some None])) :: strs S ++ [(c, BPtrs [Some (Some av)])])); [constructor|].
  eapply owns_perm; [|exact O3]. unfold pown. cbn [app]. rewrite <- app_assoc. cbn [app].
  etransitivity; [|apply Permutation_middle]. apply perm_skip.
  pose proof (Permutation_app_swap_app (strs S ++ [(c, BPtrs [Some (Some av)])]) (objs (map snd ks)) ((self, BInts []) :: objs lost)) as P.
  rewrite <- !app_assoc in P. exact P.
Qed.

(** The memory after computeArgv, from outside. *)
Lemma owns_blk own h0 h q b : owns own h0 h -> In (q, b) own -> blk h q = Some b.
Proof. intros O I. apply (o_in _ _ _ O q b I). Qed.
Lemma subst_clean files argv r : subst_args files argv r -> no_nul files -> no_nul argv -> no_nul r.
Proof.
  unfold no_nul. induction 1 as [|a r H IH|x a r N H IH]; intros CF CA; [constructor|inversion CA; subst; apply Forall_app; auto|inversion CA; subst; constructor; auto].
Qed.
Lemma run_ok h argv files r : wf h -> no_nul files -> no_nul argv -> subst_args files argv r -> Z.of_nat (length r) + 1 < UINT ->
  exists av h', mbind (new_ptrs 1 (Some None)) (fun d => computeArgv_mem d argv files) h = Done av h' /\ arguments_at h' av r.
Proof.
  intros W NF NA SA LU. assert (NR := subst_clean _ _ _ SA NF NA).
  assert (X : wp (mbind (new_ptrs 1 (Some None)) (fun d => computeArgv_mem d argv files)) h (fun av h' => arguments_at h' av r) (fun _ => False)).
  { apply wp_bind. unfold new_ptrs. eapply new_ok; [apply (owns_nil h W)|]. intros p h1 O1.
    eapply wp_mono; [apply (compute_ok p argv files r [] h h1 (fun _ => False) SA LU O1)| |auto]. cbn beta. intros av h2 (S & M & O2).
    exists (map fst S). split. { rewrite map_map. eapply owns_blk; [exact O2|left; reflexivity]. }
    assert (A : forall q s, In (q, s) S -> blk h2 q = Some (strblk s)).
    { intros q s Q. eapply owns_blk; [exact O2|]. right. apply in_or_app. left. unfold strs. apply (in_map (fun x => (fst x, strblk (snd x)))) in Q. exact Q. }
    clear O2. revert r M NR SA LU. induction S as [|[q s] S IH]; intros r <- NR SA LU; cbn [map fst snd] in *; constructor.
    - rewrite (A q s (or_introl eq_refl)). unfold strblk. inversion NR; subst. rewrite cstr_clean by assumption. reflexivity.
    - assert (F : Forall2 (fun q s => blk h2 q = Some (BInts (map (fun c => Some (uchar c)) s ++ [Some 0]))) (map fst S) (map snd S)); [|exact F].
      clear IH SA LU. inversion NR as [|? ? _ NS]; subst. clear NR. assert (A' : forall q s, In (q, s) S -> blk h2 q = Some (strblk s)) by (intros; apply A; right; assumption). clear A.
      induction S as [|[q' s'] S IH]; cbn [map fst snd]; constructor.
      + rewrite (A' q' s' (or_introl eq_refl)). unfold strblk. inversion NS; subst. rewrite cstr_clean by assumption. reflexivity.
      + apply IH; [inversion NS; assumption|]. intros; apply A'; right; assumption. }
  unfold wp in X. destruct (mbind _ _ h) as [av h'|f|c]; [|destruct X|destruct X]. exists av, h'. auto.
Qed.

Lemma main_safe opens args n files h : wf h ->
  (forall p d fs r, Params_read opens args = PNext p -> p_cmd p = Some d -> files = Some fs -> subst_args fs (dc_argv d) r -> Z.of_nat (length r) + 1 < 2 ^ 32) ->
  exists h' q, main_mem opens args n files h = Done tt h' /\ (forall x, x <> q -> blk h' x = blk h x) /\
    (~ In (str "ARGS") args -> blk h' q = blk h q).
Proof.
  intros W SZ. pose proof (main_ok opens args n files h (fun _ => False) W SZ) as X. unfold wp in X.
  destruct (main_mem opens args n files h) as [[] h'|f|c]; [|destruct X|destruct X]. destruct X as (lost & L & LA & O).
  destruct lost as [|q [|q2 lost]]; [|exists h', q|cbn in L; lia].
  - exists h', 0. split; [reflexivity|]. split; intros; apply (o_out _ _ _ O); intros [].
  - split; [reflexivity|]. split; [|intros N; destruct (N (LA ltac:(discriminate)))]. intros x X. apply (o_out _ _ _ O). intros [E|[]]. cbn in E. congruence.
Qed.

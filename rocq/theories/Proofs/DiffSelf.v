(** A document compared with a copy of itself. *)
From Verif Require Import Proofs.LevProofs Proofs.LevScore.
From Verif Require Export Proofs.DiffMarks.
From Coq Require Import Lia.
Open Scope Z_scope.

(** * Copies *)
Definition ecopy (x y : elem) : Prop :=
  match x, y with
  | ENode n, ENode n' => erase n = erase n'
  | EEntry _ k v, EEntry _ k' v' => k = k' /\ erase v = erase v'
  | _, _ => False
  end.

Lemma map_Forall2 {A B C} (f : A -> C) (g : B -> C) : forall l l', map f l = map g l' -> Forall2 (fun x y => f x = g y) l l'.
Proof. induction l as [|x l IH]; intros [|y l'] E; try discriminate; constructor; [cbn in E; congruence|]. apply IH. cbn in E. congruence. Qed.
Lemma Forall2_map2 {A B C D} (P : C -> D -> Prop) (f : A -> C) (g : B -> D) l l' : Forall2 (fun x y => P (f x) (g y)) l l' -> Forall2 P (map f l) (map g l').
Proof. induction 1; constructor; auto. Qed.

Lemma Forall2_imp {A B} (P Q : A -> B -> Prop) l l' : (forall x y, P x y -> Q x y) -> Forall2 P l l' -> Forall2 Q l l'.
Proof. intros H. induction 1; constructor; auto. Qed.

Lemma Forall2_len {A B} (P : A -> B -> Prop) l l' : Forall2 P l l' -> length l = length l'.
Proof. induction 1; cbn; congruence. Qed.

Lemma copy_children a b : erase a = erase b -> is_container a = is_container b /\ Forall2 ecopy (children a) (children b).
Proof.
  destruct a as [ma pa|ma la|ma la]; destruct b as [mb pb|mb lb|mb lb]; cbn [erase]; try discriminate; intros E; (split; [reflexivity|]).
  - constructor.
  - injection E as E. apply map_Forall2 in E. cbn [children]. apply Forall2_map2. exact E.
  - injection E as E. apply map_Forall2 in E. cbn [children]. apply Forall2_map2. eapply Forall2_imp; [|exact E]. intros x y Q. cbn in *. split; congruence.
Qed.

Lemma ecopy_sub x y : ecopy x y -> erase (sub_nodes x) = erase (sub_nodes y).
Proof. destruct x; destruct y; cbn; tauto. Qed.

Lemma copy_length : forall a b, erase a = erase b -> length (ids a) = length (ids b).
Proof.
  induction a as [a IH] using node_children_ind. intros b E. destruct (copy_children a b E) as [_ F]. rewrite !ids_children. cbn [length]. f_equal.
  assert (K : forall x y, In x (children a) -> ecopy x y -> length (eids x) = length (eids y)).
  { intros x y I C. pose proof (IH x I (sub_nodes y) (ecopy_sub x y C)) as Q. destruct x; destruct y; cbn [ecopy] in C; try contradiction.
    - rewrite !eids_node. exact Q.
    - rewrite !eids_entry. cbn [length]. f_equal. exact Q. }
  clear IH E. induction F as [|x y l l' C F IHF]; [reflexivity|]. cbn [flat_map]. rewrite !app_length. f_equal.
  - apply K; [left; reflexivity|exact C].
  - apply IHF. intros z w I. apply K. right. exact I.
Qed.
Lemma ecopy_length x y : ecopy x y -> length (eids x) = length (eids y).
Proof.
  intros C. pose proof (copy_length _ _ (ecopy_sub x y C)) as Q. destruct x; destruct y; cbn [ecopy] in C; try contradiction.
  - rewrite !eids_node. exact Q.
  - rewrite !eids_entry. cbn [length]. f_equal. exact Q.
Qed.

Lemma combine_app {A B} (l1 l2 : list A) (m1 m2 : list B) : length l1 = length m1 -> combine (l1 ++ l2) (m1 ++ m2) = combine l1 m1 ++ combine l2 m2.
Proof. revert m1. induction l1 as [|x l1 IH]; intros [|y m1] L; try discriminate; [reflexivity|]. cbn [app combine]. f_equal. apply IH. cbn in L. lia. Qed.

(** * The way back keeps to the diagonal *)
Inductive droute (R : elem -> elem -> mat -> Prop) : list elem -> list elem -> list step -> Prop :=
| D_nil : droute R [] [] []
| D_M la lb x y s st : droute R la lb st -> R x y s -> droute R (la ++ [x]) (lb ++ [y]) (StM x y OEqu s :: st).
Lemma droute_route R la lb st : droute R la lb st -> route R la lb st.
Proof. induction 1; constructor; auto. Qed.

Section Diagonal.
  Variable subs : list (list mat).
  Variable la lb : list elem.
  Let n := length la.
  Hypothesis Le : length lb = n.
  Let W := width (Z.of_nat n) (Z.of_nat n).
  Let t := dp_table W n subs.
  Hypothesis Ln : length subs = n.
  Hypothesis Lm : Forall (fun r => length r = n) subs.
  Hypothesis HS : Z.of_nat n + Z.of_nat n < 2 ^ 32.
  Variable R : elem -> elem -> mat -> Prop.
  Hypothesis HR : forall i x y s, nth_error la i = Some x -> nth_error lb i = Some y -> sub_at subs i i = Some s -> R x y s /\ msimilar s = true.
  Let dflt := ENode (NPrim (mkMeta 0 None) PNull).

  Lemma diag_sim i s : (i < n)%nat -> sub_at subs i i = Some s -> R (nth i la dflt) (nth i lb dflt) s /\ msimilar s = true.
  Proof. intros L E. apply (HR i); [apply nth_error_nth'; exact L|apply nth_error_nth'; lia|exact E]. Qed.

  Lemma diag_zero : forall i, (i <= n)%nat -> cv W subs n i i = 0.
  Proof.
    induction i as [|i IH]; intros L.
    - rewrite (cv_row0 W subs n n Ln) by lia. apply Z.mod_0_l. pose proof (W_pos W subs n n Ln eq_refl). lia.
    - destruct (cell_cases W subs n n Ln Lm eq_refl HS i i ltac:(lia) ltac:(lia)) as (s & ES & C).
      destruct (diag_sim i s ltac:(lia) ES) as [_ SM].
      assert (C0 : cost W s (cv W subs n i i) = 0) by (unfold cost; rewrite SM, IH by lia; apply Z.mod_0_l; pose proof (W_pos W subs n n Ln eq_refl); lia).
      rewrite C0 in C. pose proof (cv_bound W subs n n Ln Lm eq_refl HS i (S i) ltac:(lia) ltac:(lia)). pose proof (cv_bound W subs n n Ln Lm eq_refl HS (S i) i ltac:(lia) ltac:(lia)).
      destruct C as [(C & _)|(_ & [C|C])]; [|lia|lia]. unfold cv. rewrite C. reflexivity.
  Qed.

  Lemma walk_diag : forall i fuel ops eqs, (i <= n)%nat -> (i + i <= fuel)%nat ->
    exists st, droute R (firstn i la) (firstn i lb) st /\ walk t la lb fuel i i ops eqs = inl (fold_left run_step st (ops, eqs)).
  Proof.
    induction i as [|i IH]; intros fuel ops eqs L LF.
    - exists []. split; [constructor|]. destruct fuel; reflexivity.
    - destruct fuel as [|fuel]; [lia|]. cbn [walk]. fold dflt.
      pose proof (diag_zero (S i) L) as Z0. pose proof (diag_zero i ltac:(lia)) as Z1.
      pose proof (cv_bound W subs n n Ln Lm eq_refl HS i (S i) ltac:(lia) ltac:(lia)) as B1. pose proof (cv_bound W subs n n Ln Lm eq_refl HS (S i) i ltac:(lia) ltac:(lia)) as B2.
      destruct (cell_cases W subs n n Ln Lm eq_refl HS i i ltac:(lia) ltac:(lia)) as (s & ES & C).
      destruct (diag_sim i s ltac:(lia) ES) as [RS SM].
      unfold cv in *. fold t in Z0, Z1, B1, B2, C. rewrite Z0, Z1.
      destruct (Z.ltb_spec (fst (cell_at t i (S i))) 0); [lia|]. destruct (Z.ltb_spec (fst (cell_at t (S i) i)) 0); [lia|].
      destruct C as [(C & _)|(C & _)]; [|rewrite C in Z0; cbn [fst] in Z0; lia].
      rewrite C. cbn [snd Z.eqb].
      match goal with |- context [walk t la lb fuel i i ?A ?B] =>
        destruct (IH fuel A B ltac:(lia) ltac:(lia)) as (st & RT & E) end.
      exists (StM (nth i la dflt) (nth i lb dflt) OEqu s :: st). split; [|exact E].
      rewrite (firstn_snoc dflt la i), (firstn_snoc dflt lb i) by (fold n; lia). apply D_M; [exact RT|exact RS].
  Qed.
End Diagonal.

(** * Marks and pairs *)
Definition all_equ (l : list (Z * op)) : Prop := forall u o, In (u, o) l -> o = OEqu.
Definition SelfN (a b : node) (m : mat) : Prop :=
  msimilar m = true /\ all_equ (mops m) /\ incl (ids a ++ ids b) (keys (mops m)) /\ incl (combine (ids a) (ids b)) (meqv m).
Definition SelfE (x y : elem) (m : mat) : Prop :=
  msimilar m = true /\ all_equ (mops m) /\ incl (tl (eids x) ++ tl (eids y)) (keys (mops m)) /\ incl (combine (tl (eids x)) (tl (eids y))) (meqv m).

Lemma mset_equ k l : all_equ l -> all_equ (mset k OEqu l).
Proof. intros H u o I. apply mset_In in I. destruct I as [[_ ->]|[_ I]]; [reflexivity|eauto]. Qed.
Lemma msets_equ l0 : forall l, all_equ l0 -> all_equ l -> all_equ (msets l0 l).
Proof. intros l H0 H u o I. apply msets_In_back in I. destruct I as [I|[_ I]]; eauto. Qed.
Lemma keys_msets {B} (l0 : list (Z * B)) : forall l u, In u (keys (msets l0 l)) <-> In u (keys l0) \/ In u (keys l).
Proof.
  induction l0 as [|[k w] l0 IH]; intros l u; [cbn; tauto|]. change (msets ((k, w) :: l0) l) with (msets l0 (mset k w l)). rewrite IH, keys_mset.
  cbn [keys map fst In]. fold (keys l0). intuition.
Qed.

Lemma drun_ops la lb st : droute SelfE la lb st -> forall ops eqs, all_equ ops ->
  let ops' := fst (fold_left run_step st (ops, eqs)) in
  all_equ ops' /\ incl (keys ops) (keys ops') /\ incl (flat_map eids la ++ flat_map eids lb) (keys ops').
Proof.
  induction 1 as [|la lb x y s st RT IH HR]; intros ops eqs AE.
  - cbn. split; [exact AE|]. split; [apply incl_refl|intros u []].
  - cbn [fold_left run_step]. fold (msets (mops s) (mset (eid x) OEqu (mset (eid y) OEqu ops))).
    destruct HR as (_ & HE & HK & _).
    match goal with |- context [fold_left run_step st (?A, ?B)] => destruct (IH A B) as (K1 & K2 & K3) end.
    + apply msets_equ; [exact HE|]. apply mset_equ, mset_equ, AE.
    + split; [exact K1|]. split.
      * intros u I. apply K2. rewrite keys_msets, !keys_mset. auto.
      * rewrite !flat_map_snoc, (eids_head x), (eids_head y). intros u I.
        assert (Q : In u (flat_map eids la ++ flat_map eids lb) \/ u = eid x \/ u = eid y \/ In u (tl (eids x) ++ tl (eids y))).
        { rewrite !in_app_iff in *. cbn [In] in I. intuition. }
        destruct Q as [Q|[->|[->|Q]]]; [apply K3, Q| | |]; apply K2; rewrite keys_msets, !keys_mset; auto.
Qed.

Lemma collected_ids a b la lb st u v : route (R_step a b) la lb st -> incl la (children a) -> incl lb (children b) ->
  collected st u v -> In u (flat_map eids (children a) ++ flat_map eids (children b)).
Proof.
  intros RT _ _ (x & y & o & s & I & H). destruct (route_In _ _ _ _ RT) as (_ & _ & RM). destruct (RM x y o s I) as (((P & I1 & I2) & IV) & _).
  apply in_or_app. destruct H as [[-> _]|H].
  - left. apply in_flat_map. exists x. split; [exact I1|apply eid_in].
  - destruct (Inv_sides x y s u v IV H) as [[Q _]|[Q _]]; [left|right]; apply in_flat_map; eauto.
Qed.

Lemma droute_collected la lb st : droute SelfE la lb st -> Forall2 ecopy la lb ->
  forall u v, In (u, v) (combine (flat_map eids la) (flat_map eids lb)) -> collected st u v.
Proof.
  induction 1 as [|la lb x y s st RT IH HR]; intros F u v I; [destruct I|].
  assert (L : length la = length lb) by (apply Forall2_len in F; rewrite !app_length in F; cbn in F; lia).
  apply Forall2_app_inv_l in F. destruct F as (l1 & l2 & F1 & F2 & E). inversion F2 as [|? y' ? l3 C F3]; subst. inversion F3; subst.
  apply app_inj_tail in E. destruct E as [-> ->].
  rewrite !flat_map_snoc in I. rewrite combine_app in I.
  - apply in_app_or in I. destruct I as [I|I].
    + destruct (IH F1 u v I) as (x0 & y0 & o0 & s0 & J & H). exists x0, y0, o0, s0. split; [right; exact J|exact H].
    + rewrite (eids_head x), (eids_head y') in I. destruct HR as (_ & _ & _ & HC). exists x, y', OEqu, s. split; [left; reflexivity|].
      destruct I as [[= <- <-]|I]; [auto|right; apply HC, I].
  - clear - F1. induction F1 as [|x y l l' C F IH]; [reflexivity|]. cbn [flat_map]. rewrite !app_length, IH, (ecopy_length x y C). reflexivity.
Qed.

Definition full_container (k : nat) : Prop := k <> O /\ Z.of_nat k < 2 ^ 31.

Lemma full_fits n : all_containers full_container n -> fits_memory n.
Proof.
  induction n as [m p|m l IH|m l IH] using node_ind'; intros S; inversion S as [|? ? P F|? ? P F]; subst.
  - constructor.
  - constructor; [apply P|]. rewrite Forall_forall in *. intros x I. apply (IH x I), (F x I).
  - constructor; [apply P|]. rewrite Forall_forall in *. intros x I. apply (IH x I), (F x I).
Qed.

Lemma same_type_refl p : same_type p p = true.
Proof. unfold same_type. apply beqb_eq. reflexivity. Qed.

Lemma fits_copy (P : nat -> Prop) a : forall b, erase a = erase b -> all_containers P a -> all_containers P b.
Proof.
  induction a as [m p|m l IH|m l IH] using node_ind'; intros b E S; inversion S as [|? ? HP F|? ? HP F]; subst; destruct b as [mb pb|mb lb|mb lb]; try discriminate; cbn [erase] in E.
  - constructor.
  - injection E as E. apply map_Forall2 in E. constructor; [rewrite <- (Forall2_len _ _ _ E); exact HP|]. clear S HP.
    induction E as [|x y l l' C E IHE]; [constructor|]. inversion_clear IH. inversion_clear F. constructor; auto.
  - injection E as E. apply map_Forall2 in E. constructor; [rewrite <- (Forall2_len _ _ _ E); exact HP|]. clear S HP.
    induction E as [|x y l l' C E IHE]; [constructor|]. inversion_clear IH as [|? ? H1 H2]. inversion_clear F. constructor; [|auto]. apply H1; [congruence|assumption].
Qed.

Lemma full_sub a b : erase a = erase b -> all_containers full_container a -> all_containers full_container b.
Proof. apply fits_copy. Qed.

Lemma meets_child a b : meets_empty a b -> (exists k, size_of a = Some k /\ k = O) \/ exists x, In x (children a) /\ exists y, meets_empty (sub_nodes x) y.
Proof.
  destruct 1 as [a b A B|ma la mb lb x y I1 I2 M|ma la mb lb ex ey k x y I1 I2 M].
  - left. eauto.
  - right. exists (ENode x). split; [apply in_map_iff; eauto|]. exists y. exact M.
  - right. exists (EEntry ex k x). split; [apply in_map_iff; exists (ex, k, x); auto|]. exists y. exact M.
Qed.

Lemma full_no_meet : forall a b, all_containers full_container a -> meets_empty a b -> False.
Proof.
  induction a as [a IH] using node_children_ind. intros b S M. apply meets_child in M. destruct M as [(k & E & ->)|(x & I & y & M)].
  - inversion S as [|? ? P F|? ? P F]; subst; cbn [size_of] in E; [discriminate| |]; destruct P as [P _]; congruence.
  - exact (IH x I y (fits_child _ _ _ S I) M).
Qed.

Lemma build_self : forall a b m, erase a = erase b -> all_containers full_container a -> NoDup (ids a ++ ids b) -> build a b = inl m -> SelfN a b m.
Proof.
  induction a as [a IH] using node_children_ind. intros b m E FC N H.
  pose proof (full_fits a FC) as FA. pose proof (full_fits b (full_sub a b E FC)) as FB.
  destruct (copy_children a b E) as [CE F]. destruct (is_container a) eqn:CA; symmetry in CE.
  2:{ destruct a as [ma pa| |]; try discriminate. destruct b as [mb pb| |]; try discriminate. cbn [erase] in E. injection E as <-.
      cbn [build] in H. injection H as <-. rewrite score_self, same_type_refl. split; [reflexivity|].
      split; [|split].
      - unfold scored. cbn [mops]. apply mset_equ, mset_equ. intros u o [].
      - intros u I. apply scored_keys. cbn in I. intuition.
      - intros p I. exact I. }
  destruct (build_subs a b m CA CE H) as (subs & (L1 & L2 & HR) & HC).
  pose proof (fits_size a FA) as SA.
  assert (LE : length (children b) = length (children a)) by (symmetry; apply (Forall2_len _ _ _ F)).
  assert (NZ : length (children a) <> O).
  { inversion FC as [|? ? P _|? ? P _]; subst; [discriminate| |]; cbn [children]; rewrite map_length; apply P. }
  pose proof (NoDup_app_l _ _ N) as Na. pose proof (NoDup_app_r _ _ N) as Nb.
  assert (HI : forall i x y s, nth_error (children a) i = Some x -> nth_error (children b) i = Some y -> sub_at subs i i = Some s ->
            (R_step a b x y s /\ SelfE x y s) /\ msimilar s = true).
  { intros i x y s Hx Hy Hs. pose proof (HR i i x y s Hx Hy Hs) as P. pose proof (nth_error_In _ _ Hx) as I1. pose proof (nth_error_In _ _ Hy) as I2.
    assert (C : ecopy x y).
    { clear - F Hx Hy. revert i Hx Hy. induction F as [|p q l l' C F IHF]; intros [|i] Hx Hy; cbn in *; try discriminate; [congruence|eauto]. }
    destruct (NoDup_sub_nodes a b x y N I1 I2) as [NE ND].
    assert (SE : SelfE x y s).
    { pose proof (IH x I1 (sub_nodes y) s (ecopy_sub x y C) (fits_child _ _ _ FC I1) ND) as Q.
      destruct x as [xa|mx kx xv]; destruct y as [yb|my ky yv]; cbn [ecopy] in C; try contradiction; cbn [pair node_with entry_with sub_nodes] in *.
      - destruct (Q P) as (Q1 & Q2 & Q3 & Q4). split; [exact Q1|]. split; [exact Q2|]. rewrite !eids_node, !ids_children in *. cbn [tl combine] in *. split.
        + intros u I. apply Q3. rewrite in_app_iff in *. cbn [In]. tauto.
        + intros p I. apply Q4. right. exact I.
      - destruct C as [-> C]. rewrite (proj2 (beqb_eq ky ky) eq_refl) in P. destruct (Q P) as (Q1 & Q2 & Q3 & Q4). split; [exact Q1|]. split; [exact Q2|].
        rewrite !eids_entry. cbn [tl]. auto. }
    split; [|apply SE]. split; [|exact SE]. split; [auto|]. apply (pair_inv a b); auto. }
  assert (HD : exists st, droute (fun x y s => R_step a b x y s /\ SelfE x y s) (children a) (children b) st /\
    walk (dp_table (width (Z.of_nat (length (children a))) (Z.of_nat (length (children a)))) (length (children a)) subs)
      (children a) (children b) (length (children a) + length (children a)) (length (children a)) (length (children a)) [] [] = inl (fold_left run_step st ([], []))).
  { rewrite LE in L2. destruct (walk_diag subs (children a) (children b) LE L1 L2 ltac:(lia) _ HI (length (children a)) (length (children a) + length (children a)) [] [] (le_n _) (le_n _)) as (st & RT & WE).
    exists st. split; [|exact WE]. rewrite firstn_all in RT. rewrite <- LE in RT. rewrite firstn_all in RT. exact RT. }
  destruct HD as (st & RT & WE).
  pose proof (diag_zero subs (children a) (children b) LE L1 ltac:(rewrite LE in L2; exact L2) ltac:(lia) _ HI _ (le_n _)) as D0. unfold cv in D0.
  unfold container_mat in HC. rewrite LE in HC. rewrite D0, WE in HC.
  destruct (Z.eqb_spec (Z.max (Z.of_nat (length (children a))) (Z.of_nat (length (children a)))) 0); [lia|].
  destruct (rel_similar 0 (Z.max (Z.of_nat (length (children a))) (Z.of_nat (length (children a)))) ltac:(lia) ltac:(lia)) as (R1 & R2 & R3).
  rewrite R1, R2, R3, Z.div_0_l in HC by lia. cbn [Z.eqb negb dbind] in HC.
  assert (RS : droute SelfE (children a) (children b) st).
  { clear - RT. induction RT; constructor; auto. apply H. }
  assert (RR : route (R_step a b) (children a) (children b) st).
  { clear - RT. apply droute_route. induction RT; constructor; auto. apply H. }
  destruct (drun_ops _ _ _ RS [] [] ltac:(intros u o [])) as (K1 & _ & K3).
  assert (NC : NoDup (flat_map eids (children a) ++ flat_map eids (children b))).
  { rewrite !ids_children in N. inversion_clear N as [|? ? _ N']. apply NoDup_app_in.
    - exact (NoDup_app_l _ _ N').
    - apply NoDup_app_r in N'. inversion_clear N'. assumption.
    - intros z Z1 Z2. apply (NoDup_app_not _ _ z N' Z1). right. exact Z2. }
  assert (RI : route Inv (children a) (children b) st) by (eapply route_impl; [|exact RR]; intros x y s _ _ Q; apply Q).
  destruct (route_eqs _ _ _ RI [] [] NC ltac:(constructor) ltac:(intros u [])) as [_ K2].
  destruct (fold_left run_step st ([], [])) as [ops eqs] eqn:RUN. cbn [fst snd] in *. injection HC as <-.
  split; [reflexivity|]. cbn [mops meqv]. split; [apply mset_equ, mset_equ, K1|]. rewrite !ids_children in *. split.
  - intros u I. rewrite !keys_mset. rewrite !in_app_iff in I. cbn [In] in I.
    assert (Q : u = nid a \/ u = nid b \/ In u (flat_map eids (children a) ++ flat_map eids (children b))) by (rewrite in_app_iff; intuition).
    destruct Q as [Q|[Q|Q]]; auto.
  - intros [u v] I. assert (NEab : nid a <> nid b).
    { intros Q. inversion_clear N as [|? ? N1 N2]. apply N1. apply in_or_app. right. left. auto. }
    destruct I as [[= <- <-]|I].
    + apply mset_In. right. split; [exact NEab|]. apply mset_In. auto.
    + pose proof (droute_collected _ _ _ RS F u v I) as C.
      pose proof (collected_ids a b _ _ _ u v RR (incl_refl _) (incl_refl _) C) as U.
      assert (u <> nid a /\ u <> nid b) as [U1 U2].
      { inversion_clear N as [|? ? N1 N2]. split; intros ->.
        - apply N1. apply in_app_or in U. apply in_or_app. destruct U; [auto|right; right; assumption].
        - apply in_app_or in U. destruct U as [U|U]; [apply (NoDup_app_not _ _ _ N2 U); left; reflexivity|].
          apply NoDup_app_r in N2. inversion_clear N2. contradiction. }
      apply mset_In. right. split; [exact U2|]. apply mset_In. right. split; [exact U1|]. apply K2. auto.
Qed.

Lemma equ_shown m u : all_equ (mops m) -> In u (keys (mops m)) -> shown_op m u = OEqu.
Proof.
  intros A I. unfold shown_op, mget. pose proof (find_spec (fun p => fst p =? u) (mops m)) as F. destruct (find _ (mops m)) as [[u' o]|].
  - cbn [option_map snd]. destruct F as [J _]. exact (A u' o J).
  - exfalso. unfold keys in I. apply in_map_iff in I. destruct I as ([u' o] & E & I). apply F in I. cbn in *. subst u'. rewrite Z.eqb_refl in I. discriminate.
Qed.

(** * Empty containers *)
Lemma no_empty_full n : fits_memory n -> ~ has_empty n -> all_containers full_container n.
Proof.
  induction n as [m p|m l IH|m l IH] using node_ind'; intros F H; inversion F as [|? ? P G|? ? P G]; subst; constructor.
  - split; [|exact P]. intros E. apply H. apply HE_here. cbn. f_equal. exact E.
  - rewrite Forall_forall in *. intros x I. apply (IH x I (G x I)). intros Q. apply H. exact (HE_arr m l x I Q).
  - split; [|exact P]. intros E. apply H. apply HE_here. cbn. f_equal. exact E.
  - rewrite Forall_forall in *. intros [[e k] x] I. apply (IH _ I); [exact (G _ I)|]. intros Q. apply H. exact (HE_obj m l e k x I Q).
Qed.

Lemma Forall2_partner {A B} (P : A -> B -> Prop) l l' x : Forall2 P l l' -> In x l -> exists y, In y l' /\ P x y.
Proof.
  induction 1 as [|a b l l' H F IH]; intros I; [destruct I|]. destruct I as [->|I]; [exists b; split; [left; reflexivity|exact H]|].
  destruct (IH I) as (y & I' & Q). exists y. split; [right; exact I'|exact Q].
Qed.

Lemma empty_meets a : has_empty a -> forall b, erase a = erase b -> meets_empty a b.
Proof.
  induction 1 as [n S|m l x I H IH|m l e k x I H IH]; intros b E.
  - apply ME_here; [exact S|]. destruct n as [|? [|? ?]|? [|? ?]]; try discriminate; destruct b as [|? [|? ?]|? [|? ?]]; try discriminate; reflexivity.
  - destruct b as [mb pb|mb lb|mb lb]; try discriminate. injection E as E. apply map_Forall2 in E. destruct (Forall2_partner _ _ _ _ E I) as (y & IY & Q).
    exact (ME_arr _ _ _ _ x y I IY (IH y Q)).
  - destruct b as [mb pb|mb lb|mb lb]; try discriminate. injection E as E. apply map_Forall2 in E. destruct (Forall2_partner _ _ _ _ E I) as ([[ey ky] y] & IY & Q).
    cbn in Q. injection Q as -> Q. exact (ME_obj _ _ _ _ e ey ky x y I IY (IH y Q)).
Qed.

(** A copy of a document: no difference shown and everything paired with its
    copy, or a crash if there is an empty array or object. *)
Lemma self_spec a b : erase a = erase b -> fits_memory a -> NoDup (ids a ++ ids b) -> ~ has_empty a ->
  exists m, build a b = inl m /\
    (forall u, In u (ids a) \/ In u (ids b) -> shown_op m u = OEqu) /\
    (forall u v, In (u, v) (combine (ids a) (ids b)) -> getEquivalence m u = Some v /\ getEquivalence m v = Some u).
Proof.
  intros E FM N NE. pose proof (no_empty_full a FM NE) as FC. pose proof (full_fits a FC) as FA. pose proof (full_fits b (full_sub a b E FC)) as FB.
  destruct (build_outcome a b FA FB) as [(m & H & _)|(_ & M)]; [|destruct (full_no_meet a b FC M)].
  exists m. split; [exact H|]. destruct (build_self a b m E FC N H) as (_ & S2 & S3 & S4). split.
  - intros u I. apply equ_shown; [exact S2|]. apply S3, in_or_app. exact I.
  - intros u v I. apply (meqv_found a b m u v); auto.
Qed.

Lemma self_crash a b : erase a = erase b -> fits_memory a -> has_empty a -> build a b = inr DivByZero.
Proof.
  intros E FM H. destruct (build_outcome a b FM (fits_copy _ a b E FM)) as [(m & _ & M)|(H2 & _)]; [|exact H2].
  destruct M. apply empty_meets; auto.
Qed.

Lemma pairing_ok a b m : fits_memory a -> fits_memory b -> NoDup (ids a ++ ids b) -> build a b = inl m ->
  pairing (fun x y => getEquivalence m x = Some y) a b.
Proof. exact (pairing_spec a b m). Qed.

Lemma no_crash a b : fits_memory a -> fits_memory b -> (exists m, build a b = inl m) <-> ~ meets_empty a b.
Proof.
  intros FA FB. destruct (build_outcome a b FA FB) as [(m & E & M)|(E & M)]; split; try tauto; [eauto|]. intros (m & E2). congruence.
Qed.

Lemma is_container_size a k : size_of a = Some k -> is_container a = true /\ length (children a) = k.
Proof. destruct a; cbn [size_of]; intros [= <-]; cbn [children is_container]; rewrite map_length; auto. Qed.

Lemma distance_bounds a b m n k : size_of a = Some n -> size_of b = Some k -> fits_memory a -> fits_memory b -> build a b = inl m ->
  0 <= mresult m <= Z.of_nat n + Z.of_nat k.
Proof.
  intros A B. apply is_container_size in A, B. destruct A as [A <-]. destruct B as [B <-]. apply build_upper; assumption.
Qed.

Lemma distance_lower K a b m n k : size_of a = Some n -> size_of b = Some k -> 0 <= K <= 2 ^ 31 ->
  (forall x, In x (below a) -> all_containers (fun k => Z.of_nat k < K) x) -> (forall y, In y (below b) -> all_containers (fun k => Z.of_nat k < K) y) ->
  let mx := Z.max (Z.of_nat n) (Z.of_nat k) in
  let need := Z.of_nat n + Z.of_nat k + 2 * K + 1 in
  need < 2 ^ 8 \/ (255 <= mx /\ need < 2 ^ 16) \/ (65535 <= mx /\ need < 2 ^ 32) ->
  build a b = inl m -> Z.abs (Z.of_nat n - Z.of_nat k) <= mresult m.
Proof.
  intros A B HK SA SB mx need HW. apply is_container_size in A, B. destruct A as [A <-]. destruct B as [B <-].
  assert (C : forall n, map sub_nodes (children n) = below n) by (destruct n; cbn [children below map]; rewrite ?map_map, ?map_id; reflexivity).
  apply (build_lower K); auto.
  - intros x I. apply SA. rewrite <- C. apply in_map, I.
  - intros x I. apply SB. rewrite <- C. apply in_map, I.
  - unfold sum_sizes, width, need, mx in *.
    destruct (Z.ltb_spec (Z.of_nat (length (children a))) 255); destruct (Z.ltb_spec (Z.of_nat (length (children b))) 255); cbn [andb]; try lia;
    destruct (Z.ltb_spec (Z.of_nat (length (children a))) 65535); destruct (Z.ltb_spec (Z.of_nat (length (children b))) 65535); cbn [andb]; lia.
Qed.

Lemma alike_text p q : Z.of_nat (length (prim_string p)) <= 2 ^ 24 -> Z.of_nat (length (prim_string q)) <= 2 ^ 24 -> alike p q ->
  prim_type p = prim_type q /\
  (prim_string p = prim_string q \/
   10 * levenshtein (prim_string p) (prim_string q) < 3 * Z.max (Z.of_nat (length (prim_string p))) (Z.of_nat (length (prim_string q)))).
Proof. intros P Q [T S]. split; [apply beqb_eq; exact T|]. apply (score_spec _ _ P Q). exact S. Qed.

Lemma equal_text a b m u p : fits_memory a -> fits_memory b -> NoDup (ids a ++ ids b) ->
  (forall v q, In (v, q) (scalars a ++ scalars b) -> Z.of_nat (length (prim_string q)) <= 2 ^ 24) ->
  build a b = inl m -> In (u, p) (scalars a ++ scalars b) -> shown_op m u = OEqu ->
  exists v q, In (v, q) (scalars a ++ scalars b) /\ getEquivalence m u = Some v /\ prim_type p = prim_type q /\
    (prim_string p = prim_string q \/
     10 * levenshtein (prim_string p) (prim_string q) < 3 * Z.max (Z.of_nat (length (prim_string p))) (Z.of_nat (length (prim_string q)))).
Proof.
  intros FA FB N T H I S. destruct (equal_scalars a b m u p FA FB N H S) as [E1 E2]. pose proof (T u p I) as TP.
  apply in_app_or in I. destruct I as [I|I].
  - destruct (E1 I) as (v & q & V & G & A). assert (J : In (v, q) (scalars a ++ scalars b)) by (apply in_or_app; auto).
    exists v, q. split; [exact J|]. split; [exact G|]. exact (alike_text p q TP (T v q J) A).
  - destruct (E2 I) as (v & q & V & G & A). assert (J : In (v, q) (scalars a ++ scalars b)) by (apply in_or_app; auto).
    exists v, q. split; [exact J|]. split; [exact G|]. destruct (alike_text q p (T v q J) TP A) as [A1 A2]. split; [congruence|].
    rewrite (lev_sym (prim_string p)). rewrite (Z.max_comm (Z.of_nat (length (prim_string p)))). destruct A2; auto.
Qed.

Lemma root_marks a b m n k : size_of a = Some n -> size_of b = Some k -> fits_memory a -> fits_memory b -> NoDup (ids a ++ ids b) ->
  build a b = inl m ->
  let mx := Z.max (Z.of_nat n) (Z.of_nat k) in
  let o := if (mx <=? mresult m) && (mresult m <? 2 * mx) then OAdd else OEqu in
  shown_op m (mid (node_meta a)) = o /\ shown_op m (mid (node_meta b)) = o.
Proof.
  intros A B FA FB N H mx o. apply is_container_size in A, B. destruct A as [A <-]. destruct B as [B <-].
  pose proof (root_mark a b m A B FA FB N H) as R. cbv zeta in R. unfold nid in R. fold mx in R.
  assert (M : 0 <= mx) by (unfold mx; lia). pose proof (build_upper a b m A B FA FB H) as U.
  replace o with (if mresult m / mx =? 1 then OAdd else OEqu); [exact R|]. unfold o.
  destruct (Z.eq_dec mx 0) as [E|NE].
  - rewrite E, Zdiv_0_r. replace (0 <=? mresult m) with true by lia. replace (mresult m <? 2 * 0) with false by lia. reflexivity.
  - destruct (Z.eqb_spec (mresult m / mx) 1) as [E|E2].
    + pose proof (Z.div_mod (mresult m) mx NE) as D. pose proof (Z.mod_pos_bound (mresult m) mx ltac:(lia)) as D2. rewrite E in D.
      replace (mx <=? mresult m) with true by lia. replace (mresult m <? 2 * mx) with true by lia. reflexivity.
    + destruct (Z.leb_spec mx (mresult m)); [|reflexivity]. destruct (Z.ltb_spec (mresult m) (2 * mx)); [|reflexivity].
      exfalso. apply E2. symmetry. apply (Z.div_unique (mresult m) mx 1 (mresult m - mx)); lia.
Qed.

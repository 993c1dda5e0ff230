(** The cost table of a comparison, and the way back through it. *)
From Verif Require Export Model.Diff Spec.DiffSpec.
From Coq Require Import Lia.
Open Scope Z_scope.

(** * Shape of the table *)
Definition sub_at (subs : list (list mat)) (i j : nat) : option mat := match nth_error subs i with Some r => nth_error r j | None => None end.

Lemma dp_cells_length W subs : forall prev left, length prev = S (length subs) -> length (dp_cells W subs prev left) = length subs.
Proof.
  induction subs as [|s subs IH]; intros prev left L; [reflexivity|]. destruct prev as [|d [|u prev]]; try discriminate.
  cbn [dp_cells length]. rewrite IH; [reflexivity|]. cbn in *. lia.
Qed.

Lemma dp_cells_nth W subs : forall prev left j s, length prev = S (length subs) -> nth_error subs j = Some s ->
  nth (S j) ((left, None) :: dp_cells W subs prev left) (0, None) =
  dp_cell W (fst (nth (S j) prev (0, None))) (fst (nth j ((left, None) :: dp_cells W subs prev left) (0, None))) (fst (nth j prev (0, None))) s.
Proof.
  induction subs as [|s0 subs IH]; intros prev left j s L E; [destruct j; discriminate|].
  destruct prev as [|d [|u prev]]; try discriminate. cbn [dp_cells].
  destruct j as [|j]; cbn [nth_error] in E.
  - injection E as <-. reflexivity.
  - assert (L' : length (u :: prev) = S (length subs)) by (cbn in *; lia).
    specialize (IH (u :: prev) (fst (dp_cell W (fst u) left (fst d) s0)) j s L' E).
    cbn [nth] in IH |- *. rewrite IH. f_equal. destruct j; [reflexivity|]. reflexivity.
Qed.

Lemma dp_rows_nth W subs m : forall i prev k r, length prev = S m -> Forall (fun r => length r = m) subs -> nth_error subs k = Some r ->
  exists up, length up = S m /\ up = nth k (prev :: dp_rows W i subs prev) [] /\
    nth (S k) (prev :: dp_rows W i subs prev) [] = ((i + Z.of_nat k) mod W, None) :: dp_cells W r up ((i + Z.of_nat k) mod W).
Proof.
  induction subs as [|r0 subs IH]; intros i prev k r L F E; [destruct k; discriminate|].
  inversion_clear F as [|? ? F1 F2]. destruct k as [|k]; cbn [nth_error] in E.
  - injection E as ->. exists prev. split; [exact L|]. split; [reflexivity|]. cbn [dp_rows nth]. replace (i + Z.of_nat 0) with i by lia. reflexivity.
  - cbn [dp_rows]. set (row := (i mod W, None) :: dp_cells W r0 prev (i mod W)).
    assert (LR : length row = S m) by (unfold row; cbn [length]; rewrite dp_cells_length; lia).
    destruct (IH (i + 1) row k r LR F2 E) as (up & L1 & E1 & E2). exists up. split; [exact L1|]. split; [exact E1|].
    cbn [nth] in E2 |- *. rewrite E2. replace (i + Z.of_nat (S k)) with (i + 1 + Z.of_nat k) by lia. reflexivity.
Qed.

Section Table.
  Variable W : Z.
  Variable subs : list (list mat).
  Variable n m : nat.
  Hypothesis Ln : length subs = n.
  Hypothesis Lm : Forall (fun r => length r = m) subs.
  Let t := dp_table W m subs.
  Definition cv (i j : nat) : Z := fst (cell_at (dp_table W m subs) i j).

  Lemma row0_length : length (dp_row0 W m) = S m.
  Proof. unfold dp_row0. rewrite map_length, seq_length. reflexivity. Qed.

  Lemma cv_row0 j : (j <= m)%nat -> cv 0 j = Z.of_nat j mod W.
  Proof.
    intros L. unfold cv, cell_at, dp_table. cbn [nth]. unfold dp_row0.
    set (f := fun j0 : nat => (Z.of_nat j0 mod W, None) : cell).
    erewrite nth_indep with (d' := f O) by (rewrite map_length, seq_length; lia).
    rewrite map_nth, seq_nth by lia. reflexivity.
  Qed.

  Lemma cv_col0 i : (i <= n)%nat -> cv i 0 = Z.of_nat i mod W.
  Proof.
    intros L. destruct i as [|i]; [apply cv_row0; lia|].
    destruct (nth_error subs i) as [r|] eqn:E; [|apply nth_error_None in E; lia].
    destruct (dp_rows_nth W subs m 1 (dp_row0 W m) i r row0_length Lm E) as (up & _ & _ & E2).
    unfold cv, cell_at, dp_table. rewrite E2. cbn [nth fst]. f_equal. lia.
  Qed.

  Lemma cell_step i j s : (i < n)%nat -> sub_at subs i j = Some s ->
    cell_at t (S i) (S j) = dp_cell W (cv i (S j)) (cv (S i) j) (cv i j) s.
  Proof.
    intros L E. unfold sub_at in E. destruct (nth_error subs i) as [r|] eqn:ER; [|discriminate].
    destruct (dp_rows_nth W subs m 1 (dp_row0 W m) i r row0_length Lm ER) as (up & L1 & E1 & E2).
    assert (Lr : length r = m) by (rewrite Forall_forall in Lm; apply Lm; eapply nth_error_In; eauto).
    assert (LU : length up = S (length r)) by lia.
    unfold t, cell_at, cv, dp_table. unfold cell_at. rewrite E2. rewrite (dp_cells_nth W r up _ j s LU E). rewrite <- E1. reflexivity.
  Qed.

  (** The cell type is wide enough to count to n + m, or the excess is rejected. *)
  Hypothesis HW : W = width (Z.of_nat n) (Z.of_nat m).
  Hypothesis HS : Z.of_nat n + Z.of_nat m < 2 ^ 32.

  Lemma W_cases : W = 2 ^ 8 /\ Z.of_nat n < 255 /\ Z.of_nat m < 255 \/ W = 2 ^ 16 /\ Z.of_nat n < 65535 /\ Z.of_nat m < 65535 \/ W = 2 ^ 32.
  Proof.
    rewrite HW. unfold width.
    destruct (Z.ltb_spec (Z.of_nat n) 255); destruct (Z.ltb_spec (Z.of_nat m) 255); cbn [andb]; auto;
    destruct (Z.ltb_spec (Z.of_nat n) 65535); destruct (Z.ltb_spec (Z.of_nat m) 65535); cbn [andb]; auto.
  Qed.

  Lemma small_fits k : (k <= n)%nat \/ (k <= m)%nat -> Z.of_nat k mod W = Z.of_nat k.
  Proof. intros L. apply Z.mod_small. destruct W_cases as [(-> & ? & ?)|[(-> & ? & ?)| ->]]; lia. Qed.

  Lemma W_pos : 256 <= W.
  Proof. destruct W_cases as [(-> & _)|[(-> & _)| ->]]; lia. Qed.

  Definition cost (s : mat) (diag : Z) : Z := (diag + (if msimilar s then 0 else mresult s)) mod W.

  Lemma dp_cell_spec up left diag s : 0 <= up < W -> 0 <= left < W -> (W = 2 ^ 32 -> up + 1 < W /\ left + 1 < W) ->
    let c := dp_cell W up left diag s in
    (c = (cost s diag, Some s) /\ cost s diag <= up + 1 /\ cost s diag <= left + 1) \/
    (c = (Z.min up left + 1, None) /\ (up + 1 < cost s diag \/ left + 1 < cost s diag)).
  Proof.
    intros U L B. unfold dp_cell. fold (cost s diag).
    assert (P : forall x, (W = 2 ^ 32 -> x + 1 < W) -> 0 <= x < W -> plus1 W x = x + 1).
    { intros x X R. unfold plus1. destruct (Z.eqb_spec W (2 ^ 32)) as [EW|NW]; [|reflexivity]. apply Z.mod_small. specialize (X EW). lia. }
    rewrite (P up), (P left) by (try assumption; intros Q; apply B in Q; lia).
    assert (C : 0 <= cost s diag < W) by (apply Z.mod_pos_bound; pose proof W_pos; lia).
    destruct (Z.leb_spec (cost s diag) (up + 1)); destruct (Z.leb_spec (cost s diag) (left + 1)); cbn [andb].
    - left. auto.
    - right. split; [f_equal; apply Z.mod_small; lia|lia].
    - right. split; [f_equal; apply Z.mod_small; lia|lia].
    - right. split; [f_equal; apply Z.mod_small; lia|lia].
  Qed.

  Lemma sub_some i j : (i < n)%nat -> (j < m)%nat -> exists s, sub_at subs i j = Some s.
  Proof.
    intros A B. unfold sub_at. destruct (nth_error subs i) as [r|] eqn:E; [|apply nth_error_None in E; lia].
    assert (Lr : length r = m) by (rewrite Forall_forall in Lm; apply Lm; eapply nth_error_In; eauto).
    destruct (nth_error r j) as [s|] eqn:E2; [eauto|apply nth_error_None in E2; lia].
  Qed.

  Lemma cv_bound : forall i j, (i <= n)%nat -> (j <= m)%nat -> 0 <= cv i j < W /\ cv i j <= Z.of_nat i + Z.of_nat j.
  Proof.
    pose proof W_pos as WP.
    induction i as [|i IHi].
    - intros j _ L. rewrite cv_row0 by exact L. split; [apply Z.mod_pos_bound; lia|]. rewrite small_fits by auto. lia.
    - induction j as [|j IHj]; intros L1 L2.
      + rewrite cv_col0 by exact L1. split; [apply Z.mod_pos_bound; lia|]. rewrite small_fits by auto. lia.
      + destruct (sub_some i j ltac:(lia) ltac:(lia)) as (s & E).
        destruct (IHi (S j) ltac:(lia) L2) as [U1 U2]. destruct (IHj L1 ltac:(lia)) as [V1 V2].
        pose proof (cell_step i j s ltac:(lia) E) as CS.
        assert (BB : W = 2 ^ 32 -> cv i (S j) + 1 < W /\ cv (S i) j + 1 < W) by (intros ->; lia).
        assert (C : 0 <= cost s (cv i j) < W) by (apply Z.mod_pos_bound; lia).
        destruct (dp_cell_spec _ _ (cv i j) s U1 V1 BB) as [(Q & Q1 & Q2)|(Q & Q1)]; rewrite Q in CS; unfold cv; fold t; rewrite CS; cbn [fst]; lia.
  Qed.

  (** Every inner cell. *)
  Lemma cell_cases i j : (i < n)%nat -> (j < m)%nat -> exists s, sub_at subs i j = Some s /\
    ((cell_at t (S i) (S j) = (cost s (cv i j), Some s) /\ cost s (cv i j) <= cv i (S j) + 1 /\ cost s (cv i j) <= cv (S i) j + 1) \/
     (cell_at t (S i) (S j) = (Z.min (cv i (S j)) (cv (S i) j) + 1, None) /\
        (cv i (S j) + 1 < cost s (cv i j) \/ cv (S i) j + 1 < cost s (cv i j)))).
  Proof.
    intros A B. destruct (sub_some i j A B) as (s & E). exists s. split; [exact E|]. rewrite (cell_step i j s A E).
    destruct (cv_bound i (S j) ltac:(lia) ltac:(lia)) as [U1 U2]. destruct (cv_bound (S i) j ltac:(lia) ltac:(lia)) as [V1 V2].
    apply dp_cell_spec; auto. intros EW. lia.
  Qed.
End Table.

(** * The way back *)
Inductive step : Type := StA (x : elem) | StB (y : elem) | StM (x y : elem) (o : op) (s : mat).

Definition run_step (oe : list (Z * op) * list (Z * Z)) (st : step) : list (Z * op) * list (Z * Z) :=
  let '(ops, eqs) := oe in
  match st with
  | StA x => (mset (eid x) OAdd ops, eqs)
  | StB y => (mset (eid y) OAdd ops, eqs)
  | StM x y o s =>
      (fold_left (fun l e => mset (fst e) (snd e) l) (mops s) (mset (eid x) o (mset (eid y) o ops)),
       mset (eid x) (eid y) (fold_left (fun l e => mset (fst e) (snd e) l) (meqv s) eqs))
  end.

(** The steps, last elements first; [R x y s] holds of the elements paired. *)
Inductive route (R : elem -> elem -> mat -> Prop) : list elem -> list elem -> list step -> Prop :=
| R_nil : route R [] [] []
| R_A la lb x st : route R la lb st -> route R (la ++ [x]) lb (StA x :: st)
| R_B la lb y st : route R la lb st -> route R la (lb ++ [y]) (StB y :: st)
| R_M la lb x y o s st : route R la lb st -> R x y s -> route R (la ++ [x]) (lb ++ [y]) (StM x y o s :: st).

Lemma firstn_snoc {A} (d : A) (l : list A) i : (i < length l)%nat -> firstn (S i) l = firstn i l ++ [nth i l d].
Proof.
  revert i. induction l as [|x l IH]; intros i L; [cbn in L; lia|]. destruct i as [|i]; [reflexivity|].
  cbn [firstn nth app]. f_equal. apply IH. cbn in L. lia.
Qed.

Section Walk.
  Variable subs : list (list mat).
  Variable la lb : list elem.
  Let n := length la.
  Let m := length lb.
  Let W := width (Z.of_nat n) (Z.of_nat m).
  Let t := dp_table W m subs.
  Hypothesis Ln : length subs = n.
  Hypothesis Lm : Forall (fun r => length r = m) subs.
  Hypothesis HS : Z.of_nat n + Z.of_nat m < 2 ^ 32.
  Variable R : elem -> elem -> mat -> Prop.
  Hypothesis HR : forall i j x y s, nth_error la i = Some x -> nth_error lb j = Some y -> sub_at subs i j = Some s -> R x y s.

  Let dflt := ENode (NPrim (mkMeta 0 None) PNull).

  Lemma nth_la i : (i < n)%nat -> nth_error la i = Some (nth i la dflt).
  Proof. intros L. apply nth_error_nth'. exact L. Qed.
  Lemma nth_lb j : (j < m)%nat -> nth_error lb j = Some (nth j lb dflt).
  Proof. intros L. apply nth_error_nth'. exact L. Qed.

  Lemma walk_route : forall fuel i j ops eqs, (i <= n)%nat -> (j <= m)%nat -> (i + j <= fuel)%nat ->
    exists st, route R (firstn i la) (firstn j lb) st /\ walk t la lb fuel i j ops eqs = inl (fold_left run_step st (ops, eqs)).
  Proof.
    induction fuel as [|f IH]; intros i j ops eqs Li Lj LF.
    - replace i with O by lia. replace j with O by lia. exists []. split; [constructor|reflexivity].
    - cbn [walk]. fold dflt. destruct i as [|i]; destruct j as [|j].
      + exists []. split; [constructor|reflexivity].
      + destruct (IH O j (mset (eid (nth j lb dflt)) OAdd ops) eqs ltac:(lia) ltac:(lia) ltac:(lia)) as (st & RT & E).
        exists (StB (nth j lb dflt) :: st). split; [|exact E]. rewrite (firstn_snoc dflt lb j) by (fold m; lia). apply R_B, RT.
      + destruct (IH i O (mset (eid (nth i la dflt)) OAdd ops) eqs ltac:(lia) ltac:(lia) ltac:(lia)) as (st & RT & E).
        exists (StA (nth i la dflt) :: st). split; [|exact E]. rewrite (firstn_snoc dflt la i) by (fold n; lia). apply R_A, RT.
      + destruct (fst (cell_at t i (S j)) <? fst (cell_at t (S i) (S j))) eqn:E1.
        { destruct (IH i (S j) (mset (eid (nth i la dflt)) OAdd ops) eqs ltac:(lia) ltac:(lia) ltac:(lia)) as (st & RT & E).
          exists (StA (nth i la dflt) :: st). split; [|exact E]. rewrite (firstn_snoc dflt la i) by (fold n; lia). apply R_A, RT. }
        destruct (fst (cell_at t (S i) j) <? fst (cell_at t (S i) (S j))) eqn:E2.
        { destruct (IH (S i) j (mset (eid (nth j lb dflt)) OAdd ops) eqs ltac:(lia) ltac:(lia) ltac:(lia)) as (st & RT & E).
          exists (StB (nth j lb dflt) :: st). split; [|exact E]. rewrite (firstn_snoc dflt lb j) by (fold m; lia). apply R_B, RT. }
        destruct (cell_cases W subs n m Ln Lm eq_refl HS i j ltac:(lia) ltac:(lia)) as (s & ES & [(C & _)|(C & _)]).
        * fold t in C. rewrite C. cbn [snd fst].
          match goal with |- context [mset (eid (nth i la dflt)) ?o (mset (eid (nth j lb dflt)) ?o ops)] => set (oo := o) end.
          match goal with |- context [walk t la lb f i j ?A ?B] =>
            destruct (IH i j A B ltac:(lia) ltac:(lia) ltac:(lia)) as (st & RT & E) end.
          exists (StM (nth i la dflt) (nth j lb dflt) oo s :: st). split; [|exact E].
          rewrite (firstn_snoc dflt la i), (firstn_snoc dflt lb j) by (fold n; fold m; lia). apply R_M; [exact RT|].
          apply (HR i j); [apply nth_la; lia|apply nth_lb; lia|exact ES].
        * exfalso. fold t in C. unfold cv in C. fold t in C. rewrite C in E1, E2. cbn [fst] in E1, E2.
          apply Z.ltb_ge in E1. apply Z.ltb_ge in E2. lia.
  Qed.
End Walk.

(** Numbered documents are in memory. *)
From Verif Require Import Proofs.GrammarProps.
From Verif Require Import Proofs.DiffPairing.
From Verif Require Import Proofs.ShownProofs.
From Verif Require Import Proofs.InvProofs.

From Coq Require Import Lia.
Open Scope Z_scope.

Definition number_list (par : Z) := fix go (l : list tree) (j : Z) : list node * Z :=
  match l with
  | [] => ([], j)
  | t :: l => let '(n, j) := number t (Some par) j in let '(l, j) := go l j in (n :: l, j)
  end.
Definition number_members (par : Z) := fix go (l : list (bytes * tree)) (j : Z) : list (meta * bytes * node) * Z :=
  match l with
  | [] => ([], j)
  | (k, t) :: l => let '(n, j') := number t (Some j) (j + 1) in
      let '(l, j') := go l j' in ((mkMeta j (Some par), k, n) :: l, j')
  end.
Lemma number_list_cons par t l j : number_list par (t :: l) j = let '(n, j) := number t (Some par) j in let '(l, j) := number_list par l j in (n :: l, j).
Proof. reflexivity. Qed.
Lemma number_members_cons par k t l j : number_members par ((k, t) :: l) j = let '(n, j') := number t (Some j) (j + 1) in
      let '(l, j') := number_members par l j' in ((mkMeta j (Some par), k, n) :: l, j').
Proof. reflexivity. Qed.
Lemma number_arr par i l : number (TArr l) par i = let '(l, j) := number_list i l (i + 1) in (NArr (mkMeta i par) l, j).
Proof. reflexivity. Qed.
Lemma number_obj par i l : number (TObj l) par i = let '(l, j) := number_members i l (i + 1) in (NObj (mkMeta i par) l, j).
Proof. reflexivity. Qed.

Definition between (i j : Z) (l : list Z) : Prop := NoDup l /\ forall x, In x l -> i <= x < j.
Lemma between_app i j k a b : between i j a -> between j k b -> i <= j -> j <= k -> between i k (a ++ b).
Proof.
  intros [N1 A] [N2 B] L1 L2. split.
  - clear L1 L2. induction a as [|x a IH]; [exact N2|]. cbn [app]. inversion_clear N1 as [|? ? N N']. constructor.
    + intros I. apply in_app_or in I. destruct I as [I|I]; [contradiction|]. specialize (A x (or_introl eq_refl)). specialize (B x I). lia.
    + apply IH; [exact N'|]. intros y J. apply A. right. exact J.
  - intros x I. apply in_app_or in I. destruct I as [I|I]; [specialize (A x I)|specialize (B x I)]; lia.
Qed.
Lemma between_cons i j l : between (i + 1) j l -> i + 1 <= j -> between i j (i :: l).
Proof. intros B L. apply (between_app i (i + 1) j [i] l); [|exact B|lia|exact L]. split; [constructor; [intros []|constructor]|]. intros x [<-|[]]. lia. Qed.

Lemma number_ok t : forall par i n j, number t par i = (n, j) -> linked par n /\ between i j (ids n) /\ i < j.
Proof.
  induction t as [p|l IH|l IH] using tree_ind'; intros par i n j E.
  - cbn [number] in E. injection E as <- <-. split; [constructor; reflexivity|]. split; [|lia]. split; [constructor; [intros []|constructor]|]. intros x [<-|[]]. cbn. lia.
  - rewrite number_arr in E. destruct (number_list i l (i + 1)) as [l' j'] eqn:EL. injection E as <- <-.
    assert (Q : forall l s l' e, Forall (fun t => forall par i n j, number t par i = (n, j) -> linked par n /\ between i j (ids n) /\ i < j) l ->
      number_list i l s = (l', e) -> Forall (linked (Some i)) l' /\ between s e (flat_map eids (map ENode l')) /\ s <= e).
    { clear. induction l as [|t l IHl]; intros s l' e F E; [|rewrite number_list_cons in E].
      - injection E as <- <-. split; [constructor|]. split; [split; [constructor|intros x []]|lia].
      - inversion_clear F as [|? ? F1 F2]. destruct (number t (Some i) s) as [n j] eqn:N. destruct (number_list i l j) as [l2 e2] eqn:L. injection E as <- <-.
        destruct (F1 _ _ _ _ N) as (A & B & C). destruct (IHl _ _ _ F2 L) as (A2 & B2 & C2). split; [constructor; assumption|]. split; [|lia].
        cbn [map flat_map]. rewrite eids_node. apply (between_app s j e2); auto; lia. }
    destruct (Q _ _ _ _ IH EL) as (A & B & C). split; [constructor; [reflexivity|exact A]|]. split; [|lia]. rewrite ids_children. apply between_cons; [exact B|exact C].
  - rewrite number_obj in E. destruct (number_members i l (i + 1)) as [l' j'] eqn:EL. injection E as <- <-.
    assert (Q : forall l s l' e, Forall (fun x => forall par i n j, number (snd x) par i = (n, j) -> linked par n /\ between i j (ids n) /\ i < j) l ->
      number_members i l s = (l', e) -> Forall (fun x => mpar (fst (fst x)) = Some i /\ linked (Some (mid (fst (fst x)))) (snd x)) l' /\
        between s e (flat_map eids (map (fun e => EEntry (fst (fst e)) (snd (fst e)) (snd e)) l')) /\ s <= e).
    { clear. induction l as [|[k t] l IHl]; intros s l' e F E; [|rewrite number_members_cons in E].
      - injection E as <- <-. split; [constructor|]. split; [split; [constructor|intros x []]|lia].
      - inversion_clear F as [|? ? F1 F2]. cbn [snd] in F1. destruct (number t (Some s) (s + 1)) as [n j] eqn:N. destruct (number_members i l j) as [l2 e2] eqn:L. injection E as <- <-.
        destruct (F1 _ _ _ _ N) as (A & B & C). destruct (IHl _ _ _ F2 L) as (A2 & B2 & C2). split; [constructor; [split; [reflexivity|exact A]|exact A2]|]. split; [|lia].
        cbn [map flat_map fst snd]. rewrite eids_entry. apply (between_app s j e2); [|exact B2|lia|exact C2]. apply (between_cons s j); [exact B|lia]. }
    destruct (Q _ _ _ _ IH EL) as (A & B & C). split; [constructor; [reflexivity|exact A]|]. split; [|lia]. rewrite ids_children. apply between_cons; [exact B|exact C].
Qed.

Lemma document_in_memory i t : in_memory (document i t).
Proof.
  unfold document, in_memory. destruct (number t None i) as [n j] eqn:E. destruct (number_ok t None i n j E) as (A & B & _). split; [exact A|apply B].
Qed.

(** * The statements *)
Lemma search_results rx root (M : in_memory root) p sc v o v' : isEmpty p = false -> initSearch root rx (Some p) sc v = Some (o, v') ->
  vres v' = map fst (filter (fun x => match snd x with
                                      | Scalar q => match_ rx p (tree_string (TPrim q)) (EPrim q)
                                      | Key k => match_ rx p k SearchPattern.EEntry
                                      end) (items (nid root) root)).
Proof.
  intros E H. unfold initSearch in H. rewrite E in H.
  assert (VR : forall w, nextResult root sc w = Some (o, v') -> vres v' = vres w).
  { intros w Q. unfold nextResult in Q. destruct (vres w) as [|f l] eqn:R.
    - destruct (redraw root sc w) as [[b w1]|] eqn:RD; [|discriminate Q]. injection Q as <- <-. destruct (redraw_same root _ _ _ _ RD) as (_ & _ & Y). congruence.
    - destruct (snd _) as [r|]; (destruct (unfold _ _ _ _) as [c|]; [|discriminate Q]); cbn [obind] in Q; [injection Q as <- <-; exact R|].
      destruct (redraw root sc _) as [[b w1]|] eqn:RD; [|discriminate Q]. injection Q as <- <-. destruct (redraw_same root _ _ _ _ RD) as (_ & _ & Y). rewrite Y. exact R. }
  rewrite (VR _ H). cbn [vres set_res]. change (mem_of root) with (elems root).
  rewrite (search_items root M _ (fun x => match x with Scalar q => match_ rx p (tree_string (TPrim q)) (EPrim q) | Key k => match_ rx p k SearchPattern.EEntry end)); reflexivity.
Qed.

Lemma next_spec root sc v i : in_memory root -> roomy root sc -> vsel v = Some i -> In i (rows (vcoll v) root) -> 0 <= vscroll v ->
  incl (vres v) (map fst (items (nid root) root)) -> vres v <> [] ->
  exists o v', nextResult root sc v = Some (o, v') /\ vres v' = vres v /\
    vsel v' = next_result (rows [] root) (vres v) i /\ on_row root v'.
Proof.
  intros M RO S V T F NE. assert (R : ready root v i) by (unfold ready; auto).
  destruct (next_led root M sc v i RO R NE) as (o & v' & r & E & VR & (R1 & R2 & _) & NR & _).
  exists o, v'. split; [exact E|]. split; [exact VR|]. split; [congruence|]. exists r. auto.
Qed.

Lemma visits_spec rx root sc v i f : in_memory root -> roomy root sc -> vsel v = Some i -> In i (rows (vcoll v) root) -> 0 <= vscroll v ->
  vres v = map fst (filter f (items (nid root) root)) ->
  forall r, In r (vres v) ->
  exists k v', wait rx root sc v false (repeat (EvKey (str "N") None) k) = Waiting sc v' false /\
    vsel v' = Some r /\ In r (rows (vcoll v') root).
Proof.
  intros M RO S V T E. apply (visits_all rx root M sc v i f RO); [|exact E]. unfold ready. split; [exact S|]. split; [exact V|]. split; [|exact T].
  rewrite E. intros x I. apply in_map_iff in I. destruct I as (y & <- & I). apply filter_In in I. apply in_map. tauto.
Qed.

Lemma run_on_row rx root sc evs : in_memory root -> roomy root sc -> wide evs ->
  unsearched evs \/
  (forall a b sc1 v1 stop, evs = a ++ b -> run rx root sc view0 a = Waiting sc1 v1 stop -> vdown v1 <> None) ->
  stays_on_row root (run rx root sc view0 evs).
Proof.
  intros M RO W H. assert (F : incl (vres view0) (map fst (items (nid root) root))) by (intros x []).
  destruct (run_start root M sc view0 RO F) as (v & L & R & A & N & _).
  assert (Q : WaitProofs.good root (run rx root sc view0 evs)).
  { unfold run. rewrite L. destruct H as [U|P].
    - apply (wait_unsearched rx root M evs sc v false (nid root)); auto.
    - apply (wait_good rx root M evs sc v false (nid root)); auto. intros a b sc1 v1 st E WT. apply (P a b sc1 v1 st E). unfold run. rewrite L. exact WT. }
  unfold WaitProofs.good, stays_on_row in *. destruct (run rx root sc view0 evs); [| |exact Q]; destruct Q as (i & Q1 & Q2 & _); exists i; auto.
Qed.

Lemma redraw_ends root sc v i : in_memory root -> roomy root sc -> vsel v = Some i -> In i (ids root) -> 0 <= vscroll v ->
  exists v', redraw_loop root (fuel_of root) sc v = Some v'.
Proof. intros M RO S I T. apply (loop_total root M sc i RO I); auto; unfold fuel_of; lia. Qed.

Lemma adjacent_rows root sc v v' i pre post :
  in_memory root -> redraw root sc v = Some (true, v') -> vsel v = Some i -> rows (vcoll v) root = pre ++ i :: post ->
  (exists w, selectUp v' = Some (Redraw, w) /\ vcoll w = vcoll v /\
     vsel w = Some (match rev pre with u :: _ => u | [] => i end)) /\
  exists o w, selectDown v' = Some (o, w) /\ vcoll w = vcoll v /\
    ((vsel w = Some (match post with d :: _ => d | [] => i end) /\ vscroll w = vscroll v') \/
     (vsel w = Some i /\ vscroll w = vscroll v' + 2 /\ forall r line b, In (r, line, b) (vlines v') -> ~ In r post)).
Proof.
  intros M RD S E. destruct (redraw_rows root M sc v v' i pre post RD S E) as (U & D1 & D2). destruct (redraw_same root _ _ _ _ RD) as (E1 & E2 & _). split.
  - eexists. split; [reflexivity|]. unfold set_sel. cbn. auto.
  - unfold selectDown. destruct (vlast v') eqn:LA.
    + eexists _, _. split; [reflexivity|]. split; [exact E2|]. right. cbn. split; [congruence|]. split; [reflexivity|]. apply D2. reflexivity.
    + rewrite (D1 eq_refl), E1, S. cbn [opt_eqb]. destruct (negb _) eqn:Q; eexists _, _; (split; [reflexivity|]); (split; [exact E2|]); left; cbn; [auto|].
      split; [|reflexivity]. rewrite E1, S. apply negb_false_iff, Z.eqb_eq in Q. congruence.
Qed.

Lemma selection_shown root fuel sc v v' i :
  in_memory root -> 2 <= sh sc < 2 ^ 32 -> 0 <= vscroll v -> vsel v = Some i -> In i (rows (vcoll v) root) ->
  redraw_loop root fuel sc v = Some v' ->
  exists line, In (i, line, true) (vlines v') /\ 1 <= line <= sh sc - 1.
Proof.
  intros M HS T S V E. destruct (loop_result root fuel sc v v' E T) as (v0 & RD & E1 & E2 & _ & T0).
  apply (redraw_shown root M sc v0 v' i HS T0 RD); [congruence|rewrite E2; exact V].
Qed.

Lemma find_prev root c i : in_memory root -> In (ENode c) (elems root) -> In i (map eid (children c)) ->
  exists before after, map eid (children c) = before ++ i :: after /\ findPrev (elems root) i = Some (hd_error (rev before)).
Proof.
  intros M C I. apply in_map_iff in I. destruct I as (e & <- & J). apply in_split in J. destruct J as (l1 & l2 & K).
  exists (map eid l1), (map eid l2). split; [rewrite K, map_app; reflexivity|]. exact (findPrev_child root M c l1 e l2 C K).
Qed.

Lemma fresh_run rx root sc v evs : (forall j, In j (ids root) -> ~ In j (vcoll v)) -> vres v = [] ->
  ViewerSpec.same_final root (run rx root sc v evs) (run rx root sc view0 evs).
Proof. intros D R. apply run_same_spec; [|exact R]. intros j J. split; [intros I; destruct (D j J I)|intros []]. Qed.

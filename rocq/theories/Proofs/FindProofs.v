(** Searching for a text, from the keys typed to the row selected. *)
From Verif Require Export Spec.FindSpec.
From Verif Require Import Proofs.ExtractProofs Proofs.SearchProofs Proofs.PressProofs Proofs.PromptProofs Proofs.WaitProofs Proofs.InvProofs Proofs.DocumentProofs Proofs.KeyProofs Proofs.RowProofs.
From Coq Require Import Lia ZifyBool.
Open Scope Z_scope.

Section Find.
  Variable (rx : bytes -> bool -> bytes -> bool) (root : node) (sc : screen).
  Hypothesis M : in_memory root.
  Hypothesis RO : roomy root sc.
  Notation R := (rows [] root).

  Section Results.
    Variable (s : bytes) (f : Z * item -> bool) (p : spat).
    Hypothesis NE : s <> [].
    Hypothesis Ff : forall x, f x = true <-> item_text (snd x) <> [] /\ occurs s (seen false (item_text (snd x))).
    Hypothesis PE : isEmpty p = false.
    Definition found : list Z := map fst (filter f (items (nid root) root)).
    Hypothesis SR : search (mem_of root) (fun e => match_ rx p (etext e) (Navigation.ekind e)) root = found.

    Lemma found_contains r : In r found <-> contains root s r.
    Proof.
      unfold found, contains. rewrite in_map_iff. split.
      - intros ([r' x] & <- & I). apply filter_In in I. destruct I as (I & F). apply Ff in F. exists x. cbn [fst]. split; [exact I|apply F].
      - intros (x & I & O). exists (r, x). split; [reflexivity|]. apply filter_In. split; [exact I|]. apply Ff. cbn [snd]. split; [|exact O].
        intros E. rewrite E in O. destruct O as (a & b & Q). cbn in Q. symmetry in Q. apply app_eq_nil in Q. destruct Q as (_ & Q). apply app_eq_nil in Q. apply NE, Q.
    Qed.
    Lemma mem_contains r : existsb (Z.eqb r) found = true <-> contains root s r.
    Proof. rewrite <- found_contains. apply (mem_In r found). Qed.
    Lemma mem_lacks r : existsb (Z.eqb r) found = false <-> ~ contains root s r.
    Proof. rewrite <- mem_contains. destruct (existsb _ _); split; congruence. Qed.
    Lemma found_incl : incl found (map fst (items (nid root) root)).
    Proof. intros x I. apply in_map_iff in I. destruct I as (y & <- & I). apply filter_In in I. apply in_map. apply I. Qed.
    Lemma found_first x l : found = x :: l -> find (fun y => existsb (Z.eqb y) found) R = Some x.
    Proof.
      intros E. rewrite E. apply stut_first; [|apply rows_NoDup, M]. rewrite <- E. unfold found, rows. eapply stut_sub; [apply (items_stut root (nid root))|]. apply map_sub, filter_sub.
    Qed.

    Lemma pick_below i mid r post pre : R = pre ++ i :: mid ++ r :: post -> Forall (fun x => ~ contains root s x) mid -> contains root s r ->
      find (fun x => existsb (Z.eqb x) found) (rows_after i R) = Some r.
    Proof.
      intros E A B. assert (N := rows_NoDup root M []). rewrite E in N |- *. rewrite rows_after_split by (apply NoDup_remove_2 in N; intros I; apply N, in_or_app; auto).
      apply find_app_first; [|apply mem_contains, B]. intros x I. apply mem_lacks. rewrite Forall_forall in A. exact (A x I).
    Qed.
    Lemma pick_none i post pre : R = pre ++ i :: post -> Forall (fun x => ~ contains root s x) post -> find (fun x => existsb (Z.eqb x) found) (rows_after i R) = None.
    Proof.
      intros E A. assert (N := rows_NoDup root M []). rewrite E in N |- *. rewrite rows_after_split by (apply NoDup_remove_2 in N; intros I; apply N, in_or_app; auto).
      destruct (find _ post) as [y|] eqn:Q; [|reflexivity]. apply find_some in Q. destruct Q as (I & Q). apply mem_contains in Q. rewrite Forall_forall in A. destruct (A y I Q).
    Qed.
    Lemma pick_first r post pre : R = pre ++ r :: post -> Forall (fun x => ~ contains root s x) pre -> contains root s r -> exists l, found = r :: l.
    Proof.
      intros E A B. destruct found as [|x l] eqn:F; [exfalso; apply found_contains in B; rewrite F in B; destruct B|].
      assert (Q := found_first x l F). rewrite E, find_app_first in Q; [|intros y I; apply mem_lacks; rewrite Forall_forall in A; exact (A y I)|apply mem_contains, B].
      injection Q as <-. eauto.
    Qed.

    Lemma search_ready v i : at_rest root sc v -> vsel v = Some i -> InvProofs.ready root (set_res v found) i.
    Proof.
      intros A S. destruct (rest_ready root sc M v i A S) as ((_ & I & _ & T) & _). unfold InvProofs.ready, set_res. cbn. repeat split; auto. exact found_incl.
    Qed.
    Lemma evaluates v : evalKey root rx sc (str "/") (Some p) v = nextResult root sc (set_res v found).
    Proof. change (evalKey root rx sc (str "/") (Some p) v) with (initSearch root rx (Some p) sc v). unfold initSearch. rewrite PE, SR. reflexivity. Qed.

    Lemma search_below v i r : at_rest root sc v -> vsel v = Some i ->
      (exists pre mid post, R = pre ++ i :: mid ++ r :: post /\ Forall (fun x => ~ contains root s x) mid /\ contains root s r) ->
      exists v', wait rx root sc v false [EvKey (str "/") (Some p)] = Waiting sc v' false /\ at_rest root sc v' /\ vsel v' = Some r /\ incl (vcoll v') (vcoll v).
    Proof.
      intros A S (pre & mid & post & E & F & C). destruct (search_ready v i A S) as (_ & I & RI & T).
      assert (P := pick_below i mid r post pre E F C). assert (IR : In r found) by (apply found_contains, C).
      destruct (unfold_visible root M (vcoll v) r ltac:(rewrite E; apply in_or_app; right; right; apply in_or_app; right; left; reflexivity)) as (c' & U & UI & V).
      set (v1 := set_sel (set_coll (set_res v found) c') (Some r)).
      assert (NR : nextResult root sc (set_res v found) = Some (Redraw, v1)).
      { unfold nextResult. cbn [set_res vres vsel vcoll]. destruct found as [|x l] eqn:FD; [destruct IR|]. rewrite <- FD in *. rewrite S.
        rewrite (jump_next root M _ _ (found_incl)) by (apply (rows_incl root (vcoll v)), I). rewrite P. cbn [snd]. change (mem_of root) with (elems root). rewrite U. cbn [obind]. unfold v1. rewrite FD. reflexivity. }
      assert (R1 : InvProofs.ready root v1 r) by (unfold InvProofs.ready, v1, set_sel, set_coll, set_res; cbn; repeat split; auto; exact found_incl).
      destruct (settles root sc M RO v1 r R1) as (v' & L & A' & S' & C' & _). exists v'. split; [|split; [exact A'|split; [exact S'|rewrite C'; exact UI]]].
      cbn [wait]. rewrite evaluates, NR, L. reflexivity.
    Qed.
    Lemma search_around v i r : at_rest root sc v -> vsel v = Some i ->
      (exists pre post, R = pre ++ i :: post /\ Forall (fun x => ~ contains root s x) post) ->
      (exists pre post, R = pre ++ r :: post /\ Forall (fun x => ~ contains root s x) pre /\ contains root s r) ->
      exists v', wait rx root sc v false [EvKey (str "/") (Some p)] = Waiting sc v' false /\ vsel v' = Some r /\ In r (rows (vcoll v') root) /\ incl (vcoll v') (vcoll v).
    Proof.
      intros A S (pre & post & E & F) (pre' & post' & E' & F' & C). destruct (search_ready v i A S) as (_ & I & RI & T).
      assert (P := pick_none i post pre E F). destruct (pick_first r post' pre' E' F' C) as (l & FD).
      destruct (unfold_visible root M (vcoll v) r ltac:(rewrite E'; apply in_or_app; right; left; reflexivity)) as (c' & U & UI & V).
      set (v1 := set_sel (set_coll (set_res v found) c') (Some r)).
      assert (R1 : InvProofs.ready root v1 r) by (unfold InvProofs.ready, v1, set_sel, set_coll, set_res; cbn; repeat split; auto; exact found_incl).
      destruct (redraw_total root M sc v1 r RO (proj1 R1) (ready_ids root _ _ R1)) as (b & v' & RD).
      destruct (redraw_any_aims root M sc v1 v' b r R1 RD) as ((S2 & I2 & _) & _ & C2 & _).
      assert (NR : nextResult root sc (set_res v found) = Some (NextInput, v')).
      { unfold nextResult. assert (VR : vres (set_res v found) = r :: l) by exact FD. rewrite VR. rewrite <- FD. cbn [set_res vsel vcoll]. rewrite S.
        rewrite (jump_next root M _ _ (found_incl)) by (apply (rows_incl root (vcoll v)), I). rewrite P. cbn [snd].
        change (mem_of root) with (elems root). rewrite U. cbn [obind]. fold (set_res v found). fold v1. rewrite RD. reflexivity. }
      exists v'. split; [|split; [exact S2|split; [exact I2|rewrite C2; exact UI]]]. cbn [wait]. rewrite evaluates, NR. reflexivity.
    Qed.
    Lemma search_nothing v i : at_rest root sc v -> vsel v = Some i -> Forall (fun x => ~ contains root s x) R ->
      exists v', wait rx root sc v false [EvKey (str "/") (Some p)] = Waiting sc v' false /\ vsel v' = Some i /\ vcoll v' = vcoll v /\ vres v' = [].
    Proof.
      intros A S N. assert (FD : found = []).
      { destruct found as [|x l] eqn:F; [reflexivity|]. exfalso. assert (Q := found_first x l F). apply find_some in Q. destruct Q as (I & Q). apply mem_contains in Q. rewrite Forall_forall in N. exact (N x I Q). }
      assert (RE := search_ready v i A S). destruct (redraw_total root M sc _ i RO (proj1 RE) (ready_ids root _ _ RE)) as (b & v' & RD).
      destruct (redraw_same root _ _ _ _ RD) as (E1 & E2 & E3). exists v'. split; [|split; [rewrite E1; exact S|split; [exact E2|rewrite E3; exact FD]]].
      cbn [wait]. rewrite evaluates. unfold nextResult. cbn [set_res vres]. rewrite FD. rewrite FD in RD. rewrite RD. reflexivity.
    Qed.
    (** There is a target as soon as some row contains the text. *)
    Lemma split_find (l : list Z) : (exists a r b, l = a ++ r :: b /\ Forall (fun x => ~ contains root s x) a /\ contains root s r) \/ Forall (fun x => ~ contains root s x) l.
    Proof.
      destruct (find (fun x => existsb (Z.eqb x) found) l) as [r|] eqn:F.
      - left. destruct (find_split _ _ _ F) as (a & b & -> & A & B). exists a, r, b. split; [reflexivity|]. split; [|apply mem_contains, B]. apply Forall_forall. intros x I. apply mem_lacks, A, I.
      - right. apply Forall_forall. intros x I. apply mem_lacks. exact (find_none _ _ F x I).
    Qed.
    Lemma aimed i : In i R -> (exists r, target root s i r) \/ Forall (fun x => ~ contains root s x) R.
    Proof.
      intros I. apply in_split in I. destruct I as (pre & post & E). destruct (split_find post) as [(a & r & b & -> & A & B)|N].
      - left. exists r. left. exists pre, a, b. auto.
      - destruct (split_find R) as [(a & r & b & E' & A & B)|N']; [|right; exact N']. left. exists r. right. split; [exists pre, post; auto|exists a, b; auto].
    Qed.
  End Results.
End Find.

Lemma type_search rx root e ig u s k rest : in_memory root -> plain_text s -> enter k ->
  exists p f, inputSearch e ig u 0 (keys_of s ++ k :: rest) [] = Answer (Some p) rest /\ isEmpty p = false /\
    (forall x, f x = true <-> item_text (snd x) <> [] /\ occurs s (seen false (item_text (snd x)))) /\
    search (mem_of root) (fun e => match_ rx p (etext e) (Navigation.ekind e)) root = found root f.
Proof.
  intros M PT K. assert (T := plain_typed s PT). destruct PT as (P & N & B & S & E). exists (SearchPattern 0 s). eexists. split; [|split; [|split]].
  - apply ask_text; [exact P|exact N|exact K|]. destruct ig; [reflexivity|]. apply extract_iff, extract_plain, plain_no_escape, E.
  - destruct (isEmpty (SearchPattern 0 s)) eqn:Q; [|reflexivity]. exfalso. unfold isEmpty in Q.
    assert (PE : pat (SearchPattern 0 s) = s). { apply (typed_read 0 s s [] false T). split; [discriminate|intros []]. }
    rewrite PE in Q. destruct s; [contradiction|discriminate Q].
  - shelve.
  - unfold found. apply (search_items root M _ (fun x => match x with Scalar q => match_ rx (SearchPattern 0 s) (tree_string (TPrim q)) (EPrim q) | Key k => match_ rx (SearchPattern 0 s) k SearchPattern.EEntry end)); reflexivity.
  Unshelve.
    intros [r x]. cbn [snd]. assert (PL := fun t ty => search_plain rx s s [] false false t ty T ltac:(constructor; intros c []) ltac:(intros []) ltac:(intros []) ltac:(split; [discriminate|intros []]) ltac:(split; [discriminate|intros []])).
    destruct x as [q|kk]; cbn [item_text]; rewrite PL; unfold matchable, fold; (split; [intros (A & _ & C); auto|intros (A & C); split; [exact A|split; [discriminate|exact C]]]).
Qed.

Lemma find_text rx root e ig u s k rest sc v i : in_memory root -> roomy root sc -> at_rest root sc v -> vsel v = Some i -> plain_text s -> enter k ->
  exists p, inputSearch e ig u 0 (keys_of s ++ k :: rest) [] = Answer (Some p) rest /\
  ((exists r v', target root s i r /\ wait rx root sc v false [EvKey (str "/") (Some p)] = Waiting sc v' false /\
      vsel v' = Some r /\ In r (rows (vcoll v') root) /\ incl (vcoll v') (vcoll v) /\
      (under root i r -> at_rest root sc v' /\ (2 <= sh sc < 2 ^ 32 -> exists line, In (r, line, true) (vlines v') /\ 1 <= line <= sh sc - 1))) \/
   (exists v', (forall r, ~ contains root s r) /\ wait rx root sc v false [EvKey (str "/") (Some p)] = Waiting sc v' false /\
      vsel v' = Some i /\ vcoll v' = vcoll v /\ vres v' = [])).
Proof.
  intros M RO A S PT K. destruct (type_search rx root e ig u s k rest M PT K) as (p & f & IS & PE & Ff & SR). exists p. split; [exact IS|].
  assert (NE : s <> []) by apply PT. destruct (rest_ready root sc M v i A S) as ((_ & I & _) & _).
  assert (I0 : In i (rows [] root)) by (apply (rows_incl root (vcoll v)), I).
  destruct (aimed root s f NE Ff i I0) as [(r & T)|N].
  - left. exists r. destruct T as [T|(T1 & T2)].
    + destruct (search_below rx root sc M RO s f p NE Ff PE SR v i r A S T) as (v' & W & A' & S' & C'). exists v'. split; [left; exact T|]. split; [exact W|]. split; [exact S'|].
      destruct (rest_ready root sc M v' r A' S') as ((_ & I' & _) & _). split; [exact I'|]. split; [exact C'|]. intros _. split; [exact A'|]. apply (rest_shown root sc M v' r A' S').
    + destruct (search_around rx root sc M RO s f p NE Ff PE SR v i r A S T1 T2) as (v' & W & S' & I' & C'). exists v'. split; [right; auto|]. split; [exact W|]. split; [exact S'|]. split; [exact I'|]. split; [exact C'|].
      intros (pre & mid & post & E). exfalso. destruct T1 as (pre1 & post1 & E1 & F1). destruct T2 as (_ & _ & _ & _ & C). 
      assert (X : rows_after i (rows [] root) = mid ++ r :: post /\ rows_after i (rows [] root) = post1).
      { assert (N := rows_NoDup root M []). split; [rewrite E|rewrite E1]; apply rows_after_split; [rewrite E in N|rewrite E1 in N]; apply NoDup_remove_2 in N; intros J; apply N, in_or_app; auto. }
      destruct X as (X1 & X2). rewrite X1 in X2. subst post1. rewrite Forall_forall in F1. apply (F1 r); [apply in_or_app; right; left; reflexivity|exact C].
  - right. destruct (search_nothing rx root sc M RO s f p NE Ff PE SR v i A S N) as (v' & W & S' & C' & V'). exists v'. split; [|auto].
    intros r C. assert (IR : In r (rows [] root)). { destruct C as (x & J & _). apply (found_row root), in_map_iff. exists (r, x). auto. }
    rewrite Forall_forall in N. exact (N r IR C).
Qed.

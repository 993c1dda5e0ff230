(** Which rows of the comparison can be reached with Up, Down, Right and PageDown. *)
From Verif Require Import Proofs.RowProofs Proofs.ShownProofs Proofs.ViewProofs Proofs.PressProofs Proofs.SplitPress Proofs.RowReach Proofs.KeysReachProofs.
From Verif Require Import Spec.RowsSpec.
From Coq Require Import Lia ZifyBool.
Open Scope Z_scope.

Section Press.
  Variable (rx : bytes -> bool -> bytes -> bool) (f : nat) (a b : node) (m : mat) (len : elem -> Z) (sc : screen).
  Hypothesis OK : comparable a b m len f.
  Hypothesis G : roomy_windows sc.
  Hypothesis LEN : slen sc = len.
  Notation h := (split_memory a b).
  Notation leads := (leads rx f a b m sc).

  Lemma split_wait_more evs : forall p p' t, split_wait h m rx f sc p false evs = Done (Waits sc p') -> (forall e, In e evs -> exists k q, e = EvKey k q) ->
    split_wait h m rx f sc p false (evs ++ t) = split_wait h m rx f sc p' false t.
  Proof.
    induction evs as [|e evs IH]; intros p p' t E K; cbn [app split_wait] in *; [injection E as <-; reflexivity|].
    destruct (K e (or_introl eq_refl)) as (k & q & ->). cbn [split_wait] in *. destruct (split_key h m rx sc k q p) as [[o p1]|]; [|discriminate E]. cbn [SplitView.bind] in *.
    assert (K' : forall e, In e evs -> exists k q, e = EvKey k q) by (intros x X; apply K; right; exact X).
    destruct o; try discriminate E; try (destruct (redraws h m f sc p1) as [p2|]; [|discriminate E]; cbn [SplitView.bind] in * ); apply IH; auto.
  Qed.

  Lemma leads_nil p w r : compares a b m sc p -> active p = Some w -> wsel w = Some r -> leads p [] p r.
  Proof. intros C A S. split; [constructor|]. split; [reflexivity|]. split; [exact C|]. split; [reflexivity|]. split; [reflexivity|eauto]. Qed.
  Lemma leads_root p keys p' r w w' : compares a b m sc p -> leads p keys p' r -> active p = Some w -> active p' = Some w' -> wroot w' = wroot w.
  Proof.
    intros C (_ & _ & C' & PA & _) A A'. destruct C as (_ & (w0 & w1 & E & R0 & R1) & _ & (_ & T) & _). destruct C' as (_ & (w0' & w1' & E' & R0' & R1') & _).
    unfold active in *. rewrite PA, E' in A'. rewrite E in A. destruct R0 as (R0 & _), R1 as (R1 & _), R0' as (R0' & _), R1' as (R1' & _).
    destruct T as [T|T]; rewrite T in *; [change (Z.to_nat 0) with 0%nat in *|change (Z.to_nat 1) with 1%nat in *]; cbn [nth_error] in A, A'; congruence.
  Qed.
  Lemma leads_key p keys p1 i k p2 r : In k ["KEY_UP"; "KEY_DOWN"; "KEY_RIGHT"; "KEY_NPAGE"]%string -> leads p keys p1 i -> presses rx f a b m sc k p1 p2 -> selects p1 p2 r ->
    leads p (keys ++ [EvKey (str k) None]) p2 r.
  Proof.
    intros K (F & W & C & PA & PC & _) (W2 & C2 & _) (PA2 & PC2 & X & _).
    split; [apply Forall_app; split; [exact F|apply (moving_one k K)]|]. split; [rewrite (split_wait_more _ _ _ _ W (moving_keys _ F)); apply W2|].
    split; [exact C2|]. split; [congruence|]. split; [congruence|exact X].
  Qed.

  Definition found (p : split) (r : Z) : Prop := exists keys p', leads p keys p' r.

  Section From.
    Variable (p : split) (w : win).
    Hypothesis C : compares a b m sc p.
    Hypothesis A : active p = Some w.

    Lemma leads_at keys p1 i : leads p keys p1 i -> exists w1, active p1 = Some w1 /\ wsel w1 = Some i /\ wroot w1 = wroot w /\ pcoll p1 = pcoll p /\ compares a b m sc p1 /\
      In i (rows (pcoll p) (wroot w)).
    Proof.
      intros L. assert (L' := L). destruct L as (_ & _ & C1 & _ & PC & w1 & A1 & S1). assert (R := leads_root _ _ _ _ _ _ C L' A A1).
      destruct (active_side f a b m len sc OK p1 w1 i C1 A1 S1) as (_ & _ & _ & _ & V & _). exists w1. rewrite R, PC in V. auto 8.
    Qed.

    Lemma found_up1 pre q x post : rows (pcoll p) (wroot w) = pre ++ q :: x :: post -> found p x -> found p q.
    Proof.
      intros E (keys & p1 & L). destruct (leads_at _ _ _ L) as (w1 & A1 & S1 & R1 & PC & C1 & _).
      destruct (press_up rx f a b m len sc OK G LEN "KEY_UP" p1 w1 (pre ++ [q]) x post C1) as (p2 & P & SE); [split; [exact A1|split; [exact S1|rewrite PC, R1, E, <- app_assoc; reflexivity]]|auto|].
      rewrite rev_app_distr in SE. exists (keys ++ [EvKey (str "KEY_UP") None]), p2. eapply leads_key; eauto. cbn [In]. auto.
    Qed.
    Lemma found_up l : forall pre q x post, rows (pcoll p) (wroot w) = pre ++ q :: l ++ x :: post -> found p x -> found p q.
    Proof.
      induction l as [|y l IH] using rev_ind; intros pre q x post E F; [exact (found_up1 _ _ _ _ E F)|].
      apply (IH pre q y (x :: post)); [rewrite E, <- app_assoc; reflexivity|]. apply (found_up1 (pre ++ q :: l) y x post); [rewrite E, <- !app_assoc; reflexivity|exact F].
    Qed.

    Lemma memory_w : in_memory (wroot w).
    Proof.
      destruct C as (_ & _ & _ & _ & (w' & i & A' & S & _) & _). rewrite A in A'. injection A' as <-. apply (active_side f a b m len sc OK p w i C A S).
    Qed.

    Theorem split_reach r : In r (rows (pcoll p) (wroot w)) -> found p r \/ stuck_inside rx f a b m sc p (wroot w).
    Proof.
      assert (FU := found_up). assert (M := memory_w).
      assert (VIS : forall i, found p i -> In i (rows (pcoll p) (wroot w))) by (intros i (keys & p1 & L); destruct (leads_at _ _ _ L) as (? & ? & ? & ? & ? & ? & ?); assumption).
      assert (TOP : found p (nid (wroot w))).
      { destruct C as (_ & _ & _ & _ & (w' & i & A' & S & V) & _). rewrite A in A'. injection A' as <-. assert (F : found p i) by (exists [], p; apply (leads_nil p w i C A S)).
        unfold rows in V. destruct V as [<-|V]; [exact F|]. apply in_split in V. destruct V as (l1 & l2 & V). apply (FU l1 [] _ i l2); [unfold rows; rewrite V; reflexivity|exact F]. }
      apply (any_row (wroot w) (pcoll p) (found p) _ M).
      - exact VIS.
      - exact TOP.
      - intros pre q l x post E F. exact (FU l pre q x post E F).
      - intros i n c l SH ME NC POS F.
        assert (V := VIS i F). destruct F as (keys & p1 & L). destruct (leads_at _ _ _ L) as (w1 & A1 & S1 & R1 & PC & C1 & _).
        destruct (first_after (wroot w) M _ _ _ _ _ SH ME NC V) as (pre & post & E).
        assert (CH : chosen p1 w1 pre i (c :: post)) by (split; [exact A1|split; [exact S1|rewrite PC, R1; exact E]]).
        destruct (Z.eq_dec i (nid n)) as [EI|NI].
        + left. destruct (press_right rx f a b m len sc OK G LEN "KEY_RIGHT" p1 w1 pre i (c :: post) n C1 CH) as (p2 & s & P2 & SE & [Q|[Q _]]); try (rewrite ?R1, ?PC; assumption); [rewrite ME; discriminate|auto| |contradiction].
          rewrite ME in Q. injection Q as <-. exists (keys ++ [EvKey (str "KEY_RIGHT") None]), p2. eapply leads_key; eauto. cbn [In]. auto.
        + destruct POS as [POS|POS]; [contradiction|].
          assert (EN : inside (pcoll p) n = c :: post).
          { destruct POS as (pre' & POS). assert (N := rows_NoDup (wroot w) M (pcoll p)). rewrite POS in N. rewrite POS in E. destruct (NoDup_split _ _ _ _ _ N E) as (_ & Q). exact Q. }
          destruct (press_down rx f a b m len sc OK G LEN "KEY_DOWN" p1 w1 pre i (c :: post) C1 CH (or_intror eq_refl)) as (p2 & s & P2 & SE & Q).
          assert (L2 : leads p (keys ++ [EvKey (str "KEY_DOWN") None]) p2 s) by (eapply leads_key; eauto; cbn [In]; auto).
          destruct Q as [Q|(U & [Q|Q] & _)].
          * cbn [hd] in Q. subst s. left. exists (keys ++ [EvKey (str "KEY_DOWN") None]), p2. exact L2.
          * subst s. right. exists i, n, c, keys, p1, w1, p2.
            split; [split; [exact SH|split; [exact NI|split; [exact NC|split; [rewrite ME; reflexivity|exact POS]]]]|]. split; [exact L|]. split; [exact A1|]. rewrite EN. auto.
          * left. assert (F2 : found p s) by (eexists _, _; exact L2). destruct Q as [<-|Q]; [exact F2|]. apply in_split in Q. destruct Q as (l1 & l2 & Q). rewrite Q in E.
            apply (FU l1 (pre ++ [i]) c s l2); [rewrite E, <- app_assoc; reflexivity|exact F2].
      - intros t x n pre y post T LV E F.
        destruct F as (keys & p1 & L). destruct (leads_at _ _ _ L) as (w1 & A1 & S1 & R1 & PC & C1 & _).
        destruct (press_page_down rx f a b m len sc OK G LEN p1 w1 t x n C1 A1 S1) as (pre' & post' & p2 & E' & P2 & SE); [rewrite R1; exact T|exact LV|].
        assert (post' = y :: post).
        { assert (N := level_NoDup (wroot w) M t T). rewrite E' in N, E. destruct (NoDup_split _ _ _ _ _ N E) as (_ & Q). exact (app_inv_head _ _ _ Q). }
        subst post'. exists (keys ++ [EvKey (str "KEY_NPAGE") None]), p2. eapply leads_key; eauto. cbn [In]. auto.
    Qed.
    Lemma split_reach_all r : (forall i n c, ~ ends_inside (pcoll p) (wroot w) i n c) -> In r (rows (pcoll p) (wroot w)) -> found p r.
    Proof. intros N I. destruct (split_reach r I) as [F|(i & n & c & keys & p' & w' & p'' & E & _)]; [exact F|]. destruct (N i n c E). Qed.
  End From.
End Press.

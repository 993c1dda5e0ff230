(** The top and the bottom line. *)
From Verif Require Export Model.Lines Spec.LineSpec.
From Verif Require Import Proofs.InvProofs Proofs.DocumentProofs Proofs.SplitKeep.
From Verif Require Proofs.SplitMem.
From Coq Require Import Lia ZifyBool.
Open Scope Z_scope.

Lemma int_arg_small x : - 2 ^ 31 <= x < 2 ^ 31 -> int_arg x = x.
Proof. intros H. unfold int_arg. rewrite Z.mod_small by lia. lia. Qed.

Lemma nth_pad (text : bytes) k i d : (length text <= i < length text + k)%nat -> nth i (text ++ repeat " "%char k) d = " "%char.
Proof.
  intros H. rewrite app_nth2 by lia. destruct (nth_in_or_default (i - length text) (repeat " "%char k) d) as [I|E].
  - apply repeat_spec in I. exact I.
  - rewrite nth_indep with (d' := " "%char) by (rewrite repeat_length; lia).
    destruct (nth_in_or_default (i - length text) (repeat " "%char k) " "%char) as [I|E']; [apply repeat_spec in I|]; assumption.
Qed.

(** Printing on line [y] of [w] columns a text that fills the line. *)
Lemma mvprint_line w h y text out g :
  0 < w -> 0 <= y < h -> (Z.to_nat w <= length out)%nat ->
  (forall i, (i < Z.to_nat w)%nat -> nth i out " "%char = nth i text " "%char) ->
  (length out = Z.to_nat w \/ h = y + 1) ->
  line_shows w y text g (mvprint w h y out g).
Proof.
  intros W Y L F X. split.
  - intros col C. unfold mvprint. replace ((y <=? y) && (y <? h) && (0 <=? col) && (col <? w)) with true by lia.
    replace ((y - y) * w + col) with col by lia. rewrite nth_indep with (d' := " "%char) by lia. apply F. lia.
  - intros line col N. unfold mvprint. destruct ((y <=? line) && (line <? h) && (0 <=? col) && (col <? w)) eqn:E; [|reflexivity].
    apply nth_overflow. destruct X as [X|X]; [rewrite X|exfalso; lia].
    assert (1 <= line - y) by lia. assert (w <= (line - y) * w) by nia. lia.
Qed.

Lemma bottom_fits w text : 0 < w < 2 ^ 31 -> Z.of_nat (length text) < 2 ^ 31 ->
  (Z.to_nat w <= length (bottom_text w text))%nat /\
  (forall i, (i < Z.to_nat w)%nat -> nth i (bottom_text w text) " "%char = nth i text " "%char).
Proof.
  intros W L. unfold bottom_text, star_c. rewrite int_arg_small by lia. rewrite app_length, repeat_length. split; [lia|].
  intros i I. destruct (Nat.lt_ge_cases i (length text)) as [J|J]; [apply app_nth1, J|].
  rewrite nth_pad by lia. symmetry. apply nth_overflow, J.
Qed.

Lemma bottom_line w h text g : 0 < w < 2 ^ 31 -> 0 < h -> Z.of_nat (length text) < 2 ^ 31 ->
  line_shows w (h - 1) text g (writeBottomLine w h text g).
Proof. intros W H L. destruct (bottom_fits w text W L) as (A & B). apply mvprint_line; [lia|lia|exact A|exact B|lia]. Qed.

Lemma split_bottom_line w text g : 0 < w < 2 ^ 31 -> Z.of_nat (length text) < 2 ^ 31 ->
  line_shows w 0 text g (split_writeBottomLine w text g).
Proof. intros W L. destruct (bottom_fits w text W L) as (A & B). apply mvprint_line; [lia|lia|exact A|exact B|lia]. Qed.

Lemma top_line w h name g : 0 < w < 2 ^ 31 -> 0 < h -> Z.of_nat (length name) < w ->
  line_shows w 0 name g (writeTopLine w h name g).
Proof.
  intros W H L. unfold writeTopLine, top_text. rewrite firstn_all2 by lia. unfold star_c. rewrite int_arg_small by lia.
  apply mvprint_line; [lia|lia| | |left]; try rewrite app_length, repeat_length; [lia| |lia].
  intros i I. destruct (Nat.lt_ge_cases i (length name)) as [J|J]; [apply app_nth1, J|]. rewrite nth_pad by lia. symmetry. apply nth_overflow, J.
Qed.

Lemma nth_firstn_lt {A} (l : list A) n i d : (i < n)%nat -> nth i (firstn n l) d = nth i l d.
Proof. revert n i. induction l as [|x l IH]; intros [|n] [|i] H; cbn; try lia; try reflexivity. apply IH. lia. Qed.

(** A longer name is shown as far as the line goes; a blank is printed on the
    next line. *)
Lemma top_line_long w h name g : 0 < w < 2 ^ 31 -> 1 < h -> w <= Z.of_nat (length name) ->
  line_shows w 0 name (fun line col => if (line =? 1) && (col =? 0) then " "%char else g line col) (writeTopLine w h name g).
Proof.
  intros W H L. unfold writeTopLine, top_text. rewrite firstn_length. replace (Z.of_nat (Nat.min (Z.to_nat w) (length name))) with w by lia.
  replace (w - w) with 0 by lia. rewrite int_arg_small by lia. change (star_c 0) with [" "%char].
  assert (LE : length (firstn (Z.to_nat w) name) = Z.to_nat w) by (rewrite firstn_length; lia). split.
  - intros col C. unfold mvprint. replace ((0 <=? 0) && (0 <? h) && (0 <=? col) && (col <? w)) with true by lia.
    replace ((0 - 0) * w + col) with col by lia. rewrite app_nth1 by lia. rewrite nth_indep with (d' := " "%char) by lia. apply nth_firstn_lt. lia.
  - intros line col N. unfold mvprint. destruct ((0 <=? line) && (line <? h) && (0 <=? col) && (col <? w)) eqn:E.
    + destruct ((line =? 1) && (col =? 0)) eqn:E1.
      * replace ((line - 0) * w + col) with w by lia. rewrite app_nth2 by lia. replace (Z.to_nat w - length (firstn (Z.to_nat w) name))%nat with O by lia. reflexivity.
      * apply nth_overflow. rewrite app_length, LE. cbn [length]. assert (1 <= line) by lia. assert (w + 1 <= (line - 0) * w + col) by nia. lia.
    + destruct ((line =? 1) && (col =? 0)) eqn:E1; [exfalso; lia|reflexivity].
Qed.

Lemma split_top_line w h name g : 2 < w < 2 ^ 31 -> 0 < h ->
  line_shows (w - 2) 0 name g (split_writeTopLine w h name g).
Proof.
  intros W H. unfold split_writeTopLine, split_top_text. rewrite firstn_length.
  destruct (Z.of_nat (Nat.min (Z.to_nat (w - 2)) (length name)) =? w - 2) eqn:E.
  - apply mvprint_line; [lia|lia| | |left]; try (rewrite firstn_length; lia). intros i I. apply nth_firstn_lt, I.
  - rewrite firstn_all2 by lia. unfold star_c. rewrite Nat.min_r by lia. rewrite int_arg_small by lia.
    apply mvprint_line; [lia|lia| | |left]; try (rewrite app_length, repeat_length; lia).
    intros i I. destruct (Nat.lt_ge_cases i (length name)) as [J|J]; [apply app_nth1, J|]. rewrite nth_pad by lia. symmetry. apply nth_overflow, J.
Qed.

(** * What the bottom line says: the view of one document *)
Section Simple.
  Variable (rx : bytes -> bool -> bytes -> bool) (root : node).

  Lemma wait_line_wait : forall evs sc v stop b, fst (wait_line rx root sc v stop b evs) = wait rx root sc v stop evs.
  Proof.
    induction evs as [|[k p|w hh|] t IH]; intros sc v stop b; cbn [wait_line wait]; [reflexivity| | |apply IH].
    - destruct (evalKey root rx sc k p v) as [[[] v']|]; try reflexivity;
        try (destruct (redraw_loop root (fuel_of root) sc v'); [|reflexivity]); destruct stop; try reflexivity; apply IH.
    - destruct (redraw_loop root (fuel_of root) (mkScreen w hh (slen sc)) v); [apply IH|reflexivity].
  Qed.
  Lemma run_line_run evs sc v : fst (run_line rx root sc v evs) = run rx root sc v evs.
  Proof. unfold run_line, run. destruct (redraw_loop _ _ _ _); [apply wait_line_wait|reflexivity]. Qed.

  Ltac cases H :=
    repeat match type of H with
    | (if ?b then _ else _) = Some _ => destruct b eqn:?
    | obind ?x _ = Some _ => let E := fresh "E" in destruct x as [?|] eqn:E; cbn [obind] in H; [|discriminate]
    | (match ?x with _ => _ end) = Some _ => destruct x eqn:?
    end.

  Lemma quiet_keys sc k p v v' : beqb k (str "/") = false -> beqb k (str "N") = false -> evalKey root rx sc k p v = Some (NextInput, v') -> v' = v.
  Proof.
    intros K1 K2 H. unfold evalKey in H. rewrite K1, K2 in H.
    unfold selectUp, selectDown, selectPUp, selectPDown, expandSelection, collapseSelection in H.
    cases H; congruence.
  Qed.

  Lemma next_line_true sc v v' : nextResult root sc v = Some (NextInput, v') -> forall b, truthful v' (next_line root v b).
  Proof.
    unfold nextResult, next_line. destruct (vres v) as [|r l] eqn:R; intros H b.
    - destruct (redraw root sc v) as [[x y]|] eqn:E; [|discriminate]. injection H as <-. destruct (redraw_same root _ _ _ _ E) as (_ & _ & Q).
      left. split; [reflexivity|congruence].
    - destruct (snd (jump (r :: l) (vsel v) root false)) as [q|].
      { destruct (unfold _ _ _ _); discriminate. }
      destruct (unfold _ _ _ _) as [c|]; [|discriminate]. cbn [obind] in H.
      destruct (redraw root sc _) as [[x y]|] eqn:E; [|discriminate]. injection H as <-. destruct (redraw_same root _ _ _ _ E) as (Q1 & _ & Q2).
      right. split; [reflexivity|]. exists r, l. split; [rewrite Q2; exact R|rewrite Q1; reflexivity].
  Qed.

  Lemma key_line_true sc k p v v' b : truthful v b -> evalKey root rx sc k p v = Some (NextInput, v') -> truthful v' (key_line rx root k p v b).
  Proof.
    intros T H. unfold key_line. destruct (beqb k (str "/")) eqn:K1.
    - apply beqb_eq in K1. subst k. change (initSearch root rx p sc v = Some (NextInput, v')) in H. unfold initSearch in H. unfold search_line.
      destruct p as [p|]; [|discriminate]. destruct (isEmpty p); [discriminate|]. apply (next_line_true _ _ _ H).
    - destruct (beqb k (str "N")) eqn:K2.
      + apply beqb_eq in K2. subst k. change (nextResult root sc v = Some (NextInput, v')) in H. apply (next_line_true _ _ _ H).
      + rewrite (quiet_keys _ _ _ _ _ K1 K2 H). exact T.
  Qed.

  Lemma wait_line_true : forall evs sc v stop b sc' v' stop' b', truthful v b -> wait_line rx root sc v stop b evs = (Waiting sc' v' stop', b') -> truthful v' b'.
  Proof.
    induction evs as [|[k p|w hh|] t IH]; intros sc v stop b sc' v' stop' b' T H; cbn [wait_line] in H.
    - injection H as _ <- _ <-. exact T.
    - destruct (evalKey root rx sc k p v) as [[o v1]|] eqn:E; [|discriminate]. destruct o; try discriminate.
      3: destruct stop; [discriminate|]; refine (IH _ _ _ _ _ _ _ _ _ H); apply (key_line_true _ _ _ _ _ _ T E).
      all: destruct (redraw_loop root (fuel_of root) sc v1); [|discriminate]; destruct stop; [discriminate|]; refine (IH _ _ _ _ _ _ _ _ _ H); exact I.
    - destruct (redraw_loop _ _ _ _); [|discriminate]. refine (IH _ _ _ _ _ _ _ _ _ H). exact I.
    - refine (IH _ _ _ _ _ _ _ _ _ H). exact T.
  Qed.

  Lemma run_line_true sc v evs sc' v' stop' b' : run_line rx root sc v evs = (Waiting sc' v' stop', b') -> truthful v' b'.
  Proof. unfold run_line. destruct (redraw_loop _ _ _ _); [|discriminate]. apply wait_line_true. exact I. Qed.

  (** * When a message is shown *)
  Section Pressed.
    Hypothesis M : in_memory root.
    Lemma next_line_is sc v i b o v' : vsel v = Some i -> In i (rows [] root) -> incl (vres v) (map fst (items (nid root) root)) ->
      nextResult root sc v = Some (o, v') ->
      says_of (vres v) (rows_after i (rows [] root)) (match o with NextInput => next_line root v b | _ => Blank end).
    Proof.
      intros S R F H. unfold nextResult in H. unfold next_line. unfold says_of.
      assert (J := jump_next root M (vres v) i F R). rewrite <- S in J. destruct (vres v) as [|r l] eqn:RS.
      { destruct (redraw root sc v) as [[x y]|]; [|discriminate]. injection H as <- _. reflexivity. }
      rewrite J in H |- *. destruct (find _ _) as [q|] eqn:FD.
      - apply find_some in FD. destruct FD as (I1 & I2). apply existsb_exists in I2. destruct I2 as (q' & I2 & Q). apply Z.eqb_eq in Q. subst q'.
        split; [|intros N; exfalso; exact (N q I2 I1)]. intros _. destruct (unfold _ _ _ _); [|discriminate]. injection H as <- _. reflexivity.
      - split; [intros (q & I1 & I2); exfalso|].
        { assert (N := find_none _ _ FD q I2). cbn in N. assert (T : existsb (Z.eqb q) (r :: l) = true) by (apply existsb_exists; exists q; split; [exact I1|apply Z.eqb_refl]). cbn in T. congruence. }
        intros _. destruct (unfold _ _ _ _); [|discriminate]. cbn [obind] in H. destruct (redraw root sc _) as [[x y]|]; [|discriminate]. injection H as <- _. reflexivity.
    Qed.

    Lemma press_next sc v i b p sc' v' stop' b' : vsel v = Some i -> In i (rows [] root) -> incl (vres v) (map fst (items (nid root) root)) ->
      wait_line rx root sc v false b [EvKey (str "N") p] = (Waiting sc' v' stop', b') ->
      says_of (vres v) (rows_after i (rows [] root)) b'.
    Proof.
      intros S R F H. cbn [wait_line] in H. change (evalKey root rx sc (str "N") p v) with (nextResult root sc v) in H.
      change (key_line rx root (str "N") p v b) with (next_line root v b) in H.
      destruct (nextResult root sc v) as [[o v1]|] eqn:E; [|discriminate]. assert (Q := next_line_is sc v i b o v1 S R F E).
      destruct o; try discriminate; try (destruct (redraw_loop _ _ _ _); [|discriminate]); injection H as _ _ _ <-; exact Q.
    Qed.

    Lemma press_search sc v i b p sc' v' stop' b' : vsel v = Some i -> In i (rows [] root) ->
      wait_line rx root sc v false b [EvKey (str "/") p] = (Waiting sc' v' stop', b') ->
      match p with
      | None => b' = Blank
      | Some q =>
          if isEmpty q then b' = Blank
          else says_of (map fst (filter (fun x => match snd x with
                                      | Scalar a => match_ rx q (tree_string (TPrim a)) (EPrim a)
                                      | Key k => match_ rx q k SearchPattern.EEntry
                                      end) (items (nid root) root))) (rows_after i (rows [] root)) b'
      end.
    Proof.
      intros S R H. cbn [wait_line] in H. change (evalKey root rx sc (str "/") p v) with (initSearch root rx p sc v) in H.
      change (key_line rx root (str "/") p v b) with (search_line rx root p v) in H.
      destruct p as [q|]; cbn [initSearch search_line] in H.
      2:{ destruct (redraw_loop _ _ _ _); [|discriminate]. injection H as _ _ _ <-. reflexivity. }
      destruct (isEmpty q); [destruct (redraw_loop _ _ _ _); [|discriminate]; injection H as _ _ _ <-; reflexivity|].
      assert (SF := search_found root M rx q).
      assert (SI := search_items root M (fun e => match_ rx q (etext e) (Navigation.ekind e)) (fun x => match x with Scalar a => match_ rx q (tree_string (TPrim a)) (EPrim a) | Key k => match_ rx q k SearchPattern.EEntry end) (fun _ _ => eq_refl) (fun _ _ _ => eq_refl)).
      change (mem_of root) with (elems root) in *.
      set (v1 := set_res v _) in H. 
      destruct (nextResult root sc v1) as [[o v2]|] eqn:E; [|discriminate].
      assert (Q := next_line_is sc v1 i Typed o v2 S R SF E). rewrite <- SI. 
      destruct o; try discriminate; try (destruct (redraw_loop _ _ _ _); [|discriminate]); injection H as _ _ _ <-; exact Q.
    Qed.
  End Pressed.

  Lemma press_other sc v stop b e sc' v' stop' b' : (forall p, e <> EvKey (str "/") p) -> (forall p, e <> EvKey (str "N") p) ->
    wait_line rx root sc v stop b [e] = (Waiting sc' v' stop', b') -> b' = Blank \/ b' = b /\ v' = v.
  Proof.
    intros N1 N2 H. destruct e as [k p|w hh|]; cbn [wait_line] in H.
    - unfold key_line in H. destruct (beqb k (str "/")) eqn:K1; [apply beqb_eq in K1; subst k; destruct (N1 p eq_refl)|].
      destruct (beqb k (str "N")) eqn:K2; [apply beqb_eq in K2; subst k; destruct (N2 p eq_refl)|].
      destruct (evalKey root rx sc k p v) as [[o v1]|] eqn:E; [|discriminate].
      destruct o; try discriminate; try (destruct (redraw_loop _ _ _ _); [|discriminate]); (destruct stop; [discriminate|]).
      3: injection H as _ <- _ <-; right; split; [reflexivity|]; apply (quiet_keys _ _ _ _ _ K1 K2 E).
      all: injection H as _ _ _ <-; left; reflexivity.
    - destruct (redraw_loop _ _ _ _); [|discriminate]. injection H as _ _ _ <-. left. reflexivity.
    - injection H as _ <- _ <-. right. split; reflexivity.
  Qed.
End Simple.

(** * The comparison *)
Lemma bind_done {A B} (x : out A) (f : A -> out B) r : bind x f = Done r -> exists a, x = Done a /\ f a = Done r.
Proof. destruct x as [a|]; [|discriminate]. intros H. exists a. split; [reflexivity|exact H]. Qed.

Section Split.
  Variable (h : list elem) (dm : mat) (rx : bytes -> bool -> bytes -> bool).

  Lemma at_nth p i w : at_ p i = Done w -> 0 <= i /\ nth_error (pwins p) (Z.to_nat i) = Some w.
  Proof. unfold at_. destruct (i <? 0) eqn:E; [discriminate|]. destruct (nth_error _ _); [|discriminate]. intros [= ->]. split; [lia|reflexivity]. Qed.

  Lemma set_sel_nth p s w : 0 <= pact p -> nth_error (pwins p) (Z.to_nat (pact p)) = Some w ->
    nth_error (pwins (setSelection dm p s)) (Z.to_nat (pact p)) = Some (set_wsel w s s).
  Proof.
    intros P. unfold setSelection. cbn [pwins].
    assert (G : forall ws k, 0 <= k <= pact p -> nth_error ws (Z.to_nat (pact p - k)) = Some w ->
      nth_error ((fix go (i : Z) (ws : list win) : list win :=
          match ws with
          | [] => []
          | w :: t =>
              (if i =? pact p then set_wsel w s s
               else set_wsel w (equivalent dm s) (match equivalent dm s with Some x => Some x | None => wlast w end)) :: go (i + 1) t
          end) k ws) (Z.to_nat (pact p - k)) = Some (set_wsel w s s)).
    { induction ws as [|x ws IH]; intros k K H; [destruct (Z.to_nat (pact p - k)); discriminate|].
      destruct (k =? pact p) eqn:E.
      - apply Z.eqb_eq in E. replace (pact p - k) with 0 in * by lia. cbn in *. congruence.
      - apply Z.eqb_neq in E. replace (Z.to_nat (pact p - k)) with (S (Z.to_nat (pact p - (k + 1)))) in * by lia. cbn [nth_error] in *. apply IH; [lia|exact H]. }
    intros H. specialize (G (pwins p) 0 ltac:(lia)). replace (pact p - 0) with (pact p) in G by lia. apply G, H.
  Qed.

  Lemma once_nth sc p p' w : redraw_once h dm sc p = Done p' -> nth_error (pwins p) (Z.to_nat (pact p)) = Some w ->
    pact p' = pact p /\ exists w', nth_error (pwins p') (Z.to_nat (pact p')) = Some w' /\ wres w' = wres w /\ wsel w' = wsel w.
  Proof.
    intros H N. unfold redraw_once in H. apply bind_done in H. destruct H as (r & H & E). injection E as <-. split; [reflexivity|]. cbn [pwins pact].
    assert (C := redraw_core h sc (pcoll p) dm (pwins p)). rewrite H in C. cbn in C.
    assert (Q : nth_error (map core (snd r)) (Z.to_nat (pact p)) = Some (core w)) by (rewrite C; apply map_nth_error, N).
    rewrite nth_error_map in Q. destruct (nth_error (snd r) (Z.to_nat (pact p))) as [w'|]; [|discriminate]. exists w'. split; [reflexivity|].
    injection Q as _ Q1 _ Q2. auto.
  Qed.

  Lemma split_next_says sc p p' b b' o : split_next_line p b = Done b' -> split_next h dm sc p = Done (o, p') ->
    o = Redraw /\ b' = b \/ o = NextInput /\ truthful_now p' b'.
  Proof.
    unfold split_next_line, split_next. intros HB H. apply bind_done in H. destruct H as (w & A & H). rewrite A in HB. cbn [bind] in HB.
    destruct (at_nth _ _ _ A) as (P & N). destruct (wres w) as [|first l] eqn:R.
    - apply bind_done in H. destruct H as (q & H & E). injection E as <- <-. injection HB as <-. right. split; [reflexivity|].
      destruct (once_nth _ _ _ _ H N) as (_ & w' & N' & Q & _). exists w'. split; [exact N'|]. left. split; [reflexivity|congruence].
    - destruct (snd (jump2 _ _ _ _ _)) as [r|].
      + apply bind_done in H. destruct H as (c & _ & E). injection E as <- <-. injection HB as <-. left. auto.
      + apply bind_done in H. destruct H as (c & _ & H). apply bind_done in H. destruct H as (q & H & E). injection E as <- <-. injection HB as <-.
        right. split; [reflexivity|]. assert (N1 := set_sel_nth p (Some first) w P N).
        destruct (once_nth _ _ _ _ H N1) as (_ & w' & N' & Q1 & Q2). exists w'. split; [exact N'|]. right. split; [reflexivity|]. exists first, l. rewrite Q1, Q2. split; [exact R|reflexivity].
  Qed.

  Lemma split_wait_line_wait fuel : forall evs sc p stop b r, split_wait_line h dm rx fuel sc p stop b evs = Done r -> split_wait h dm rx fuel sc p stop evs = Done (fst r).
  Proof.
    induction evs as [|[k q|w hh|] t IH]; intros sc p stop b r H; cbn [split_wait_line split_wait] in *.
    - injection H as <-. reflexivity.
    - apply bind_done in H. destruct H as (b1 & _ & H). apply bind_done in H. destruct H as ([o p1] & E & H). rewrite E. cbn [bind].
      destruct o; try (apply bind_done in H; destruct H as (p2 & E2 & H); rewrite E2; cbn [bind]); try (destruct stop); try (injection H as <-; reflexivity); eapply IH, H.
    - apply bind_done in H. destruct H as (p2 & E2 & H). rewrite E2. cbn [bind]. eapply IH, H.
    - eapply IH, H.
  Qed.

  (** The line is written whenever the comparison goes on. *)
  Lemma split_key_says sc k q p b r : split_key h dm rx sc k q p = Done r -> exists b', split_key_line h rx k q p b = Done b'.
  Proof.
    intros H. unfold split_key_line. 
    assert (NX : forall p r, split_next h dm sc p = Done r -> forall b, exists b', split_next_line p b = Done b').
    { clear. intros p r H b. unfold split_next in H. unfold split_next_line. apply bind_done in H. destruct H as (w & A & _). rewrite A. cbn [bind].
      destruct (wres w); [eexists; reflexivity|]. destruct (snd (jump2 _ _ _ _ _)); eexists; reflexivity. }
    destruct (beqb k (str "/")) eqn:K1.
    - apply beqb_eq in K1. subst k. change (split_search h dm rx q sc p = Done r) in H. unfold split_search in H. unfold split_search_line.
      destruct q as [q|]; [|eexists; reflexivity]. destruct (isEmpty q); [eexists; reflexivity|].
      apply bind_done in H. destruct H as (w & A & H). rewrite A. cbn [bind]. apply (NX _ _ H).
    - destruct (beqb k (str "N")) eqn:K2; [|eexists; reflexivity]. apply beqb_eq in K2. subst k. apply (NX _ _ H).
  Qed.

  (** A key other than the two of the search that draws nothing changes nothing. *)
  Lemma split_quiet sc k q p p' : beqb k (str "/") = false -> beqb k (str "N") = false -> split_key h dm rx sc k q p = Done (NextInput, p') -> p' = p.
  Proof.
    intros K1 K2 H. unfold split_key in H. rewrite K1, K2 in H.
    unfold split_up, split_down, split_pup, split_pdown, split_expand, split_collapse, split_down, changeWindow in H.
    repeat (match type of H with
      | (if ?x then _ else _) = _ => destruct x
      | (match ?x with _ => _ end) = _ => destruct x
      | bind ?x _ = _ => apply bind_done in H; destruct H as (? & ? & H)
      end; try discriminate H); congruence.
  Qed.

  Lemma split_key_true sc k q p b b' o p' : b = Blank \/ truthful_now p b -> split_key_line h rx k q p b = Done b' -> split_key h dm rx sc k q p = Done (o, p') ->
    o = NextInput -> b' = Blank \/ truthful_now p' b'.
  Proof.
    intros T HB E ->. unfold split_key_line in HB. destruct (beqb k (str "/")) eqn:K1.
    - apply beqb_eq in K1. subst k. change (split_search h dm rx q sc p = Done (NextInput, p')) in E. unfold split_search in E. unfold split_search_line in HB.
      destruct q as [q|]; [|discriminate]. destruct (isEmpty q); [discriminate|].
      apply bind_done in E. destruct E as (w & A & E). rewrite A in HB. cbn [bind] in HB.
      destruct (split_next_says _ _ _ _ _ _ HB E) as [(X & _)|(_ & X)]; [discriminate|right; exact X].
    - destruct (beqb k (str "N")) eqn:K2.
      + apply beqb_eq in K2. subst k. change (split_next h dm sc p = Done (NextInput, p')) in E.
        destruct (split_next_says _ _ _ _ _ _ HB E) as [(X & _)|(_ & X)]; [discriminate|right; exact X].
      + injection HB as <-. rewrite (split_quiet _ _ _ _ _ K1 K2 E). exact T.
  Qed.

  Lemma split_wait_true fuel : forall evs sc p stop b sc' p' b', b = Blank \/ truthful_now p b ->
    split_wait_line h dm rx fuel sc p stop b evs = Done (Waits sc' p', b') -> b' = Blank \/ truthful_now p' b'.
  Proof.
    induction evs as [|[k q|w hh|] t IH]; intros sc p stop b sc' p' b' T H; cbn [split_wait_line] in H.
    - injection H as _ <- <-. exact T.
    - apply bind_done in H. destruct H as (b1 & HB & H). apply bind_done in H. destruct H as ([o p1] & E & H). destruct o.
      + apply bind_done in H. destruct H as (p2 & _ & H). destruct stop; [discriminate|]. refine (IH _ _ _ _ _ _ _ _ H). left. reflexivity.
      + apply bind_done in H. destruct H as (p2 & _ & H). destruct stop; [discriminate|]. refine (IH _ _ _ _ _ _ _ _ H). left. reflexivity.
      + discriminate.
      + destruct stop; [discriminate|]. refine (IH _ _ _ _ _ _ _ _ H). apply (split_key_true _ _ _ _ _ _ _ _ T HB E eq_refl).
    - apply bind_done in H. destruct H as (p2 & _ & H). refine (IH _ _ _ _ _ _ _ _ H). left. reflexivity.
    - refine (IH _ _ _ _ _ _ _ _ H). exact T.
  Qed.

  Lemma split_other fuel sc p stop b e sc' p' b' : (forall q, e <> EvKey (str "/") q) -> (forall q, e <> EvKey (str "N") q) ->
    split_wait_line h dm rx fuel sc p stop b [e] = Done (Waits sc' p', b') -> b' = Blank \/ b' = b /\ p' = p.
  Proof.
    intros N1 N2 H. destruct e as [k q|w hh|]; cbn [split_wait_line] in H.
    - apply bind_done in H. destruct H as (b1 & HB & H). apply bind_done in H. destruct H as ([o p1] & E & H).
      unfold split_key_line in HB. destruct (beqb k (str "/")) eqn:K1; [apply beqb_eq in K1; subst k; destruct (N1 _ eq_refl)|].
      destruct (beqb k (str "N")) eqn:K2; [apply beqb_eq in K2; subst k; destruct (N2 _ eq_refl)|]. injection HB as <-. destruct o.
      + apply bind_done in H. destruct H as (p2 & _ & H). destruct stop; [discriminate|]. injection H as _ _ <-. left. reflexivity.
      + apply bind_done in H. destruct H as (p2 & _ & H). destruct stop; [discriminate|]. injection H as _ _ <-. left. reflexivity.
      + discriminate.
      + destruct stop; [discriminate|]. injection H as _ <- <-. right. split; [reflexivity|]. apply (split_quiet _ _ _ _ _ K1 K2 E).
    - apply bind_done in H. destruct H as (p2 & _ & H). injection H as _ _ <-. left. reflexivity.
    - injection H as _ <- <-. right. auto.
  Qed.

  Lemma jump2_jump res sel n : forall f, jump2 res sel sel n f = jump res sel n f.
  Proof.
    induction n as [m p|m l IH|m l IH] using node_ind'; intros f; [reflexivity| |]; cbn [jump2 jump].
    - generalize (sel_is sel (mid m) || f). induction IH as [|x l Hx Hl IHl]; intros g; [reflexivity|]. rewrite Hx. destruct (jump res sel x g) as [g' [r|]]; [reflexivity|apply IHl].
    - generalize (sel_is sel (mid m) || f). induction IH as [|x l Hx Hl IHl]; intros g; [reflexivity|].
      change (jump2_here res sel sel (mid (fst (fst x))) g) with (jump_here res sel (mid (fst (fst x))) g).
      destruct (jump_here res sel (mid (fst (fst x))) g) as [g' [r|]]; [reflexivity|]. rewrite Hx. destruct (jump res sel (snd x) g') as [g2 [r|]]; [reflexivity|apply IHl].
  Qed.
  Lemma hop_ext res res' sel l : (forall x, In x l -> mem (fst x) res = mem (fst x) res') -> forall f, hop res sel l f = hop res' sel l f.
  Proof.
    induction l as [|[x t] l IH]; intros E f; [reflexivity|]. cbn [hop]. assert (EX := E (x, t) (or_introl eq_refl)). cbn [fst] in EX. rewrite EX.
    match goal with |- (if ?c then _ else _) = _ => destruct c; [reflexivity|] end. apply IH. intros y I. apply E. right. exact I.
  Qed.

  (** The next result of a window, the results of the other document left aside. *)
  Lemma jump2_next root res i : in_memory root -> (forall r, In r res -> In r (map fst (items (nid root) root)) \/ ~ In r (ids root)) -> In i (rows [] root) ->
    snd (jump2 res (Some i) (Some i) root false) = find (fun x => existsb (Z.eqb x) res) (rows_after i (rows [] root)).
  Proof.
    intros M R I. set (here := map fst (items (nid root) root)) in *. set (res' := filter (fun r => mem r here) res).
    assert (A : forall x, In x (ids root) -> mem x res = mem x res').
    { intros x X. apply eq_iff_eq_true. rewrite !mem_In. unfold res'. rewrite filter_In, mem_In. split; [|tauto]. intros Y. split; [exact Y|]. destruct (R x Y); [assumption|contradiction]. }
    rewrite jump2_jump, jump_hop, (hop_ext res res').
    2:{ intros x X. apply A. rewrite <- visits_ids. apply in_map, X. }
    rewrite <- jump_hop, (jump_next root M res' i); [|intros r J; apply filter_In in J; apply mem_In, J|exact I].
    assert (SU : forall x, In x (rows_after i (rows [] root)) -> In x (ids root)).
    { intros x X. apply (rows_ids root []). revert X. generalize (rows [] root). induction l as [|y l IH]; [intros []|]. cbn [rows_after]. destruct (y =? i); [intros X; right; exact X|intros X; right; apply IH, X]. }
    revert SU. induction (rows_after i (rows [] root)) as [|x l IH]; intros SU; [reflexivity|]. cbn [find].
    change (existsb (Z.eqb x) res) with (mem x res). change (existsb (Z.eqb x) res') with (mem x res'). rewrite (A x (SU x (or_introl eq_refl))).
    destruct (mem x res'); [reflexivity|]. apply IH. intros y Y. apply SU. right. exact Y.
  Qed.

  Lemma split_next_is sc p p' b b' o w i : at_ p (pact p) = Done w -> in_memory (wroot w) -> wsel w = Some i -> wlast w = Some i -> In i (rows [] (wroot w)) ->
    (forall r, In r (wres w) -> In r (map fst (items (nid (wroot w)) (wroot w))) \/ ~ In r (ids (wroot w))) ->
    split_next_line p b = Done b' -> split_next h dm sc p = Done (o, p') ->
    says_of (wres w) (rows_after i (rows [] (wroot w))) (match o with NextInput => b' | _ => Blank end).
  Proof.
    intros A M S L I R HB H. unfold split_next_line in HB. unfold split_next in H. rewrite A in HB, H. cbn [bind] in HB, H.
    assert (J := jump2_next (wroot w) (wres w) i M R I). unfold says_of. destruct (wres w) as [|first l] eqn:RS.
    - apply bind_done in H. destruct H as (q & _ & E). injection E as <- _. injection HB as <-. reflexivity.
    - rewrite S, L, J in HB, H. destruct (find _ _) as [r|] eqn:FD.
      + apply bind_done in H. destruct H as (c & _ & E). injection E as <- _. apply find_some in FD. destruct FD as (I1 & I2). apply existsb_exists in I2. destruct I2 as (q' & I2 & Q). apply Z.eqb_eq in Q. subst q'.
        split; [reflexivity|]. intros N. destruct (N r I2 I1).
      + apply bind_done in H. destruct H as (c & _ & H). apply bind_done in H. destruct H as (q & _ & E). injection E as <- _. injection HB as <-.
        split; [|reflexivity]. intros (r & I1 & I2). assert (X := find_none _ _ FD r I2). cbn beta in X. assert (Y : existsb (Z.eqb r) (first :: l) = true) by (apply existsb_exists; exists r; split; [exact I1|apply Z.eqb_refl]). congruence.
  Qed.

  Lemma split_press_next fuel sc p b q sc' p' b' w i : 0 <= pact p -> nth_error (pwins p) (Z.to_nat (pact p)) = Some w -> in_memory (wroot w) -> wsel w = Some i -> wlast w = Some i -> In i (rows [] (wroot w)) ->
    (forall r, In r (wres w) -> In r (map fst (items (nid (wroot w)) (wroot w))) \/ ~ In r (ids (wroot w))) ->
    split_wait_line h dm rx fuel sc p false b [EvKey (str "N") q] = Done (Waits sc' p', b') -> says_of (wres w) (rows_after i (rows [] (wroot w))) b'.
  Proof.
    intros P A0 M S L I R H. assert (A : at_ p (pact p) = Done w) by (unfold at_; replace (pact p <? 0) with false by lia; rewrite A0; reflexivity).
    cbn [split_wait_line] in H. apply bind_done in H. destruct H as (b1 & HB & H). apply bind_done in H. destruct H as ([o p1] & E & H).
    change (split_next h dm sc p = Done (o, p1)) in E. change (split_next_line p b = Done b1) in HB.
    assert (X := split_next_is _ _ _ _ _ _ _ _ A M S L I R HB E).
    destruct o; try (apply bind_done in H; destruct H as (p2 & _ & H)); try discriminate; injection H as _ _ <-; exact X.
  Qed.
End Split.

Section SplitRun.
  Variable (rx : bytes -> bool -> bytes -> bool).
  Lemma split_wait_has_line h dm fuel : forall evs sc p stop b e, split_wait h dm rx fuel sc p stop evs = Done e -> exists b', split_wait_line h dm rx fuel sc p stop b evs = Done (e, b').
  Proof.
    induction evs as [|[k q|w hh|] t IH]; intros sc p stop b e H; cbn [split_wait_line split_wait] in *.
    - injection H as <-. eexists. reflexivity.
    - apply bind_done in H. destruct H as ([o p1] & E & H). destruct (split_key_says h dm rx _ _ _ _ b _ E) as (b1 & EB). rewrite EB, E. cbn [bind].
      destruct o; try (apply bind_done in H; destruct H as (p2 & E2 & H); rewrite E2; cbn [bind]); try (destruct stop); try (injection H as <-; eexists; reflexivity); apply (IH _ _ _ _ _ H).
    - apply bind_done in H. destruct H as (p2 & E2 & H). rewrite E2. cbn [bind]. apply (IH _ _ _ _ _ H).
    - apply (IH _ _ _ _ _ H).
  Qed.
  Lemma split_run_line_run fuel len w hh a b evs e : split_run rx fuel len w hh a b evs = Done e <-> exists l, split_run_line rx fuel len w hh a b evs = Done (e, l).
  Proof.
    unfold split_run, split_run_line. destruct (build a b) as [dm|]; [|split; [discriminate|intros (l & H); discriminate]]. cbv zeta. split.
    - intros H. apply bind_done in H. destruct H as (p2 & E2 & H). rewrite E2. cbn [bind]. apply (split_wait_has_line _ _ _ _ _ _ _ _ _ H).
    - intros (l & H). apply bind_done in H. destruct H as (p2 & E2 & H). rewrite E2. cbn [bind]. apply (split_wait_line_wait _ _ _ _ _ _ _ _ _ _ H).
  Qed.
  Lemma split_run_true fuel len w hh a b evs sc p l : split_run_line rx fuel len w hh a b evs = Done (Waits sc p, l) -> l = Blank \/ truthful_now p l.
  Proof.
    unfold split_run_line. destruct (build a b) as [dm|]; [|discriminate]. cbv zeta. intros H. apply bind_done in H. destruct H as (p2 & _ & H).
    refine (split_wait_true _ _ _ _ _ _ _ _ _ _ _ _ _ H). left. reflexivity.
  Qed.

  Lemma search_h root h mt n : in_memory root -> (forall i, In i (ids root) -> lookup h i = lookup (elems root) i) -> incl (elems n) (elems root) ->
    search h mt n = search (elems root) mt n.
  Proof.
    intros M LK. assert (HT : forall e, In e (elems root) -> hits h mt e = hits (elems root) mt e).
    { intros e I. unfold hits. destruct (mt e); [|reflexivity]. destruct (epar e) as [p|] eqn:E; [|reflexivity].
      rewrite (SplitMem.is_entry_h root h LK p); [reflexivity|]. apply (SplitMem.parent_id root M e p I E). }
    induction n as [m p|m l IH|m l IH] using node_ind'; intros S; cbn [search].
    - apply HT, S. left. reflexivity.
    - assert (S' : incl (flat_map elems l) (elems root)) by (intros e I; apply S; right; exact I). clear S. induction IH as [|x l Hx Hl IHl]; [reflexivity|]. cbn [flat_map] in *.
      rewrite Hx by (intros e I; apply S', in_or_app; left; exact I). f_equal. apply IHl. intros e I. apply S', in_or_app. right. exact I.
    - assert (S' : incl (flat_map (fun x => EEntry (fst (fst x)) (snd (fst x)) (snd x) :: elems (snd x)) l) (elems root)) by (intros e I; apply S; right; exact I). clear S.
      induction IH as [|x l Hx Hl IHl]; [reflexivity|]. cbn [flat_map] in *. rewrite HT by (apply S'; left; reflexivity).
      rewrite Hx by (intros e I; apply S'; right; apply in_or_app; left; exact I). f_equal. apply IHl. intros e I. apply S'. right. apply in_or_app. right. exact I.
  Qed.

  Lemma split_press_search dm fuel a b sc p w0 w1 l q sc' p' l' w i : in_memory a -> in_memory b -> NoDup (ids a ++ ids b) ->
    pwins p = [w0; w1] -> wroot w0 = a -> wroot w1 = b ->
    nth_error (pwins p) (Z.to_nat (pact p)) = Some w -> 0 <= pact p -> wsel w = Some i -> wlast w = Some i -> In i (rows [] (wroot w)) ->
    split_wait_line (split_memory a b) dm rx fuel sc p false l [EvKey (str "/") q] = Done (Waits sc' p', l') ->
    match q with
    | None => l' = Blank
    | Some q => if isEmpty q then l' = Blank else says_of (matching rx q a ++ matching rx q b) (rows_after i (rows [] (wroot w))) l'
    end.
  Proof.
    intros MA MB D W R0 R1 NW P S L I H. cbn [split_wait_line] in H. apply bind_done in H. destruct H as (b1 & HB & H). apply bind_done in H. destruct H as ([o p1] & E & H).
    change (split_search (split_memory a b) dm rx q sc p = Done (o, p1)) in E. change (split_search_line (split_memory a b) rx q p = Done b1) in HB.
    assert (X : match q with
      | None => o = Redraw
      | Some q => if isEmpty q then o = Redraw else says_of (matching rx q a ++ matching rx q b) (rows_after i (rows [] (wroot w))) (match o with NextInput => b1 | _ => Blank end)
      end).
    2:{ destruct q as [q|]; [destruct (isEmpty q)|]; try (subst o; apply bind_done in H; destruct H as (p2 & _ & H); injection H as _ _ <-; reflexivity).
        destruct o; try (apply bind_done in H; destruct H as (p2 & _ & H)); try discriminate; injection H as _ _ <-; exact X. }
    clear H. unfold split_search in E. unfold split_search_line in HB. destruct q as [q|]; [|injection E as <- _; reflexivity].
    destruct (isEmpty q); [injection E as <- _; reflexivity|]. cbv zeta in E, HB.
    set (mt := fun e => match_ rx q (etext e) (Navigation.ekind e)) in *.
    assert (FA : search (split_memory a b) mt a = matching rx q a).
    { rewrite (search_h a (split_memory a b) mt a MA (SplitMem.lookup_a a b MA) (fun e I => I)). exact (search_items a MA mt (fun x => match x with Scalar a => match_ rx q (tree_string (TPrim a)) (EPrim a) | Key k => match_ rx q k SearchPattern.EEntry end) (fun _ _ => eq_refl) (fun _ _ _ => eq_refl)). }
    assert (FB : search (split_memory a b) mt b = matching rx q b).
    { rewrite (search_h b (split_memory a b) mt b MB (SplitMem.lookup_b a b D) (fun e I => I)). exact (search_items b MB mt (fun x => match x with Scalar a => match_ rx q (tree_string (TPrim a)) (EPrim a) | Key k => match_ rx q k SearchPattern.EEntry end) (fun _ _ => eq_refl) (fun _ _ _ => eq_refl)). }
    assert (MI : forall n x, In x (matching rx q n) -> In x (map fst (items (nid n) n))).
    { intros n x J. unfold matching in J. apply in_map_iff in J. destruct J as (y & <- & J). apply filter_In in J. apply in_map, J. }
    assert (MD : forall n x, in_memory n -> In x (matching rx q n) -> In x (ids n)).
    { intros n x Mn J. apply (rows_ids n []), (found_row n), MI, J. }
    rewrite W in E, HB. cbn [map flat_map] in E, HB. change (wroot (set_wres w0 [])) with (wroot w0) in E, HB. change (wroot (set_wres w1 [])) with (wroot w1) in E, HB.
    rewrite R0, R1, FA, FB, app_nil_r in E, HB. set (found := matching rx q a ++ matching rx q b) in *.
    apply bind_done in E. destruct E as (w' & A & E). rewrite A in HB. cbn [bind] in HB.
    assert (C : pact p = 0 /\ w = w0 /\ w' = set_wres w0 [] \/ pact p = 1 /\ w = w1 /\ w' = set_wres w1 []).
    { destruct (at_nth _ _ _ A) as (_ & A'). cbn [pwins pact] in A'. rewrite W in NW. destruct (Z.to_nat (pact p)) as [|[|[|k]]] eqn:K; cbn in A', NW; try discriminate A'.
      - left. split; [lia|]. split; congruence.
      - right. split; [lia|]. split; congruence. }
    assert (SI : forall r, In r found -> In r (map fst (items (nid (wroot w)) (wroot w))) \/ ~ In r (ids (wroot w))).
    { intros r J. unfold found in J. apply in_app_or in J. destruct C as [(_ & -> & _)|(_ & -> & _)]; [rewrite R0|rewrite R1]; destruct J as [J|J].
      - left. apply MI, J.
      - right. intros K. exact (NoDup_app_not _ _ r D K (MD b r MB J)).
      - right. intros K. exact (NoDup_app_not _ _ r D (MD a r MA J) K).
      - left. apply MI, J. }
    assert (MW : in_memory (wroot w)) by (destruct C as [(_ & -> & _)|(_ & -> & _)]; congruence).
    refine (split_next_is _ _ sc _ p1 Typed b1 o (set_wres w found) i _ MW S L I SI HB E).
    destruct C as [(K & -> & ->)|(K & -> & ->)]; rewrite K; reflexivity.
  Qed.
End SplitRun.

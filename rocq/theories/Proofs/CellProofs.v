(** The cells of the terminal after a redraw. *)
From Verif Require Export Spec.CellSpec.
From Verif Require Import Proofs.PageProofs Proofs.PressProofs Proofs.LineProofs.
From Coq Require Import Lia ZifyBool.
Open Scope Z_scope.

Definition sane (t : term) : Prop := 0 < tw t /\ 0 < th t /\ 0 <= tpos t < tw t * th t.

(** * Printing one text after the other *)
Lemma add_str_size s : forall t, tw (add_str s t) = tw t /\ th (add_str s t) = th t.
Proof. induction s as [|c s IH]; intros t; cbn [add_str]; [auto|]. destruct (_ =? _); [auto|]. destruct (IH (mkTerm (tw t) (th t) (fun q => if q =? tpos t then c else tcell t q) (tpos t + 1))) as (A & B). auto. Qed.

Lemma add_str_facts s : forall t, sane t ->
  sane (add_str s t) /\ tpos (add_str s t) = Z.min (tpos t + Z.of_nat (length s)) (tw t * th t - 1) /\
  (forall q, ~ (tpos t <= q < tpos t + Z.of_nat (length s)) -> tcell (add_str s t) q = tcell t q) /\
  (forall q, tpos t <= q < tpos t + Z.of_nat (length s) -> q < tw t * th t -> tcell (add_str s t) q = nth (Z.to_nat (q - tpos t)) s " "%char).
Proof.
  induction s as [|c s IH]; intros t S.
  - cbn [add_str length]. split; [exact S|]. destruct S as (_ & _ & P). split; [lia|]. split; [reflexivity|]. intros q Q. lia.
  - cbn [add_str]. destruct (tpos t =? tw t * th t - 1) eqn:E.
    + apply Z.eqb_eq in E. split; [destruct S as (A & B & P); split; [exact A|]; split; [exact B|exact P]|]. cbn [tpos tcell length]. split; [lia|].
      split; [intros q Q; destruct (q =? tpos t) eqn:E1; [lia|reflexivity]|]. intros q Q L. replace q with (tpos t) by lia. rewrite Z.eqb_refl. replace (tpos t - tpos t) with 0 by lia. reflexivity.
    + apply Z.eqb_neq in E. set (t1 := mkTerm _ _ _ _).
      assert (S1 : sane t1) by (destruct S as (A & B & P); split; [exact A|]; split; [exact B|]; cbn; lia).
      destruct (IH t1 S1) as (I1 & I2 & I3 & I4). cbn [tpos tw th t1] in *. split; [exact I1|]. cbn [length]. split; [rewrite I2; lia|]. split.
      * intros q Q. rewrite I3 by lia. cbn [tcell t1]. destruct (q =? tpos t) eqn:E1; [lia|reflexivity].
      * intros q Q L. destruct (Z.eq_dec q (tpos t)) as [->|N].
        { rewrite I3 by lia. cbn [tcell t1]. rewrite Z.eqb_refl. replace (tpos t - tpos t) with 0 by lia. reflexivity. }
        rewrite I4 by lia. replace (Z.to_nat (q - tpos t)) with (Datatypes.S (Z.to_nat (q - (tpos t + 1)))) by lia. reflexivity.
Qed.

(** Several texts: the last cell may be written again if they go beyond it. *)
Lemma add_pieces l : forall t, sane t ->
  let s := flat_map ptext l in let t' := fold_left (fun t c => add_str (ptext c) t) l t in
  sane t' /\ tw t' = tw t /\ th t' = th t /\
  (forall q, q < tw t * th t -> ~ (tpos t <= q < tpos t + Z.of_nat (length s)) -> tcell t' q = tcell t q) /\
  (forall q, tpos t <= q < tpos t + Z.of_nat (length s) -> q < tw t * th t -> q <> tw t * th t - 1 \/ tpos t + Z.of_nat (length s) <= tw t * th t ->
     tcell t' q = nth (Z.to_nat (q - tpos t)) s " "%char).
Proof.
  induction l as [|c l IH]; intros t S s t'.
  - subst s t'. cbn. split; [exact S|]. repeat split; try reflexivity. intros q Q. lia.
  - destruct (add_str_facts (ptext c) t S) as (A1 & A2 & A3 & A4). destruct (add_str_size (ptext c) t) as (B1 & B2).
    set (t1 := add_str (ptext c) t) in *. destruct (IH t1 A1) as (I1 & I2 & I3 & I4 & I5). cbn [fold_left] in t'. fold t1 in t'. fold t' in I1, I2, I3, I4, I5.
    rewrite B1 in *. rewrite B2 in *. split; [exact I1|]. split; [exact I2|]. split; [exact I3|].
    assert (LS : Z.of_nat (length s) = Z.of_nat (length (ptext c)) + Z.of_nat (length (flat_map ptext l))) by (subst s; cbn [flat_map]; rewrite app_length; lia).
    destruct S as (SW & SH & SP). split.
    + intros q L Q. destruct (Z.eq_dec (tpos t1) (tpos t + Z.of_nat (length (ptext c)))) as [E|E].
      * rewrite I4 by lia. apply A3. lia.
      * rewrite I4 by lia. apply A3. lia.
    + intros q Q L LAST. destruct (Z_lt_ge_dec q (tpos t + Z.of_nat (length (ptext c)))) as [Q1|Q1].
      * rewrite I4 by lia. rewrite A4 by lia. subst s. cbn [flat_map]. symmetry. apply app_nth1. lia.
      * rewrite I5 by lia. subst s. cbn [flat_map]. rewrite app_nth2 by lia. f_equal. lia.
Qed.

(** * Strips one below the other *)
Definition fits (w : Z) (s : strip) : Prop :=
  0 <= column s < w /\ column s + Z.of_nat (length (letters s)) <= lines_of w s * w /\ 0 <= lines_of w s.

Definition strip_of (colours : bool) (sel : option Z) (res : list Z) (p : Z * strip) : printed := shown_as colours sel res p.

Lemma shown_letters colours sel res p : flat_map ptext (cpieces (shown_as colours sel res p)) = letters (snd p).
Proof.
  unfold shown_as, letters. cbn [cpieces]. set (l := texts (snd p)). clearbody l. induction l as [|x l IH]; [reflexivity|]. cbn. rewrite IH. reflexivity.
Qed.

Lemma draw_strips colours sel res w h : forall l y t, Forall (fits w) l -> 0 <= y -> Forall (fun p => fst p <= h - 1) (stacked w y l) ->
  sane t -> tw t = w -> th t = h ->
  let t' := fold_left draw_printed (map (shown_as colours sel res) (stacked w y l)) t in
  (forall p q, In p (stacked w y l) -> covers w p q -> q < w * h ->
     q <> w * h - 1 \/ first_cell w p + Z.of_nat (length (letters (snd p))) <= w * h ->
     tcell t' q = nth (Z.to_nat (q - first_cell w p)) (letters (snd p)) " "%char) /\
  (forall q, q < w * h -> (forall p, In p (stacked w y l) -> ~ covers w p q) -> tcell t' q = tcell t q) /\
  (forall p q, In p (stacked w y l) -> covers w p q -> y * w <= q).
Proof.
  induction l as [|s l IH]; intros y t F Y B S TW TH t'; cbn [stacked map fold_left] in *.
  { split; [intros p q []|]. split; [reflexivity|intros p q []]. }
  inversion_clear F as [|? ? (F0 & F1 & F2) FR]. inversion_clear B as [|? ? B1 BR]. cbn [fst] in B1.
  assert (SW := proj1 S). assert (IN : in_window t y (column s) = true) by (unfold in_window; rewrite TW, TH; lia).
  set (t0 := mkTerm w h (tcell t) (y * w + column s)).
  assert (S0 : sane t0). { split; [cbn; lia|]. split; [cbn; lia|]. cbn. split; [lia|]. assert (y * w + w <= w * h) by nia. lia. }
  assert (D : draw_printed t (shown_as colours sel res (y, s)) = fold_left (fun t c => add_str (ptext c) t) (cpieces (shown_as colours sel res (y, s))) t0).
  { unfold draw_printed, move. cbn [cline ccol shown_as fst snd]. rewrite IN. cbn [negb andb]. rewrite TW, TH. reflexivity. }
  subst t'. rewrite D. destruct (add_pieces (cpieces (shown_as colours sel res (y, s))) t0 S0) as (A1 & A2 & A3 & A4 & A5).
  rewrite shown_letters in A4, A5. cbn [snd] in A4, A5. set (t1 := fold_left _ _ t0) in *. cbn [tw th tpos t0] in *.
  destruct (IH (y + lines_of w s) t1 FR ltac:(lia) BR A1 A2 A3) as (I1 & I2 & I3).
  set (t' := fold_left draw_printed _ t1) in *.
  assert (Z1 : (y + lines_of w s) * w = y * w + lines_of w s * w) by lia.
  assert (C0 : forall q, covers w (y, s) q <-> y * w + column s <= q < y * w + column s + Z.of_nat (length (letters s))) by (intros q; unfold covers, first_cell; cbn [fst snd]; tauto).
  split; [|split].
  - intros p q [<-|I] C L LAST; [|apply I1; assumption]. apply (proj1 (C0 q)) in C. unfold first_cell in LAST |- *. cbn [fst snd] in LAST |- *.
    rewrite I2; [apply A5; [lia|lia|exact LAST]|lia|]. intros p I C'. apply (I3 p q I) in C'. lia.
  - intros q L N. rewrite I2; [|exact L|intros p I; apply N; right; exact I]. rewrite A4; [reflexivity|exact L|]. intros C. apply (N (y, s) (or_introl eq_refl)). apply C0, C.
  - intros p q [<-|I] C; [apply (proj1 (C0 q)) in C; lia|]. apply (I3 p q I) in C. nia.
Qed.

(** * The strips of a page fit *)
Lemma printable_nul s : printable s -> before_nul s = s.
Proof.
  induction 1 as [|c s H _ IH]; [reflexivity|]. cbn [before_nul]. destruct (Ascii.eqb_spec c Ascii.zero) as [->|N]; [change (uchar Ascii.zero) with 0 in H; lia|]. rewrite IH. reflexivity.
Qed.

Definition tidy (s : strip) : Prop :=
  0 <= column s /\ Z.of_nat (length (letters s)) = extent s + margin s /\ 0 <= extent s /\ (margin s = 0 \/ margin s = 2 /\ 1 <= column s).

Lemma tidy_fits w s : 3 <= w -> column s < w -> tidy s -> fits w s.
Proof.
  intros W C (T1 & T2 & T3 & T4). unfold fits, lines_of. split; [lia|]. destruct T4 as [T4|(T5 & T4)]; [rewrite T4 in *|rewrite T5 in *].
  - assert (Q := Z.div_mod (column s + extent s + (w - 0) - 1) (w - 0) ltac:(lia)). assert (R := Z.mod_pos_bound (column s + extent s + (w - 0) - 1) (w - 0) ltac:(lia)).
    set (k := (column s + extent s + (w - 0) - 1) / (w - 0)) in *. split; [nia|]. apply Z.div_pos; lia.
  - assert (Q := Z.div_mod (column s + extent s + (w - 2) - 1) (w - 2) ltac:(lia)). assert (R := Z.mod_pos_bound (column s + extent s + (w - 2) - 1) (w - 2) ltac:(lia)).
    assert (K : 1 <= (column s + extent s + (w - 2) - 1) / (w - 2)) by (apply Z.div_le_lower_bound; lia).
    set (k := (column s + extent s + (w - 2) - 1) / (w - 2)) in *. split; [nia|lia].
Qed.

Section Page.
  Variable (sc : screen) (coll : list Z).
  Definition known (e : elem) : Prop := printable (etext e) /\ slen sc e = Z.of_nat (length (etext e)).

  Lemma mark_tidy i r x t k : 0 <= x -> k = Z.of_nat (length (str t)) -> tidy (mkStrip i r x [mark t] k 0).
  Proof. intros X ->. unfold tidy, letters, mark. cbn [texts column extent margin flat_map snd]. rewrite app_nil_r. split; [exact X|]. split; [lia|]. split; [lia|]. left. reflexivity. Qed.

  Lemma page_tidy n : forall r x, 0 <= x -> (forall e, In e (elems n) -> known e) -> Forall tidy (page (slen sc) coll r x n).
  Proof.
    induction n as [m p|m l IH|m l IH] using node_ind'; intros r x X K.
    - cbn [page]. constructor; [|constructor]. destruct (K (ENode (NPrim m p)) (or_introl eq_refl)) as (P & L).
      unfold tidy, letters. cbn [texts column extent margin flat_map snd scalar_text]. rewrite app_nil_r. rewrite printable_nul by exact P. rewrite L. split; [exact X|].
      split; [cbn [etext erase]; lia|]. split; [lia|left; reflexivity].
    - cbn [page]. destruct (hidden coll (NArr m l)); [constructor; [apply mark_tidy; [exact X|reflexivity]|constructor]|].
      apply Forall_app. split; [constructor; [apply mark_tidy; [exact X|reflexivity]|constructor]|]. apply Forall_app. split; [|constructor; [apply mark_tidy; [exact X|reflexivity]|constructor]].
      apply Forall_flat_map. apply Forall_forall. intros c I. rewrite Forall_forall in IH. apply (IH c I); [lia|]. intros e J. apply K. right. apply in_flat_map. exists c. auto.
    - cbn [page]. destruct (hidden coll (NObj m l)); [constructor; [apply mark_tidy; [exact X|reflexivity]|constructor]|].
      apply Forall_app. split; [constructor; [apply mark_tidy; [exact X|reflexivity]|constructor]|]. apply Forall_app. split; [|constructor; [apply mark_tidy; [exact X|reflexivity]|constructor]].
      apply Forall_flat_map. apply Forall_forall. intros [[e k] v] I. rewrite Forall_forall in IH. cbn [fst snd].
      assert (KE : known (EEntry e k v)) by (apply K; right; apply in_flat_map; exists (e, k, v); split; [exact I|left; reflexivity]).
      assert (KV : forall d, In d (elems v) -> known d) by (intros d J; apply K; right; apply in_flat_map; exists (e, k, v); split; [exact I|right; exact J]).
      assert (IV := IH (e, k, v) I). cbn [snd] in IV. destruct KE as (KP & KL). cbn [etext] in KP, KL.
      assert (INL : forall t q, q = Z.of_nat (length (snd t)) -> tidy (mkStrip (mid e) (mid e) (x + 4) ([(Name, before_nul k); mark ": "] ++ [t]) (slen sc (EEntry e k v) + 2 + q) 0)).
      { intros t q ->. unfold tidy, letters. cbn [texts column extent margin flat_map snd app mark]. rewrite !app_length, KL, (printable_nul k KP). cbn [length str list_ascii_of_string].
        split; [lia|]. split; [lia|]. split; [lia|left; reflexivity]. }
      assert (ALONE : tidy (mkStrip (mid e) (mid e) (x + 4) ([(Name, before_nul k); mark ": "] ++ []) (slen sc (EEntry e k v)) 2)).
      { unfold tidy, letters. cbn [texts column extent margin flat_map snd app mark]. rewrite !app_length, KL, (printable_nul k KP). cbn [length str list_ascii_of_string]. split; [lia|]. split; [lia|]. split; [lia|right; lia]. }
      destruct v as [mv p|mv lv|mv lv].
      + constructor; [|constructor]. apply INL. destruct (KV _ (or_introl eq_refl)) as (P & L). rewrite L. cbn [scalar_text snd]. rewrite printable_nul by exact P. reflexivity.
      + destruct (hidden coll (NArr mv lv)); [constructor; [apply INL; reflexivity|constructor]|]. destruct lv as [|c lv]; [constructor; [apply INL; reflexivity|constructor]|].
        constructor; [exact ALONE|]. apply IV; [lia|exact KV].
      + destruct (hidden coll (NObj mv lv)); [constructor; [apply INL; reflexivity|constructor]|]. destruct lv as [|c lv]; [constructor; [apply INL; reflexivity|constructor]|].
        constructor; [exact ALONE|]. apply IV; [lia|exact KV].
  Qed.
End Page.

(** * The top line *)
Lemma title_cells w h name : 3 <= w < 2 ^ 31 -> 2 <= h ->
  let t := add_str (top_text w name) (move 0 0 (cleared w h)) in
  sane t /\ tw t = w /\ th t = h /\ (forall q, 0 <= q < w -> tcell t q = nth (Z.to_nat q) name " "%char) /\ (forall q, w <= q < w * h -> tcell t q = " "%char).
Proof.
  intros W H t. assert (M : move 0 0 (cleared w h) = cleared w h).
  { unfold move, in_window, cleared. cbn [tw th]. replace ((0 <=? 0) && (0 <? h) && (0 <=? 0) && (0 <? w)) with true by lia. reflexivity. }
  subst t. rewrite M. assert (P : 2 * w <= w * h) by nia.
  assert (S : sane (cleared w h)) by (split; [cbn; lia|]; split; [cbn; lia|]; cbn; lia).
  destruct (add_str_facts (top_text w name) _ S) as (A1 & _ & A3 & A4). destruct (add_str_size (top_text w name) (cleared w h)) as (B1 & B2). cbn [tw th tpos tcell cleared] in *.
  split; [exact A1|]. split; [exact B1|]. split; [exact B2|].
  (* the text as cells of line 0, and possibly a blank *)
  assert (T : (Z.to_nat w <= length (top_text w name))%nat /\ (forall i, (i < Z.to_nat w)%nat -> nth i (top_text w name) " "%char = nth i name " "%char) /\
              forall i, (Z.to_nat w <= i)%nat -> nth i (top_text w name) " "%char = " "%char).
  { unfold top_text, star_c. rewrite firstn_length. destruct (Nat.le_gt_cases (Z.to_nat w) (length name)) as [L|L].
    - replace (Z.of_nat (Nat.min (Z.to_nat w) (length name))) with w by lia. replace (w - w) with 0 by lia. rewrite int_arg_small by lia. change (repeat " "%char (Z.to_nat (Z.max 1 (Z.abs 0)))) with [" "%char].
      assert (LE : length (firstn (Z.to_nat w) name) = Z.to_nat w) by (rewrite firstn_length; lia). split; [rewrite app_length; lia|]. split.
      + intros i I. rewrite app_nth1 by lia. apply nth_firstn_lt, I.
      + intros i I. rewrite app_nth2 by lia. destruct (i - length (firstn (Z.to_nat w) name))%nat as [|[|j]]; reflexivity.
    - rewrite firstn_all2 by lia. rewrite Nat.min_r by lia. rewrite int_arg_small by lia. split; [rewrite app_length, repeat_length; lia|]. split.
      + intros i I. destruct (Nat.lt_ge_cases i (length name)) as [J|J]; [apply app_nth1, J|]. rewrite nth_pad by lia. symmetry. apply nth_overflow, J.
      + intros i I. apply nth_overflow. rewrite app_length, repeat_length. lia. }
  destruct T as (T1 & T2 & T3). split.
  - intros q Q. rewrite A4 by lia. replace (q - 0) with q by lia. apply T2. lia.
  - intros q Q. destruct (Z_lt_ge_dec q (0 + Z.of_nat (length (top_text w name)))) as [L|L]; [|apply A3; lia]. rewrite A4 by lia. apply T3. lia.
Qed.

Lemma stacked_low w : forall l y p, Forall (fits w) l -> In p (stacked w y l) -> y <= fst p.
Proof.
  induction l as [|s l IH]; intros y p F I; [destruct I|]. cbn [stacked] in I. inversion_clear F as [|? ? (_ & _ & F2) FR]. destruct I as [<-|I]; [cbn; lia|]. apply (IH _ _ FR) in I. lia.
Qed.

Lemma screen_cells root sc name colours v0 v : in_memory root -> roomy root sc -> sw sc < 2 ^ 31 -> 2 <= sh sc < 2 ^ 32 -> on_row root v0 -> 0 <= vscroll v0 ->
  readable root sc -> Forall (fun s => column s < sw sc) (page (slen sc) (vcoll v0) (nid root) 0 root) ->
  redraw root sc v0 = Some (true, v) ->
  exists ps, painted root colours sc v0 = Some ps /\ screen_right root sc name v ps (fun _ _ => True).
Proof.
  intros M R W H ON T RB C RD. destruct (screen_page root sc colours v0 v M R H ON T RD) as (above & shown & below & Q1 & Q2 & Q3 & _ & Q4 & Q5).
  destruct (redraw_same root _ _ _ _ RD) as (_ & E2 & _). rewrite <- E2 in C.
  eexists. split; [exact Q3|]. exists above, shown, below. split; [exact Q1|]. split; [exact Q2|]. split; [exact Q5|]. split; [|exact Logic.I].
  assert (F : Forall (fits (sw sc)) shown).
  { assert (TD := page_tidy sc (vcoll v) root (nid root) 0 ltac:(lia) RB). rewrite Q1 in TD, C. apply Forall_app in TD, C. destruct TD as (_ & TD), C as (_ & C). apply Forall_app in TD, C. destruct TD as (TD & _), C as (C & _).
    rewrite Forall_forall in *. intros s I. apply tidy_fits; [destruct R as (R & _); lia|apply C, I|apply TD, I]. }
  destruct R as (RW & _). destruct (title_cells (sw sc) (sh sc) name ltac:(lia) ltac:(lia)) as (S & TW & TH & T1 & T2). unfold terminal. set (t := add_str _ _) in *.
  destruct (draw_strips colours (vsel v) (vres v) (sw sc) (sh sc) shown 1 t F ltac:(lia)) as (D1 & D2 & D3); [|exact S|exact TW|exact TH|].
  { rewrite Forall_forall in *. intros p I. apply Q4 in I. lia. }
  split; [|split].
  - intros q Q. rewrite D2; [apply T1, Q|nia|]. intros p I CV. apply (D3 p q I) in CV. lia.
  - exact D1.
  - intros q Q N. rewrite D2; [apply T2, Q|lia|exact N].
Qed.

Lemma waiting_cells rx root sc evs sc' v stop name colours : in_memory root -> roomy root sc -> wide evs -> unsearched evs ->
  run rx root sc view0 evs = Waiting sc' v stop -> sw sc' < 2 ^ 31 -> 2 <= sh sc' < 2 ^ 32 ->
  readable root sc' -> Forall (fun s => column s < sw sc') (page (slen sc') (vcoll v) (nid root) 0 root) ->
  exists v0 ps, redraw root sc' v0 = Some (true, v) /\ painted root colours sc' v0 = Some ps /\ screen_right root sc' name v ps (fun _ _ => True).
Proof.
  intros M R W U E WW HS RB C. assert (Q := run_rest rx root M evs sc R W U). rewrite E in Q. destruct Q as (R' & v0 & RD & ON & T & _).
  destruct (redraw_same root _ _ _ _ RD) as (_ & E2 & _). rewrite E2 in C.
  destruct (screen_cells root sc' name colours v0 v M R' WW HS ON T RB C RD) as (ps & P1 & P2). exists v0, ps. auto.
Qed.

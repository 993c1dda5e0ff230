(** The cells of the windows of the comparison after a redraw. *)
From Verif Require Import Proofs.SplitShow Proofs.SplitCause Proofs.MarkLines Proofs.LineProofs Proofs.PageProofs Proofs.CellProofs.
From Verif Require Export Spec.HalfCellSpec.
From Coq Require Import Lia ZifyBool.
Open Scope Z_scope.

(** * Anything printed, in any order *)
Definition glyphs (p : printed) : bytes := flat_map ptext (cpieces p).
Definition starts (w : Z) (p : printed) : Z := cline p * w + ccol p.
(** The cells a text or a mark is printed in, and what is in them afterwards. *)
Definition touches (w h : Z) (k : ink) (q : Z) : Prop :=
  match k with
  | Inked p => starts w p <= q < starts w p + Z.of_nat (length (glyphs p))
  | Margin y o => 0 <= y < h /\ y * w <= q < y * w + Z.of_nat (length (mark_text o))
  end.
Definition leaves (w h : Z) (k : ink) (q : Z) (c : ascii) : Prop :=
  match k with
  | Inked p => (q <> w * h - 1 \/ starts w p + Z.of_nat (length (glyphs p)) <= w * h) /\ nth (Z.to_nat (q - starts w p)) (glyphs p) " "%char = c
  | Margin y o => nth (Z.to_nat (q - y * w)) (mark_text o) " "%char = c
  end.
Definition within_window (w h : Z) (k : ink) : Prop :=
  match k with Inked p => 0 <= cline p < h /\ 0 <= ccol p < w | Margin _ _ => True end.

Lemma touches_dec w h k q : {touches w h k q} + {~ touches w h k q}.
Proof.
  destruct k as [p|y o]; cbn [touches].
  - destruct (Z_le_gt_dec (starts w p) q), (Z_lt_ge_dec q (starts w p + Z.of_nat (length (glyphs p)))); (left; lia) || (right; lia).
  - destruct (Z_le_gt_dec 0 y), (Z_lt_ge_dec y h), (Z_le_gt_dec (y * w) q), (Z_lt_ge_dec q (y * w + Z.of_nat (length (mark_text o)))); (left; lia) || (right; lia).
Qed.

Lemma draw_ink_cells w h k t : 3 <= w -> sane t -> tw t = w -> th t = h -> within_window w h k ->
  sane (draw_ink t k) /\ tw (draw_ink t k) = w /\ th (draw_ink t k) = h /\
  (forall q, q < w * h -> ~ touches w h k q -> tcell (draw_ink t k) q = tcell t q) /\
  (forall q c, q < w * h -> touches w h k q -> leaves w h k q c -> tcell (draw_ink t k) q = c).
Proof.
  intros W S TW TH I. destruct k as [p|y o]; cbn [draw_ink touches leaves within_window] in *.
  - destruct I as (IL & IC). assert (IN : Terminal.in_window t (cline p) (ccol p) = true) by (unfold Terminal.in_window; rewrite TW, TH; lia).
    set (t0 := mkTerm w h (tcell t) (starts w p)).
    assert (S0 : sane t0). { split; [cbn; lia|]. split; [cbn; lia|]. unfold t0, starts. cbn [tpos tw th]. split; [nia|]. assert (cline p * w + w <= w * h) by nia. lia. }
    assert (D : draw_printed t p = fold_left (fun t c => add_str (ptext c) t) (cpieces p) t0).
    { unfold draw_printed, move. rewrite IN. cbn [negb andb]. rewrite TW, TH. reflexivity. }
    rewrite D. destruct (add_pieces (cpieces p) t0 S0) as (A1 & A2 & A3 & A4 & A5). fold (glyphs p) in A4, A5. cbn [tw th tpos t0] in *.
    split; [exact A1|]. split; [exact A2|]. split; [exact A3|]. split; [exact A4|]. intros q c L T (B & <-). apply A5; assumption.
  - unfold Terminal.in_window. rewrite TW, TH. destruct ((0 <=? y) && (y <? h) && (0 <=? 0) && (0 <? w)) eqn:E.
    + set (t0 := mkTerm w h (tcell t) (y * w)).
      assert (M : move y 0 t = t0). { unfold move, Terminal.in_window. rewrite TW, TH, E. rewrite Z.add_0_r. reflexivity. }
      rewrite M. assert (S0 : sane t0). { split; [cbn; lia|]. split; [cbn; lia|]. cbn [tpos tw th t0]. split; [nia|]. assert (y * w + w <= w * h) by nia. lia. }
      destruct (add_str_facts (mark_text o) t0 S0) as (A1 & _ & A3 & A4). destruct (add_str_size (mark_text o) t0) as (B1 & B2). cbn [tw th tpos t0] in *.
      split; [exact A1|]. split; [exact B1|]. split; [exact B2|]. split; [intros q L N; apply A3; lia|]. intros q c L T <-. apply A4; [apply T|exact L].
    + split; [exact S|]. split; [exact TW|]. split; [exact TH|]. split; [reflexivity|]. intros q c L T. lia.
Qed.

Lemma inks_cells w h : 3 <= w -> forall inks t, sane t -> tw t = w -> th t = h -> Forall (within_window w h) inks ->
  let t' := fold_left draw_ink inks t in
  (forall q, q < w * h -> (forall k, In k inks -> ~ touches w h k q) -> tcell t' q = tcell t q) /\
  (forall q c, q < w * h -> (exists k, In k inks /\ touches w h k q) -> (forall k, In k inks -> touches w h k q -> leaves w h k q c) -> tcell t' q = c).
Proof.
  intros W. induction inks as [|k inks IH]; intros t S TW TH F t'; subst t'; cbn [fold_left].
  { split; [reflexivity|]. intros q c _ (k & [] & _). }
  inversion_clear F as [|? ? F1 F2]. destruct (draw_ink_cells w h k t W S TW TH F1) as (A1 & A2 & A3 & A4 & A5).
  destruct (IH _ A1 A2 A3 F2) as (I1 & I2). split.
  - intros q L N. rewrite I1; [apply A4; [exact L|apply N; left; reflexivity]|exact L|]. intros k' J. apply N. right. exact J.
  - intros q c L (k0 & J & T) ALL. destruct (List.Exists_dec (fun k => touches w h k q) inks (fun k => touches_dec w h k q)) as [X|X].
    + apply Exists_exists in X. apply I2; [exact L|exact X|]. intros k' J'. apply ALL. right. exact J'.
    + assert (N : forall k', In k' inks -> ~ touches w h k' q) by (intros k' J' T'; apply X, Exists_exists; exists k'; auto).
      rewrite I1 by assumption. destruct J as [<-|J]; [|destruct (N k0 J T)]. apply A5; [exact L|exact T|]. apply ALL; [left; reflexivity|exact T].
Qed.

Lemma mixed_in ps ms l : mixed ps ms l -> forall k, In k l <-> (exists p, k = Inked p /\ In p ps) \/ (exists m, k = Margin (fst m) (snd m) /\ In m ms).
Proof.
  induction 1 as [|p ps ms l _ IH|m ps ms l _ IH]; intros k; cbn [In].
  - split; [intros []|]. intros [(p & _ & [])|(m & _ & [])].
  - rewrite IH. split.
    + intros [<-|[(p' & E & I)|R]]; [left; exists p; auto|left; exists p'; auto|right; exact R].
    + intros [(p' & E & [<-|I])|R]; [left; auto|right; left; exists p'; auto|right; right; exact R].
  - rewrite IH. split.
    + intros [<-|[L|(m' & E & I)]]; [right; exists m; auto|left; exact L|right; exists m'; auto].
    + intros [L|(m' & E & [<-|I])]; [right; left; exact L|left; auto|right; right; exists m'; auto].
Qed.

(** * The strips of a page *)
Section Page.
  Variable (sc : screen) (coll : list Z).
  Lemma half_tidy n : forall r x, 0 <= x -> (forall e, In e (elems n) -> known sc e) -> Forall tidy (half_page (slen sc) coll r x n).
  Proof.
    induction n as [m p|m l IH|m l IH] using node_ind'; intros r x X K.
    - cbn [half_page]. constructor; [|constructor]. destruct (K (ENode (NPrim m p)) (or_introl eq_refl)) as (P & L).
      unfold tidy, letters. cbn [texts column extent margin flat_map snd scalar_text]. rewrite app_nil_r. rewrite printable_nul by exact P. rewrite L. split; [exact X|].
      split; [cbn [etext erase]; lia|]. split; [lia|left; reflexivity].
    - cbn [half_page]. destruct (hidden coll (NArr m l)); [constructor; [apply mark_tidy; [exact X|reflexivity]|constructor]|].
      apply Forall_app. split; [constructor; [apply mark_tidy; [exact X|reflexivity]|constructor]|]. apply Forall_app. split; [|constructor; [apply mark_tidy; [exact X|reflexivity]|constructor]].
      apply Forall_flat_map. apply Forall_forall. intros c I. rewrite Forall_forall in IH. apply (IH c I); [lia|]. intros e J. apply K. right. apply in_flat_map. exists c. auto.
    - cbn [half_page]. destruct (hidden coll (NObj m l)); [constructor; [apply mark_tidy; [exact X|reflexivity]|constructor]|].
      apply Forall_app. split; [constructor; [apply mark_tidy; [exact X|reflexivity]|constructor]|]. apply Forall_app. split; [|constructor; [apply mark_tidy; [exact X|reflexivity]|constructor]].
      apply Forall_flat_map. apply Forall_forall. intros [[e k] v] I. rewrite Forall_forall in IH. cbn [fst snd].
      assert (KE : known sc (EEntry e k v)) by (apply K; right; apply in_flat_map; exists (e, k, v); split; [exact I|left; reflexivity]).
      assert (KV : forall d, In d (elems v) -> known sc d) by (intros d J; apply K; right; apply in_flat_map; exists (e, k, v); split; [exact I|right; exact J]).
      assert (IV := IH (e, k, v) I). cbn [snd] in IV. destruct KE as (KP & KL). cbn [etext] in KP, KL.
      assert (INL : forall t q, q = Z.of_nat (length (snd t)) -> tidy (mkStrip (mid e) (mid e) (x + 4) ([(Name, before_nul k); mark ": "] ++ [t]) (slen sc (EEntry e k v) + 2 + q) 0)).
      { intros t q ->. unfold tidy, letters. cbn [texts column extent margin flat_map snd app mark]. rewrite !app_length, KL, (printable_nul k KP). cbn [length str list_ascii_of_string].
        split; [lia|]. split; [lia|]. split; [lia|left; reflexivity]. }
      assert (ALONE : tidy (mkStrip (mid e) (mid e) (x + 4) ([(Name, before_nul k); mark ": "] ++ []) (slen sc (EEntry e k v)) 2)).
      { unfold tidy, letters. cbn [texts column extent margin flat_map snd app mark]. rewrite !app_length, KL, (printable_nul k KP). cbn [length str list_ascii_of_string]. split; [lia|]. split; [lia|]. split; [lia|right; lia]. }
      destruct v as [mv p|mv lv|mv lv].
      + constructor; [|constructor]. apply INL. destruct (KV _ (or_introl eq_refl)) as (P & L). rewrite L. cbn [scalar_text snd]. rewrite printable_nul by exact P. reflexivity.
      + destruct (hidden coll (NArr mv lv)); [constructor; [apply INL; reflexivity|constructor]|]. destruct lv as [|c lv]; [constructor; [apply INL; reflexivity|constructor]|].
        constructor; [exact ALONE|]. apply IV; [lia|exact KV].
      + destruct (hidden coll (NObj mv lv)); [constructor; [apply INL; reflexivity|constructor]|]. destruct lv as [|c lv]; [constructor; [apply INL; reflexivity|constructor]|].
        constructor; [exact ALONE|]. apply IV; [lia|exact KV].
  Qed.
End Page.

(** Strips that do not overlap: at most one covers a cell. *)
Lemma spaced_low w top : forall l y p, spaced w top y l -> Forall (fun p => fits w (snd p)) l -> In p l -> y <= fst p.
Proof.
  induction l as [|a l IH]; intros y p S F I; [destruct I|]. destruct S as (S1 & S2). inversion_clear F as [|? ? (_ & _ & F1) F2]. destruct I as [<-|I]; [exact S1|].
  apply (IH _ _ S2 F2) in I. unfold ends_at in I. destruct (fst a <=? top); lia.
Qed.

Lemma view_one w top : 0 < w -> forall l y p p' q, spaced w top y l -> Forall (fun p => fits w (snd p)) l ->
  In p (in_view top l) -> In p' (in_view top l) -> covers w p q -> covers w p' q -> p = p'.
Proof.
  intros W. induction l as [|a l IH]; intros y p p' q S F I I' C C'; [destruct I|]. destruct S as (S1 & S2). inversion_clear F as [|? ? F1 F2].
  unfold in_view in I, I'. cbn [filter] in I, I'. destruct (top <? fst a) eqn:E.
  - assert (OTHER : forall b, In b (in_view top l) -> covers w b q -> covers w (fst a - top, snd a) q -> False).
    { intros b J B A. unfold in_view in J. apply in_map_iff in J. destruct J as (b0 & <- & J). apply filter_In in J. destruct J as (J & _).
      assert (L := spaced_low w top l _ b0 S2 F2 J). unfold ends_at in L. replace (fst a <=? top) with false in L by lia.
      rewrite Forall_forall in F2. destruct (F2 b0 J) as (G1 & G2 & _). destruct F1 as (G3 & G4 & _).
      unfold covers, first_cell in A, B. cbn [fst snd] in A, B.
      assert ((fst a - top) * w + lines_of w (snd a) * w <= (fst b0 - top) * w) by nia. lia. }
    cbn [map] in I, I'. destruct I as [<-|I], I' as [<-|I'].
    + reflexivity.
    + destruct (OTHER p' I' C' C).
    + destruct (OTHER p I C C').
    + exact (IH _ p p' q S2 F2 I I' C C').
  - exact (IH _ p p' q S2 F2 I I' C C').
Qed.

(** * The top line *)
Lemma half_title w h name : 3 <= w < 2 ^ 31 -> 2 <= h ->
  let t := add_str (split_top_text (w + 2) name) (move 0 0 (cleared w h)) in
  sane t /\ tw t = w /\ th t = h /\ (forall q, 0 <= q < w -> tcell t q = nth (Z.to_nat q) name " "%char) /\ (forall q, w <= q < w * h -> tcell t q = " "%char).
Proof.
  intros W H t. assert (M : move 0 0 (cleared w h) = cleared w h).
  { unfold move, Terminal.in_window, cleared. cbn [tw th]. replace ((0 <=? 0) && (0 <? h) && (0 <=? 0) && (0 <? w)) with true by lia. reflexivity. }
  subst t. rewrite M. assert (P : 2 * w <= w * h) by nia.
  assert (S : sane (cleared w h)) by (split; [cbn; lia|]; split; [cbn; lia|]; cbn; lia).
  set (s := split_top_text (w + 2) name).
  destruct (add_str_facts s _ S) as (A1 & _ & A3 & A4). destruct (add_str_size s (cleared w h)) as (B1 & B2). cbn [tw th tpos tcell cleared] in *.
  split; [exact A1|]. split; [exact B1|]. split; [exact B2|].
  assert (T : length s = Z.to_nat w /\ forall i, (i < Z.to_nat w)%nat -> nth i s " "%char = nth i name " "%char).
  { subst s. unfold split_top_text, star_c. replace (w + 2 - 2) with w by lia. destruct (Nat.le_gt_cases (Z.to_nat w) (length name)) as [L|L].
    - assert (LE : length (firstn (Z.to_nat w) name) = Z.to_nat w) by (rewrite firstn_length; lia). replace (Z.of_nat (length (firstn (Z.to_nat w) name)) =? w) with true by lia.
      split; [exact LE|]. intros i I. apply nth_firstn_lt, I.
    - rewrite firstn_all2 by lia. replace (Z.of_nat (length name) =? w) with false by lia. rewrite int_arg_small by lia. split; [rewrite app_length, repeat_length; lia|].
      intros i I. destruct (Nat.lt_ge_cases i (length name)) as [J|J]; [apply app_nth1, J|]. rewrite nth_pad by lia. symmetry. apply nth_overflow, J. }
  destruct T as (T1 & T2). split.
  - intros q Q. rewrite A4 by lia. replace (q - 0) with q by lia. apply T2. lia.
  - intros q Q. apply A3. lia.
Qed.

(** * A window *)
Lemma mark_two o : o <> OEqu -> length (mark_text o) = 2%nat /\ forall i, (i < 2)%nat -> nth i (mark_text o) " "%char = mark_letter o.
Proof. destruct o; intros N; try destruct (N eq_refl); (split; [reflexivity|]); intros [|[|i]] I; try reflexivity; lia. Qed.

Lemma displays_all w h name top drawn marks ps inks colours sel res :
  3 <= w < 2 ^ 31 -> 2 <= h -> spaced w top 1 drawn -> Forall (fun p => fits w (snd p)) drawn ->
  ps = map (shown_as colours sel res) (in_view top drawn) -> inside_window h ps ->
  (forall m, In m marks -> snd m <> OEqu /\ 1 <= fst m) -> mixed ps (rev marks) inks ->
  window_displays w h name (in_view top drawn) marks (tcell (window_cells name w h inks)).
Proof.
  intros W H SP F PS IN MK MX.
  assert (FV : Forall (fun p => fits w (snd p) /\ 1 <= fst p < h) (in_view top drawn)).
  { apply Forall_forall. intros p I. split.
    - unfold in_view in I. apply in_map_iff in I. destruct I as (p0 & <- & I). apply filter_In in I. rewrite Forall_forall in F. exact (F p0 (proj1 I)).
    - unfold inside_window in IN. rewrite Forall_forall in IN. apply (IN (shown_as colours sel res p)). rewrite PS. apply in_map, I. }
  assert (ONE : forall p p' q, In p (in_view top drawn) -> In p' (in_view top drawn) -> covers w p q -> covers w p' q -> p = p') by (intros p p' q; apply (view_one w top ltac:(lia) drawn 1 p p' q SP F)).
  set (l := in_view top drawn) in *. clearbody l.
  assert (KI : forall k, In k inks <-> (exists p, k = Inked (shown_as colours sel res p) /\ In p l) \/ exists m, k = Margin (fst m) (snd m) /\ In m marks).
  { intros k. rewrite (mixed_in _ _ _ MX k). split.
    - intros [(p & -> & I)|(m & -> & I)]; [left|right; exists m; split; [reflexivity|apply in_rev, I]]. rewrite PS in I. apply in_map_iff in I. destruct I as (p0 & <- & I). exists p0. auto.
    - intros [(p & -> & I)|(m & -> & I)]; [left|right; exists m; split; [reflexivity|apply in_rev in I; exact I]]. exists (shown_as colours sel res p). split; [reflexivity|]. rewrite PS. apply in_map, I. }
  assert (TI : forall p q, touches w h (Inked (shown_as colours sel res p)) q <-> covers w p q).
  { intros p q. cbn [touches]. unfold glyphs. rewrite shown_letters. reflexivity. }
  assert (TM : forall m q, In m marks -> (touches w h (Margin (fst m) (snd m)) q <-> marks_cell w h m q)).
  { intros m q I. cbn [touches]. destruct (MK m I) as (N & _). rewrite (proj1 (mark_two _ N)). unfold marks_cell. tauto. }
  assert (WI : Forall (within_window w h) inks).
  { apply Forall_forall. intros k I. apply KI in I. destruct I as [(p & -> & I)|(m & -> & I)]; [|exact Logic.I]. rewrite Forall_forall in FV. destruct (FV p I) as ((A & _) & B). cbn. lia. }
  destruct (half_title w h name W H) as (S & TW & TH & T1 & T2). unfold window_cells. set (t := add_str _ _) in *.
  destruct (inks_cells w h ltac:(lia) inks t S TW TH WI) as (C1 & C2). set (t' := fold_left draw_ink inks t) in *.
  split; [|split; [|split]].
  - intros q Q. rewrite C1; [apply T1, Q|nia|]. intros k I T. apply KI in I. destruct I as [(p & -> & I)|(m & -> & I)].
    + apply TI in T. rewrite Forall_forall in FV. destruct (FV p I) as ((A & _) & B). unfold covers, first_cell in T. nia.
    + apply (TM m q I) in T. destruct (MK m I) as (_ & A). destruct T as (_ & T). nia.
  - intros p q I C L NM LAST. apply C2; [exact L|exists (Inked (shown_as colours sel res p)); split; [apply KI; left; exists p; auto|apply TI, C]|].
    intros k J T. apply KI in J. destruct J as [(p' & -> & J)|(m & -> & J)].
    + apply TI in T. rewrite <- (ONE p p' q I J C T). cbn [leaves]. unfold glyphs. rewrite shown_letters. split; [exact LAST|reflexivity].
    + apply (TM m q J) in T. destruct (NM m J T).
  - intros m q I M NC SAME. assert (L : q < w * h) by (destruct M as (A & B); nia).
    apply C2; [exact L|exists (Margin (fst m) (snd m)); split; [apply KI; right; exists m; auto|apply (TM m q I), M]|].
    intros k J T. apply KI in J. destruct J as [(p & -> & J)|(m' & -> & J)]; [apply TI in T; destruct (NC p J T)|].
    apply (TM m' q J) in T. assert (E : fst m' = fst m) by (destruct T as (_ & T), M as (_ & M); nia). assert (SN := SAME m' J E).
    cbn [leaves]. rewrite SN. apply (proj2 (mark_two (snd m) (proj1 (MK m I)))). destruct T as (_ & T). lia.
  - intros q Q NC NM. rewrite C1; [apply T2, Q|lia|]. intros k I T. apply KI in I. destruct I as [(p & -> & I)|(m & -> & I)]; [apply TI in T; exact (NC p I T)|apply (TM m q I) in T; exact (NM m I T)].
Qed.

Lemma in_view_cells colours sel res top drawn :
  map (fun p => shown_as colours sel res (fst p - top, snd p)) (filter (fun p => top <? fst p) drawn) = map (shown_as colours sel res) (in_view top drawn).
Proof. unfold in_view. rewrite map_map. reflexivity. Qed.

Lemma compares_cells f a b m len sc p w colours name inks : comparable a b m len f -> roomy_windows sc -> slen sc = len -> compares a b m sc p -> In w (pwins p) ->
  sw sc < 2 ^ 31 -> readable (wroot w) sc -> Forall (fun s => column s < sw sc - 2) (half_page len (pcoll p) (nid (wroot w)) 2 (wroot w)) ->
  inside_window (sh sc) (cells_of (split_memory a b) (active_res p) colours w) ->
  mixed (cells_of (split_memory a b) (active_res p) colours w) (rev (wmarks w)) inks ->
  window_right len (pcoll p) (sw sc - 2) (sh sc) name w inks.
Proof.
  intros OK RW L CP IW W RB CO IN MX. destruct (windows_show f a b m len sc p w colours OK RW L CP IW) as (drawn & rest & P1 & P2 & P3 & _ & P4).
  exists drawn, rest. split; [exact P1|]. split; [exact P2|]. split. { destruct P4 as [(P4 & _)|(before & q & P4 & _ & P5)]; [left; exact P4|right; exists before, q; auto]. }
  rewrite in_view_cells in P3. destruct RW as (RW & RH).
  eapply displays_all; [lia|lia|exact P2| |exact P3|exact IN| |exact MX].
  - assert (T := half_tidy sc (pcoll p) (wroot w) (nid (wroot w)) 2 ltac:(lia) RB). rewrite L, P1 in T. rewrite P1 in CO. apply Forall_app in T, CO. destruct T as (T & _), CO as (CO & _).
    apply (proj1 (Forall_map _ _ _)) in T. apply (proj1 (Forall_map _ _ _)) in CO. rewrite Forall_forall in *. intros q J. apply tidy_fits; [lia|apply CO, J|apply T, J].
  - destruct CP as ((ws & R) & _). assert (X := redraw_good (split_memory a b) m (fun _ => True) sc (pcoll p) ws). assert (Y := redraw_low (split_memory a b) m sc (pcoll p) ws).
    rewrite R in X, Y. cbn [ok snd] in X, Y. assert (X' := X ltac:(apply Forall_forall; intros v _ i _; exact Logic.I)). rewrite Forall_forall in X', Y.
    intros q J. destruct (X' w IW) as (_ & T). destruct (T q J) as (N & _). destruct (Y w IW) as (_ & G). split; [exact N|apply G, J].
Qed.

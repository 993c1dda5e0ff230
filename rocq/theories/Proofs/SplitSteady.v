(** Documents of the same shape, all of whose elements are counterparts, are level
    after every sequence of events. *)
From Verif Require Export Proofs.SplitLevel Proofs.SplitOnce.
From Verif Require Import Proofs.RowProofs Proofs.ViewProofs Proofs.ParserBase Proofs.DiffPairing Proofs.DiffSelf Proofs.SplitPress Proofs.SplitTerm Proofs.SplitLoop Proofs.SplitDraw Proofs.SplitKeys.
From Coq Require Import Lia ZifyBool.
Open Scope Z_scope.

(** * Twins from shape and pairing *)
Lemma shape_kids a b : shape_of a = shape_of b -> is_container a = is_container b /\
  Forall2 (fun x y => shape_of (value_of x) = shape_of (value_of y) /\ match x, y with ENode _, ENode _ | EEntry _ _ _, EEntry _ _ _ => True | _, _ => False end) (children a) (children b).
Proof.
  destruct a as [m p|m l|m l], b as [m' p'|m' l'|m' l']; cbn [shape_of]; intros E; try discriminate E; (split; [reflexivity|]); cbn [children]; [constructor| |]; injection E as E.
  - revert l' E. induction l as [|x l IH]; intros [|y l'] E; try discriminate E; cbn [map]; constructor; cbn [map] in E; injection E as E1 E2; [cbn; auto|apply IH, E2].
  - revert l' E. induction l as [|x l IH]; intros [|y l'] E; try discriminate E; cbn [map]; constructor; cbn [map] in E; injection E as E1 E2; [destruct x as [[? ?] ?], y as [[? ?] ?]; cbn in *; auto|apply IH, E2].
Qed.
Lemma Forall2_app_len {A B} (R : A -> B -> Prop) l1 l2 l1' l2' : length l1 = length l1' -> Forall2 R (l1 ++ l2) (l1' ++ l2') -> Forall2 R l1 l1' /\ Forall2 R l2 l2'.
Proof.
  revert l1'. induction l1 as [|x l IH]; intros [|y l1'] L F; try discriminate L; [split; [constructor|exact F]|]. cbn [app] in F. inversion F; subst. cbn in L. injection L as L. destruct (IH l1' L H4). split; [constructor|]; auto.
Qed.
Lemma shape_ids a : forall b, shape_of a = shape_of b -> length (ids a) = length (ids b).
Proof.
  induction a as [a IH] using node_kids_ind. intros b E. destruct (shape_kids a b E) as [_ F]. rewrite !ids_children. cbn [length]. f_equal.
  revert IH F. generalize (children a). generalize (children b). intros lb la IH F. induction F as [|x y la lb [X Y] F IHF]; [reflexivity|]. cbn [flat_map]. rewrite !app_length. f_equal; [|apply IHF; intros z I; apply IH; right; exact I].
  assert (Q := IH x (or_introl eq_refl) (value_of y) X). destruct x, y; try destruct Y; rewrite ?eids_node, ?eids_entry; cbn [length value_of] in *; congruence.
Qed.
Lemma twin_of dm a : forall b, shape_of a = shape_of b -> Forall2 (eqv dm) (ids a) (ids b) -> twin dm a b.
Proof.
  induction a as [a IH] using node_kids_ind. intros b E P. destruct (shape_kids a b E) as [_ F]. rewrite !ids_children in P. inversion P as [|? ? ? ? P1 P2 E1 E2]; subst.
  assert (K : Forall2 (twinE dm) (children a) (children b)).
  { clear P E P1. revert IH F P2. generalize (children a). generalize (children b). intros lb la IH F P. induction F as [|x y la lb [X Y] F IHF]; [constructor|]. cbn [flat_map] in P.
    assert (L : length (eids x) = length (eids y)) by (assert (Q := shape_ids _ _ X); destruct x, y; try destruct Y; rewrite ?eids_node, ?eids_entry; cbn [length value_of] in *; congruence).
    destruct (Forall2_app_len _ _ _ _ _ L P) as [PX PL]. constructor; [|apply IHF; [intros z I; apply IH; right; exact I|exact PL]].
    specialize (IH x (or_introl eq_refl) (value_of y) X). destruct x as [n|m k v], y as [n'|m' k' v']; try destruct Y; cbn [value_of] in IH; rewrite ?eids_node, ?eids_entry in PX.
    - constructor. apply IH, PX.
    - inversion PX; subst. constructor; [assumption|]. apply IH. assumption. }
  clear IH P P2 F. destruct a as [m p|m l|m l], b as [m' p'|m' l'|m' l']; cbn [shape_of] in E; try discriminate E; cbn [nid node_meta children] in *; constructor; try exact P1.
  - clear E P1. revert l' K. induction l as [|x l IH]; intros [|y l'] K; cbn [map] in K; inversion K; subst; constructor; [inversion H2; assumption|apply IH; assumption].
  - clear E P1. revert l' K. induction l as [|x l IH]; intros [|y l'] K; cbn [map] in K; inversion K; subst; constructor; [destruct x as [[? ?] ?], y as [[? ?] ?]; inversion H2; subst; cbn; auto|apply IH; assumption].
Qed.
Lemma paired_all dm a b : shape_of a = shape_of b -> paired dm a b -> Forall2 (eqv dm) (ids a) (ids b).
Proof.
  intros E P. assert (L := shape_ids a b E). unfold paired in P. revert L P. generalize (ids a). generalize (ids b). intros lb la. revert lb. induction la as [|x la IH]; intros [|y lb] L P; try discriminate L; constructor.
  - apply P. left. reflexivity.
  - apply IH; [injection L as L; exact L|]. intros u v I. apply P. right. exact I.
Qed.
Lemma none_lost dm a b : Forall2 (eqv dm) (ids a) (ids b) -> forall x, In x (ids a ++ ids b) -> exists y, getEquivalence dm x = Some y /\ getEquivalence dm y = Some x.
Proof.
  intros F x I. apply in_app_or in I. induction F as [|u v la lb [E1 E2] F IH]; [destruct I as [[]|[]]|]. destruct I as [[->|I]|[->|I]]; eauto.
Qed.

(** * Handlers leave the scroll positions alone *)
Section Steady.
  Variable (rx : bytes -> bool -> bytes -> bool) (f : nat) (a b : node) (m : mat) (len : elem -> Z).
  Hypothesis OK : comparable a b m len f.
  Hypothesis SHP : shape_of a = shape_of b.
  Hypothesis PRD : paired m a b.
  Notation h := (split_memory a b).

  Definition scrolls (p : SplitView.split) : list Z := map wscroll (pwins p).
  Lemma select_scroll p s : scrolls (setSelection m p s) = scrolls p.
  Proof.
    unfold scrolls, setSelection. cbn [pwins]. generalize 0. induction (pwins p) as [|w t IH]; intros i; [reflexivity|]. cbn [map]. rewrite IH. f_equal. destruct (_ =? _); reflexivity.
  Qed.
  Definition stays (p : SplitView.split) (x : inputResult * SplitView.split) : Prop := scrolls (snd x) = scrolls p.
  Lemma stays_bind {A} (x : out A) (g : A -> out (inputResult * SplitView.split)) p : (forall y, ok any (stays p) (g y)) -> ok any (stays p) (SplitView.bind x g).
  Proof. intros G. eapply ok_bind with (P := fun _ => True); [apply ok_true|]. intros y _. apply G. Qed.
  Lemma stays_sel p o s : ok any (stays p) (Done (o, setSelection m p s)).
  Proof. apply select_scroll. Qed.
  Lemma stays_fold p o c d : ok any (stays p) (Done (o, mkSplit (pwins p) c d)).
  Proof. reflexivity. Qed.
  Lemma stays_self p o : ok any (stays p) (Done (o, p)).
  Proof. reflexivity. Qed.
  Ltac st := repeat match goal with
    | |- ok any (stays _) (SplitView.bind _ _) => apply stays_bind; intros ?
    | |- ok any (stays _) (Done (_, setSelection m _ _)) => apply stays_sel
    | |- ok any (stays ?p) (Done (_, mkSplit (pwins ?p) _ _)) => apply stays_fold
    | |- ok any (stays ?p) (Done (_, ?p)) => apply stays_self
    | |- ok any (stays _) (if ?x then _ else _) => destruct x
    | |- ok any (stays _) (match ?x with _ => _ end) => destruct x
    end.
  Lemma key_stays sc k q p : k <> str "/" -> k <> str "N" -> ok any (stays p) (split_key h m rx sc k q p).
  Proof.
    intros K1 K2. unfold split_key.
    assert (N1 : beqb k (str "/") = false) by (apply beqb_neq, K1). assert (N2 : beqb k (str "N") = false) by (apply beqb_neq, K2). rewrite N1, N2. clear N1 N2.
    assert (CW : forall d c, ok any (stays p) (changeWindow m d c p)).
    { intros d c. unfold changeWindow. destruct (_ && _); [reflexivity|]. cbv zeta. destruct (_ =? 0); [exact Logic.I|]. apply stays_bind. intros w. destruct (wsel w); [reflexivity|]. unfold stays. cbn [ok snd]. rewrite select_scroll. reflexivity. }
    destruct (beqb k (str "Q")); [reflexivity|].
    destruct (_ || _); [unfold split_up; st|].
    destruct (_ || _); [unfold split_down; st|].
    destruct (beqb k _); [unfold split_pup; st|].
    destruct (beqb k _); [unfold split_pdown; st|].
    destruct (_ || _); [unfold split_expand, split_down; cbv zeta; st|].
    destruct (_ || _); [unfold split_collapse; cbv zeta; st|].
    destruct (beqb k _); [apply CW|]. destruct (_ || _); [apply CW|]. destruct (_ || _); [apply CW|]. reflexivity.
  Qed.

  (** * Redraws *)
  Definition even (p : SplitView.split) : Prop := exists w v, pwins p = [w; v] /\ wscroll w = wscroll v /\ twin_logs m (wlog w) (wlog v).
  Lemma J_alike p w v : J a b m p -> pwins p = [w; v] -> SplitTerm.fits a b (pcoll p) w v /\ SplitLevel.alike m w v.
  Proof.
    intros (w0 & w1 & E & H) E'. rewrite E in E'. injection E' as <- <-. assert (F := paired_all m a b SHP PRD).
    assert (OK' := OK). destruct OK' as (MA & MB & _).
    destruct H as [[_ H]|[_ H]]; destruct H as ((P0 & P1 & _ & _ & H0 & H1 & _) & (s & S) & EQ); (split; [split; assumption|]);
      (split; [destruct P0 as [-> _], P1 as [-> _]; apply twin_of; assumption|]); rewrite S in EQ; cbn [equivalent] in EQ.
    - assert (I : In s (ids a)) by (destruct P0 as (_ & _ & R); apply (rows_ids a (pcoll p)), R, S).
      destruct (none_lost m a b F s (in_or_app _ _ _ (or_introl I))) as (y & Y1 & Y2). rewrite Y1 in EQ. exists s, y. split; [apply H0, S|]. split; [apply H1, EQ|split; assumption].
    - assert (I : In s (ids b)) by (destruct P0 as (_ & _ & R); apply (rows_ids b (pcoll p)), R, S).
      destruct (none_lost m a b F s (in_or_app _ _ _ (or_intror I))) as (y & Y1 & Y2). rewrite Y1 in EQ. exists y, s. split; [apply H1, EQ|]. split; [apply H0, S|split; assumption].
  Qed.
  Lemma redraws_even sc p p' : roomy_windows sc -> slen sc = len -> unwrapped len (sw sc) a -> unwrapped len (sw sc) b -> J a b m p ->
    (forall w v, pwins p = [w; v] -> wscroll w = wscroll v) -> redraws h m f sc p = Done p' -> even p'.
  Proof.
    intros [G1 G2] LEN UA UB JP EQ R. assert (JF := J_folds a b m p JP). assert (JP' := JP). destruct JP as (w & v & E & _).
    destruct (J_alike p w v JP' E) as [FT AL]. assert (OK' := OK). destruct OK' as (MA & MB & _ & _ & D & _ & SL & BK & _). rewrite <- LEN in *.
    assert (PA : forall x, In x (ids a ++ ids b) -> isAdded m x = false).
    { intros x I. destruct (none_lost m a b (paired_all m a b SHP PRD) x I) as (y & Y & _). unfold isAdded. rewrite Y. reflexivity. }
    assert (CL : forall x y, eqv m x y -> mem x (pcoll p) = mem y (pcoll p)).
    { intros x y [Q _]. apply JF in Q. rewrite <- !mem_In in Q. destruct (mem x _), (mem y _); intuition congruence. }
    refine (redraws_meet a b h sc (pcoll p) m (Nat.max (nesting a) (nesting b)) eq_refl MA MB D (Nat.le_max_l _ _) (Nat.le_max_r _ _) G1 G2 SL BK CL UA UB PA f p w v p' E eq_refl FT AL _ R).
    specialize (EQ w v E). split; [lia|]. intros s S. lia.
  Qed.

  Lemma even_scroll p : even p -> forall p1, scrolls p1 = scrolls p -> forall w v, pwins p1 = [w; v] -> wscroll w = wscroll v.
  Proof. intros (w0 & v0 & E & Q & _) p1 S w v E1. unfold scrolls in S. rewrite E, E1 in S. cbn [map] in S. congruence. Qed.

  Lemma wait_even evs : forall sc p stop e, roomy_windows sc -> slen sc = len -> unsearched evs -> rooms evs -> unwrapped len (sw sc) a -> unwrapped len (sw sc) b ->
    (forall w hh, In (EvSize w hh) evs -> unwrapped len (w / 2) a /\ unwrapped len (w / 2) b) ->
    compares a b m sc p -> even p -> split_wait h m rx f sc p stop evs = Done e -> even (end_split e) /\ compares a b m (end_screen e) (end_split e).
  Proof.
    assert (OK' := OK). destruct OK' as (MA & MB & FA & FB & D & B & _).
    induction evs as [|[k q|w hh|] t IH]; intros sc p stop e G LEN U R UA UB W C EV RUN; [cbn [split_wait] in RUN; injection RUN as <-; auto| | |];
      (assert (Ut : unsearched t) by (intros k' q' I; apply (U k' q'); right; exact I)); (assert (Rt : rooms t) by (intros w' hh' I; apply R; right; exact I));
      (assert (Wt : forall w hh, In (EvSize w hh) t -> unwrapped len (w / 2) a /\ unwrapped len (w / 2) b) by (intros w' hh' I; apply (W w' hh'); right; exact I)); cbn [split_wait] in RUN.
    - destruct (U k q (or_introl eq_refl)) as [K1 K2]. assert (ST := key_stays sc k q p K1 K2).
      assert (X := key_J a b m MA MB FA FB D B rx sc k q p (compares_J a b m sc p C) (compares_aims f a b m len sc OK LEN p C) K1 K2).
      destruct (split_key h m rx sc k q p) as [[o p1]|]; [|destruct X]. cbn [ok SplitView.bind] in *. unfold kept_or_led in X. unfold stays in ST. cbn [fst snd] in X, ST.
      destruct o; try (subst p1; first [injection RUN as <-; auto; fail|destruct stop; [injection RUN as <-; auto|apply (IH sc p false); assumption]]);
        destruct (settle f a b m len sc OK G LEN p1 X) as (p' & E & C' & _); assert (E' := redraws_even sc p1 p' G LEN UA UB X (even_scroll p EV p1 ST) E);
        rewrite E in RUN; cbn [SplitView.bind] in RUN; (destruct stop; [injection RUN as <-; auto|apply (IH sc p' false); assumption]).
    - cbv zeta in RUN. assert (RW := R w hh (or_introl eq_refl)). destruct (W w hh (or_introl eq_refl)) as [UA' UB'].
      assert (L : length (pwins p) = 2%nat) by (destruct C as (_ & _ & _ & (L & _) & _); exact L). rewrite (sized_screen w hh p sc L RW), LEN in *.
      assert (G' : roomy_windows (mkScreen (w / 2) (hh - 2) len)). { destruct RW as [R1 R2]. split; cbn [sw sh]; [|lia]. split; [apply Z.div_le_lower_bound; lia|apply Z.div_lt_upper_bound; lia]. }
      assert (JP := compares_J a b m sc p C).
      destruct (settle f a b m len _ OK G' eq_refl p JP) as (p' & E & C' & _). assert (E' := redraws_even _ p p' G' eq_refl UA' UB' JP (even_scroll p EV p eq_refl) E).
      rewrite E in RUN. cbn [SplitView.bind] in RUN. apply (IH _ _ _ _ G' eq_refl Ut Rt UA' UB' Wt C' E' RUN).
    - apply (IH _ _ _ _ G LEN Ut Rt UA UB Wt C EV RUN).
  Qed.
  Lemma run_even w hh evs e : room w hh -> rooms evs -> unsearched evs -> wide_enough len a b w hh evs -> split_run rx f len w hh a b evs = Done e ->
    even (end_split e) /\ compares a b m (end_screen e) (end_split e).
  Proof.
    intros RW R U W RUN. assert (OK' := OK). destruct OK' as (MA & MB & FA & FB & D & B & SL & BK & FU). unfold split_run in RUN. rewrite B in RUN. cbv zeta in RUN.
    assert (SCR : split_screen w hh (setSelection m (mkSplit [new_win a; new_win b] 0 []) (Some (nid a))) (mkScreen 0 0 len) = mkScreen (w / 2) (hh - 2) len).
    { unfold split_screen, setSelection. cbn [pwins length slen]. unfold usub. rewrite Z.mod_small; [reflexivity|]. destruct RW; lia. }
    rewrite SCR in RUN.
    assert (G : roomy_windows (mkScreen (w / 2) (hh - 2) len)). { destruct RW as [R1 R2]. split; cbn [sw sh]; [|lia]. split; [apply Z.div_le_lower_bound; lia|apply Z.div_lt_upper_bound; lia]. }
    assert (J0 : J a b m (setSelection m (mkSplit [new_win a; new_win b] 0 []) (Some (nid a)))).
    { apply (select_J a b m MA MB FA FB D B _ (new_win a) (new_win b)); [reflexivity| |left; split; [reflexivity|left; reflexivity]]. cbn [pcoll].
      assert (PL : forall r, placed r [] (new_win r)). { intros r. split; [reflexivity|]. split; [exists (nid r); split; [reflexivity|left; reflexivity]|]. intros i Q. discriminate Q. }
      split; [apply PL|]. split; [apply PL|]. cbn. split; [lia|]. split; [lia|]. split; [intros x Q; discriminate Q|]. split; [intros x Q; discriminate Q|]. intros x y _. reflexivity. }
    destruct (settle f a b m len _ OK G eq_refl _ J0) as (p' & E & C' & _). destruct (W w hh (or_introl eq_refl)) as [UA UB].
    assert (E' : even p'). { apply (redraws_even _ _ _ G eq_refl UA UB J0) in E; [exact E|]. intros x y Q. unfold setSelection in Q. cbn [pwins map] in Q. injection Q as <- <-. reflexivity. }
    rewrite E in RUN. cbn [SplitView.bind] in RUN. refine (wait_even evs _ _ _ _ G eq_refl U R UA UB _ C' E' RUN). intros w' hh' I. apply (W w' hh'). right. exact I.
  Qed.

  (** * On the same lines *)
  Lemma twin_find l l' x lx : twin_log m l l' -> In (x, false, lx) l -> exists y, eqv m x y /\ In (y, false, lx) l'.
  Proof.
    intros F I. induction F as [|[[u c] n] [[u' c'] n'] l l' (E & C & N) F IH]; [destruct I|]. cbn [fst snd] in *. destruct I as [I|I].
    - injection I as -> -> ->. subst. exists u'. split; [exact E|left; reflexivity].
    - destruct (IH I) as (y & Y & Z). exists y. split; [exact Y|right; exact Z].
  Qed.
  Lemma even_in_step p : even p -> in_step m p.
  Proof.
    intros (w & v & E & S & F & _). exists w, v. split; [exact E|]. split; [exact S|]. intros x y c l Q. assert (OK' := OK). destruct OK' as (_ & _ & FA & FB & D & B & _). assert (Q' := SplitMem.eqv_sym a b m FA FB D B x y Q). split; intros I; clear - F Q Q' I.
    - induction F as [|[[u c1] n] [[u' c'] n'] l1 l' (E & C & N) F IH]; [destruct I|]. cbn [fst snd] in *. destruct I as [I|I]; [|right; auto].
      injection I as -> -> ->. subst. left. destruct E as [E _]. rewrite Q in E. injection E as ->. reflexivity.
    - induction F as [|[[u c1] n] [[u' c'] n'] l1 l' (E & C & N) F IH]; [destruct I|]. cbn [fst snd] in *. destruct I as [I|I]; [|right; auto].
      injection I as -> -> ->. subst. left. destruct E as [_ E]. rewrite Q' in E. injection E as ->. reflexivity.
  Qed.
  Lemma once_line (l : list (Z * bool * Z)) y n n' : NoDup (map (fun x => fst (fst x)) (filter (fun x => negb (snd (fst x))) l)) -> In (y, false, n) l -> In (y, false, n') l -> n = n'.
  Proof.
    induction l as [|[[u c] k] l IH]; intros N I I'; [destruct I|]. assert (K : forall n, In (y, false, n) l -> In y (map (fun x : Z * bool * Z => fst (fst x)) (filter (fun x => negb (snd (fst x))) l))).
    { intros n0 Q. apply in_map_iff. exists (y, false, n0). split; [reflexivity|]. apply filter_In. auto. }
    cbn [filter fst snd] in N. destruct c; cbn [negb map fst] in N.
    - destruct I as [I|I]; [discriminate I|]. destruct I' as [I'|I']; [discriminate I'|]. auto.
    - inversion N as [|? ? N1 N2]; subst. destruct I as [I|I], I' as [I'|I'].
      + congruence.
      + injection I as -> ->. destruct (N1 (K _ I')).
      + injection I' as -> ->. destruct (N1 (K _ I)).
      + auto.
  Qed.
  Lemma even_level sc p : compares a b m sc p -> even p -> level m p.
  Proof.
    intros ((ws & RA) & (w0 & w1 & E & A0 & A1) & _) (w & v & E' & S & T & _) x0 x1 x y lx ly E2 Q I I'. rewrite E in E', E2. injection E' as <- <-. injection E2 as <- <-. rewrite S. f_equal.
    destruct (twin_find _ _ _ _ T I) as (y' & [Y _] & IY). rewrite Q in Y. injection Y as <-.
    assert (O : Forall once (pwins p)).
    { assert (C := redraw_core h sc (pcoll p) m ws). rewrite RA in C. cbn [ok snd] in C. rewrite E in C. destruct ws as [|u [|u' [|? ?]]]; try discriminate C. cbn [map] in C. injection C as C0 _ _ _ C1 _ _ _.
      destruct A0 as (R0 & _), A1 as (R1 & _). assert (OK' := OK). destruct OK' as (_ & _ & _ & _ & D & _).
      apply (redraw_once_each a b h sc (pcoll p) m u u' _ D); [congruence|congruence|exact RA]. }
    rewrite E in O. inversion O as [|? ? _ O1]; subst. inversion O1 as [|? ? O2 _]; subst. exact (once_line _ _ _ _ O2 IY I').
  Qed.
  Lemma run_in_step w hh evs e : room w hh -> rooms evs -> unsearched evs -> wide_enough len a b w hh evs -> split_run rx f len w hh a b evs = Done e -> in_step m (end_split e).
  Proof. intros RW R U W RUN. destruct (run_even w hh evs e RW R U W RUN) as [E C]. exact (even_in_step _ E). Qed.
  Lemma run_level w hh evs e : room w hh -> rooms evs -> unsearched evs -> wide_enough len a b w hh evs -> split_run rx f len w hh a b evs = Done e -> level m (end_split e).
  Proof. intros RW R U W RUN. destruct (run_even w hh evs e RW R U W RUN) as [E C]. exact (even_level _ _ C E). Qed.
End Steady.

(** Copies. *)
Lemma erase_shape a : forall b, erase a = erase b -> shape_of a = shape_of b.
Proof.
  assert (G : forall n, shape_of n = (fix go (t : tree) : shape := match t with TPrim _ => Leaf | TArr l => Arr (map go l) | TObj l => Obj (map (fun x => go (snd x)) l) end) (erase n)).
  { fix IH 1. intros [m p|m l|m l]; cbn [shape_of erase]; [reflexivity| |]; f_equal; rewrite map_map.
    - induction l as [|x l IL]; [reflexivity|]. cbn [map]. rewrite IL, IH. reflexivity.
    - induction l as [|[[m0 k] x] l IL]; [reflexivity|]. cbn [map snd fst]. rewrite IL, IH. reflexivity. }
  intros b E. rewrite !G, E. reflexivity.
Qed.
Lemma copies_in_step rx f a b len m w hh evs e : comparable a b m len f -> erase a = erase b -> ~ has_empty a ->
  room w hh -> rooms evs -> unsearched evs -> wide_enough len a b w hh evs -> split_run rx f len w hh a b evs = Done e -> level m (end_split e) /\ in_step m (end_split e).
Proof.
  intros OK E NE RW R U W RUN. assert (OK' := OK). destruct OK' as (_ & _ & FA & _ & D & B & _).
  destruct (self_spec a b E FA D NE) as (m' & B' & _ & P). rewrite B in B'. injection B' as <-.
  split; [apply (run_level rx f a b m len OK (erase_shape a b E) P w hh evs e RW R U W RUN)|apply (run_in_step rx f a b m len OK (erase_shape a b E) P w hh evs e RW R U W RUN)].
Qed.

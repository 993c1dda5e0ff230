From Verif Require Export Model.StreamConsumer Proofs.RingProofs.
From Coq Require Export Lia ZifyBool.
Open Scope Z_scope.

(** * Outcomes *)
Inductive fail : Type := FThrow (e : exn) | FAbort (a : abort) | FUB (u : ub) | FFuel.

Definition wp {A} (m : M A) (Q : A -> st -> Prop) (E : fail -> Prop) (s : st) : Prop :=
  match m s with
  | Ok (a, s') => Q a s'
  | Throw e => E (FThrow e)
  | Abort a => E (FAbort a)
  | UB u => E (FUB u)
  | OutOfFuel => E FFuel
  end.

Lemma wp_bind {A B} (m : M A) (k : A -> M B) Q E s :
  wp m (fun a s' => wp (k a) Q E s') E s -> wp (bind m k) Q E s.
Proof. unfold wp, bind. destruct (m s) as [[a s']| | | |]; auto. Qed.

Lemma wp_mono {A} (m : M A) (Q Q' : A -> st -> Prop) (E E' : fail -> Prop) s :
  wp m Q E s -> (forall a s', Q a s' -> Q' a s') -> (forall f, E f -> E' f) -> wp m Q' E' s.
Proof. unfold wp. intros H HQ HE. destruct (m s) as [[a s']| | | |]; auto. Qed.

Lemma wp_ret {A} (a : A) (Q : A -> st -> Prop) E s : Q a s -> wp (ret a) Q E s.
Proof. auto. Qed.

Lemma wp_is_good (Q : bool -> st -> Prop) E s : Q (good s) s -> wp is_good Q E s.
Proof. auto. Qed.

Lemma wp_throw {A} k (Q : A -> st -> Prop) (E : fail -> Prop) s : E (FThrow (mkExn k (his s) (tell s))) -> wp (throw k) Q E s.
Proof. auto. Qed.

Lemma wp_fresh (Q : Z -> st -> Prop) E s :
  Q (nextid s) (mkSt (inp s) (good s) (his s) (warns s) (nextid s + 1)) -> wp fresh Q E s.
Proof. auto. Qed.

Lemma wp_new_prim p x (Q : node -> st -> Prop) E s :
  Q (NPrim (mkMeta (nextid s) p) x) (mkSt (inp s) (good s) (his s) (warns s) (nextid s + 1)) ->
  wp (new_prim p x) Q E s.
Proof. auto. Qed.

(** * History well-formedness *)
Definition hist_ok (h : hist) : Prop := ring_wf 45 (hring h).

Lemma hist_init_ok : hist_ok hist_init.
Proof. apply (@ring_init_wf ascii 45). lia. Qed.

Lemma hist_flush_ok h : hist_ok h -> hist_ok (hist_flush h).
Proof.
  intros H. unfold hist_flush. destruct (willReset h); [|exact H].
  apply ring_reset_wf; [lia|exact H].
Qed.

Lemma hist_put_ok h c : hist_ok h -> exists h', hist_put h c = Some h' /\ hist_ok h'.
Proof.
  intros H. pose proof (hist_flush_ok h H) as H1. unfold hist_put.
  destruct (Ascii.eqb c LF || Ascii.eqb c CR).
  - eexists; split; [reflexivity|exact H1].
  - destruct (ring_put_wf 45 (hring (hist_flush h)) c ltac:(lia) H1) as (r' & E & W).
    change (Z.of_nat 45) with ERROR_HISTORY_LEN in E. rewrite E. simpl.
    eexists; split; [reflexivity|exact W].
Qed.

Lemma hist_pop_ok h : hist_ok h -> hist_ok (hist_pop h).
Proof. intros H. apply (ring_pop_wf 45); [lia|exact H]. Qed.

Lemma hist_put_many_ok f : forall h mem count h', (count <= 4)%nat -> hist_ok h ->
  hist_put_many f h mem count = Some h' -> hist_ok h'.
Proof.
  induction f as [|f IH]; intros h mem count h' Hc H; simpl; [discriminate|].
  pose proof (hist_flush_ok h H) as H1.
  destruct (find_lf mem count 0) as [[i|]|] eqn:EF; [| |discriminate].
  - destruct (i <? count - 1)%nat eqn:E.
    + intros E1. eapply IH; [| |exact E1]; [lia|exact H1].
    + intros [= <-]. exact H1.
  - intros E. change ERROR_HISTORY_LEN with (Z.of_nat 45) in E.
    assert (L : forall m c i, find_lf m c i = Some None -> (c <= length m)%nat).
    { induction m as [|x m IHm]; intros [|c] i; simpl; try lia; try discriminate.
      destruct (Ascii.eqb x LF); [discriminate|]. intros Q. apply IHm in Q. lia. }
    apply L in EF.
    destruct (ring_put_many_wf_gen 45 (hring (hist_flush h)) mem (Z.of_nat count)) as (r & E2 & W);
      try lia; auto.
    rewrite E2 in E. simpl in E. injection E as <-. exact W.
Qed.

(** * Facts on bytes *)
Lemma beqb_eq a : forall b, beqb a b = true <-> a = b.
Proof.
  induction a as [|x a IH]; intros [|y b]; simpl; try (split; [discriminate|discriminate]); try tauto.
  rewrite andb_true_iff, Ascii.eqb_eq, IH. split; [intros [-> ->]; reflexivity|intros [= -> ->]; auto].
Qed.

Lemma beqb_neq a b : beqb a b = false <-> a <> b.
Proof. rewrite <- beqb_eq. destruct (beqb a b); split; congruence. Qed.

Lemma beqb_refl a : beqb a a = true.
Proof. apply beqb_eq. reflexivity. Qed.

Lemma eqb_refl c : Ascii.eqb c c = true.
Proof. apply Ascii.eqb_eq. reflexivity. Qed.

(** * Decreasing input *)
Definition ready (s : st) : Prop := hist_ok (his s) /\ (good s = true \/ inp s = []).

(** [s'] is reached from [s] by consuming [c]. *)
Definition consumed (s : st) (c : bytes) (s' : st) : Prop :=
  inp s = c ++ inp s' /\ ready s'.

Definition reach (s s' : st) : Prop := exists c, consumed s c s'.
Definition reach1 (s s' : st) : Prop := exists c, consumed s c s' /\ c <> [].

Lemma reach_refl s : ready s -> reach s s.
Proof. intros H. exists []. split; auto. Qed.

Lemma reach1_reach s s' : reach1 s s' -> reach s s'.
Proof. intros (c & H & _). exists c; auto. Qed.

Lemma reach_trans s s' s'' : reach s s' -> reach s' s'' -> reach s s''.
Proof.
  intros (c & E & _) (c' & E' & R). exists (c ++ c'). split; [|exact R].
  rewrite <- app_assoc, <- E', E. reflexivity.
Qed.

Lemma reach1_trans_l s s' s'' : reach1 s s' -> reach s' s'' -> reach1 s s''.
Proof.
  intros (c & (E & _) & N) (c' & E' & R). exists (c ++ c'). split.
  - split; [|exact R]. rewrite <- app_assoc, <- E', E. reflexivity.
  - destruct c; [congruence|discriminate].
Qed.

Lemma reach1_trans_r s s' s'' : reach s s' -> reach1 s' s'' -> reach1 s s''.
Proof.
  intros (c & (E & _)) (c' & (E' & R) & N). exists (c ++ c'). split.
  - split; [|exact R]. rewrite <- app_assoc, <- E', E. reflexivity.
  - destruct c; simpl; [exact N|discriminate].
Qed.

Lemma reach_ready s s' : reach s s' -> ready s'.
Proof. intros (c & _ & R). exact R. Qed.

Lemma reach_len s s' : reach s s' -> (length (inp s') <= length (inp s))%nat.
Proof. intros (c & E & _). rewrite E, app_length. lia. Qed.

Lemma reach1_len s s' : reach1 s s' -> (length (inp s') < length (inp s))%nat.
Proof. intros (c & (E & _) & N). rewrite E, app_length. destruct c; [congruence|simpl; lia]. Qed.

Lemma ready_same_inp s s' : ready s -> inp s' = inp s -> good s' = good s -> his s' = his s -> ready s'.
Proof. unfold ready. intros [H1 H2] -> -> ->. auto. Qed.

(** One iteration's prologue of every loop: read a character, record it. *)
Lemma wp_getput {A} (k : ascii -> M A) Q E s :
  hist_ok (his s) -> good s = true ->
  (forall c t h', inp s = c :: t -> hist_put (his s) c = Some h' -> hist_ok h' ->
     wp (k c) Q E (mkSt t true h' (warns s) (nextid s))) ->
  (forall h', inp s = [] -> hist_put (his s) EOFCHAR = Some h' -> hist_ok h' ->
     wp (k EOFCHAR) Q E (mkSt [] false h' (warns s) (nextid s))) ->
  wp (c <- sget ;; hput c ;;; k c) Q E s.
Proof.
  intros H G H1 H2. unfold wp, bind, sget, hput. rewrite G.
  destruct (inp s) as [|c t] eqn:EI; cbn [his inp good warns nextid].
  - destruct (hist_put_ok (his s) EOFCHAR H) as (h' & E' & O). rewrite E'.
    specialize (H2 h' eq_refl E' O). exact H2.
  - destruct (hist_put_ok (his s) c H) as (h' & E' & O). rewrite E'.
    specialize (H1 c t h' eq_refl E' O). exact H1.
Qed.

Lemma wp_hpop_sunget {A} c (k : unit -> M A) Q E s :
  wp (k tt) Q E (mkSt (if good s then c :: inp s else inp s) (good s) (hist_pop (his s)) (warns s) (nextid s)) ->
  wp (hpop ;;; (u <- sunget c ;; k u)) Q E s.
Proof.
  unfold wp, bind, hpop, sunget, set_his. destruct s as [i g h w n]. cbn. destruct g; auto.
Qed.

Lemma wp_warn {A} k (K : unit -> M A) Q E s :
  wp (K tt) Q E (mkSt (inp s) (good s) (his s) (warns s ++ [mkExn k (his s) (tell s)]) (nextid s)) ->
  wp (u <- warn k ;; K u) Q E s.
Proof. auto. Qed.

(** Any failure but fuel. *)
Definition no_fuel (f : fail) : Prop := f <> FFuel.

Section Termination.
  Variable e : env.
  Variable params : option cfg.

  Lemma escaped_reach c buf s : ready s ->
    wp (consumeEscapedChar e params c buf) (fun _ s' => reach s s') no_fuel s.
  Proof.
    intros R. unfold consumeEscapedChar.
    destruct (Ascii.eqb c BSLASH || Ascii.eqb c DQUOTE || Ascii.eqb c "/"); [apply wp_ret, reach_refl; auto|].
    destruct (Ascii.eqb c "u").
    - destruct (match params with Some p => ignoreUnicode p | None => false end);
        [apply wp_ret, reach_refl; auto|].
      apply wp_bind. unfold wp at 1, sread. destruct R as [R1 R2].
      destruct (good s) eqn:G.
      + apply wp_bind. unfold wp at 1, hputs. cbn [his].
        destruct (hist_puts (his s) (firstn 4 (inp s)) (length (firstn 4 (inp s)))) as [h|] eqn:EH; [|discriminate].
        unfold hist_puts in EH. apply hist_put_many_ok in EH; [|rewrite firstn_length; lia|exact R1].
        assert (RR : reach s (set_his (mkSt (skipn 4 (inp s)) (4 <=? length (inp s))%nat (his s) (warns s) (nextid s)) h)).
        { exists (firstn 4 (inp s)). split; [cbn [inp set_his]; symmetry; apply firstn_skipn|].
          split; [exact EH|]. cbn [good inp set_his]. destruct (4 <=? length (inp s))%nat eqn:E4; [left; reflexivity|right].
          apply skipn_all2. apply Nat.leb_gt in E4. lia. }
        destruct (length (firstn 4 (inp s)) =? 4)%nat; cbn [negb]; [|apply wp_ret; exact RR].
        destruct (appendUnicode e (firstn 4 (inp s))); [apply wp_ret; exact RR|discriminate|discriminate].
      + apply wp_bind. unfold wp at 1, hputs. cbn [length].
        destruct (hist_puts (his s) [] 0) as [h|] eqn:EH; [|discriminate].
        unfold hist_puts in EH. apply hist_put_many_ok in EH; [|lia|exact R1].
        cbn. exists []. split; [reflexivity|]. split; [exact EH|]. cbn.
        destruct R2; [congruence|auto].
    - destruct (Ascii.eqb c "b" || Ascii.eqb c "f" || Ascii.eqb c "r" || Ascii.eqb c "n" || Ascii.eqb c "t");
        [apply wp_ret, reach_refl; auto|].
      destruct (match params with Some p => strict p | None => false end); [discriminate|].
      apply wp_warn, wp_ret. exists []. split; [reflexivity|]. exact R.
  Qed.

  (** Fuel is enough for a loop at [s]. *)
  Definition fuel_ok (f : nat) (s : st) : Prop :=
    (length (inp s) + (if good s then 2 else 1) <= f)%nat.

  Lemma fuel_ok_loop s : fuel_ok (loop_fuel s) s.
  Proof. unfold fuel_ok, loop_fuel. destruct (good s); lia. Qed.

  Lemma ready_get c t h w n s : ready s -> inp s = c :: t -> hist_ok h ->
    reach1 s (mkSt t true h w n).
  Proof. intros R E H. exists [c]. split; [split; [exact E|split; [exact H|left; reflexivity]]|discriminate]. Qed.

  Lemma ready_eof h w n s : inp s = [] -> hist_ok h -> reach s (mkSt [] false h w n).
  Proof. intros E H. exists []. split; [exact E|]. split; [exact H|right; reflexivity]. Qed.

  Lemma string_reach f : forall parent escaped buf s, ready s -> fuel_ok f s ->
    wp (string_loop e params f parent escaped buf) (fun _ s' => reach s s') no_fuel s.
  Proof.
    induction f as [|f IH]; intros parent escaped buf s R F.
    { unfold fuel_ok in F. destruct (good s); lia. }
    cbn [string_loop]. apply wp_bind, wp_is_good.
    destruct (good s) eqn:G; cbn [negb]; [|apply wp_ret, reach_refl; exact R].
    apply wp_getput; [apply R|exact G| |].
    - intros c t h EI _ EH.
      set (s1 := mkSt t true h (warns s) (nextid s)).
      assert (R1 : reach1 s s1) by (apply ready_get with c; auto).
      assert (Rs : ready s1) by apply (reach_ready s s1 (reach1_reach _ _ R1)).
      assert (F1 : forall s2, reach s1 s2 -> fuel_ok f s2).
      { intros s2 Q. apply reach_len in Q. unfold fuel_ok in *. rewrite G, EI in F. simpl in F, Q.
        destruct (good s2); lia. }
      destruct escaped; cbn [negb].
      + apply wp_bind. eapply wp_mono; [apply escaped_reach; exact Rs| |auto].
        intros r s2 Q. cbv beta. destruct r as [buf'|].
        * eapply wp_mono; [apply IH; [apply (reach_ready _ _ Q)|apply F1, Q]| |auto].
          intros r s3 Q'. eapply reach_trans; [apply reach1_reach, R1|]. eapply reach_trans; eauto.
        * apply wp_ret. eapply reach_trans; [apply reach1_reach, R1|exact Q].
      + destruct (Ascii.eqb c DQUOTE).
        * apply wp_bind, wp_new_prim, wp_ret. apply reach1_reach in R1.
          destruct R1 as (c1 & E1 & _). exists c1. split; [exact E1|exact Rs].
        * destruct (Ascii.eqb c BSLASH);
            (eapply wp_mono; [apply IH; [exact Rs|apply F1, reach_refl, Rs]| |auto]);
            intros r s3 Q'; eapply reach_trans; eauto using reach1_reach.
    - intros h EI _ EH.
      set (s1 := mkSt [] false h (warns s) (nextid s)).
      assert (R1 : reach s s1) by (apply ready_eof; auto).
      assert (Rs : ready s1) by apply (reach_ready s s1 R1).
      assert (F1 : forall s2, reach s1 s2 -> good s2 = false -> fuel_ok f s2).
      { intros s2 Q GG. apply reach_len in Q. unfold fuel_ok in *. rewrite G, EI in F. simpl in F, Q.
        rewrite GG. lia. }
      destruct escaped; cbn [negb].
      + apply wp_bind. unfold consumeEscapedChar.
        replace (Ascii.eqb EOFCHAR BSLASH || Ascii.eqb EOFCHAR DQUOTE || Ascii.eqb EOFCHAR "/") with false by reflexivity.
        replace (Ascii.eqb EOFCHAR "u") with false by reflexivity.
        replace (Ascii.eqb EOFCHAR "b" || Ascii.eqb EOFCHAR "f" || Ascii.eqb EOFCHAR "r" || Ascii.eqb EOFCHAR "n" || Ascii.eqb EOFCHAR "t") with false by reflexivity.
        destruct (match params with Some p => strict p | None => false end); [discriminate|].
        apply wp_warn, wp_ret. cbn [his inp good warns nextid s1].
        eapply wp_mono; [apply IH|intros r s3 Q'|auto].
        * exact Rs.
        * unfold fuel_ok in *. rewrite G, EI in F. simpl in F. cbn. lia.
        * destruct Q' as (c' & E' & R'). exists c'. split; [cbn in E'; rewrite EI; exact E'|exact R'].
      + replace (Ascii.eqb EOFCHAR DQUOTE) with false by reflexivity.
        replace (Ascii.eqb EOFCHAR BSLASH) with false by reflexivity.
        eapply wp_mono; [apply IH; [exact Rs|apply F1; [apply reach_refl, Rs|reflexivity]]| |auto].
        intros r s3 Q'. eapply reach_trans; eauto.
  Qed.

  Lemma bool_reach f : forall parent first rd buf raw s, ready s -> fuel_ok f s ->
    wp (bool_loop params f parent first rd buf raw) (fun _ s' => reach s s') no_fuel s.
  Proof.
    induction f as [|f IH]; intros parent first rd buf raw s R F.
    { unfold fuel_ok in F. destruct (good s); lia. }
    cbn [bool_loop]. apply wp_bind, wp_is_good.
    destruct (good s) eqn:G; cbn [negb]; [|apply wp_ret, reach_refl; exact R].
    apply wp_getput; [apply R|exact G| |].
    - intros c t h EI _ EH.
      set (s1 := mkSt t true h (warns s) (nextid s)).
      assert (R1 : reach1 s s1) by (apply ready_get with c; auto).
      assert (Rs : ready s1) by apply (reach_ready s s1 (reach1_reach _ _ R1)).
      assert (F1 : fuel_ok f s1).
      { unfold fuel_ok in *. rewrite G, EI in F. simpl in F. simpl. lia. }
      assert (K : forall rd buf raw, wp (bool_loop params f parent first rd buf raw) (fun _ s' => reach s s') no_fuel s1).
      { intros. eapply wp_mono; [apply IH; [exact Rs|exact F1]| |auto].
        intros r s3 Q'. eapply reach_trans; eauto using reach1_reach. }
      cbv zeta. destruct (bool_letter (tolower c)).
      { destruct (_ || _); [discriminate|]. apply K. }
      destruct (negb _ && negb _); [discriminate|].
      apply wp_bind. 
      assert (D : wp (if negb (beqb buf raw) then deref_strict params else ret false)
                    (fun _ s' => s' = s1) no_fuel s1).
      { destruct (negb (beqb buf raw)); [|apply wp_ret; reflexivity].
        unfold deref_strict. destruct params; [apply wp_ret; reflexivity|discriminate]. }
      eapply wp_mono; [exact D| |auto]. intros bad s' ->. cbv beta.
      destruct bad; [discriminate|].
      destruct (beqb buf (str "true") || beqb buf (str "false")).
      + assert (RU : forall w, reach s (mkSt (c :: t) true (hist_pop h) w (nextid s + 1))).
        { intros w. exists []. split; [exact EI|]. split; [apply hist_pop_ok, EH|left; reflexivity]. }
        destruct (negb (beqb buf raw)).
        * apply wp_warn. apply wp_hpop_sunget. apply wp_bind, wp_new_prim, wp_ret. apply RU.
        * apply wp_bind, wp_ret. apply wp_hpop_sunget. apply wp_bind, wp_new_prim, wp_ret. apply RU.
      + destruct (ignoreChar c); [apply K|discriminate].
    - intros h EI _ EH.
      set (s1 := mkSt [] false h (warns s) (nextid s)).
      assert (R1 : reach s s1) by (apply ready_eof; auto).
      assert (Rs : ready s1) by apply (reach_ready s s1 R1).
      assert (F1 : fuel_ok f s1).
      { unfold fuel_ok in *. rewrite G, EI in F. simpl in F. simpl. lia. }
      assert (K : forall rd buf raw, wp (bool_loop params f parent first rd buf raw) (fun _ s' => reach s s') no_fuel s1).
      { intros. eapply wp_mono; [apply IH; [exact Rs|exact F1]| |auto].
        intros r s3 Q'. eapply reach_trans; eauto. }
      cbv zeta. destruct (bool_letter (tolower EOFCHAR)).
      { destruct (_ || _); [discriminate|]. apply K. }
      destruct (negb _ && negb _); [discriminate|].
      apply wp_bind.
      assert (D : wp (if negb (beqb buf raw) then deref_strict params else ret false)
                    (fun _ s' => s' = s1) no_fuel s1).
      { destruct (negb (beqb buf raw)); [|apply wp_ret; reflexivity].
        unfold deref_strict. destruct params; [apply wp_ret; reflexivity|discriminate]. }
      eapply wp_mono; [exact D| |auto]. intros bad s' ->. cbv beta.
      destruct bad; [discriminate|].
      destruct (beqb buf (str "true") || beqb buf (str "false")).
      + assert (RU : forall w, reach s (mkSt [] false (hist_pop h) w (nextid s + 1))).
        { intros w. exists []. split; [exact EI|]. split; [apply hist_pop_ok, EH|right; reflexivity]. }
        destruct (negb (beqb buf raw)).
        * apply wp_warn. apply wp_hpop_sunget. apply wp_bind, wp_new_prim, wp_ret. apply RU.
        * apply wp_bind, wp_ret. apply wp_hpop_sunget. apply wp_bind, wp_new_prim, wp_ret. apply RU.
      + destruct (ignoreChar EOFCHAR); [apply K|discriminate].
  Qed.

  Lemma integer_prim_wp buf (Q : prim -> st -> Prop) s :
    (forall p, Q p s) -> wp (integer_prim buf) Q no_fuel s.
  Proof.
    intros H. unfold integer_prim. destruct (stoi buf); [apply wp_ret, H|discriminate|].
    destruct (stol buf); [apply wp_ret, H|discriminate|discriminate].
  Qed.

  Lemma number_reach f : forall parent dbl buf s, ready s -> fuel_ok f s ->
    wp (number_loop f parent dbl buf) (fun _ s' => reach s s') no_fuel s.
  Proof.
    induction f as [|f IH]; intros parent dbl buf s R F.
    { unfold fuel_ok in F. destruct (good s); lia. }
    cbn [number_loop]. apply wp_bind, wp_is_good.
    destruct (good s) eqn:G; cbn [negb]; [|apply wp_ret, reach_refl; exact R].
    assert (FIN : forall s1, reach s s1 -> wp (p <- (if dbl then ret (PDbl (atof buf)) else integer_prim buf) ;;
            n <- new_prim parent p ;; ret (TElem n)) (fun _ s' => reach s s') no_fuel s1).
    { intros s1 R1. apply wp_bind.
      assert (K : forall p, wp (n <- new_prim parent p ;; ret (TElem n)) (fun _ s' => reach s s') no_fuel s1).
      { intros p. apply wp_bind, wp_new_prim, wp_ret. destruct R1 as (c1 & E1 & R1). exists c1. split; [exact E1|].
        exact R1. }
      destruct dbl; [apply wp_ret, K|apply integer_prim_wp, K]. }
    apply wp_getput; [apply R|exact G| |].
    - intros c t h EI _ EH.
      set (s1 := mkSt t true h (warns s) (nextid s)).
      assert (R1 : reach1 s s1) by (apply ready_get with c; auto).
      assert (Rs : ready s1) by apply (reach_ready s s1 (reach1_reach _ _ R1)).
      assert (F1 : fuel_ok f s1).
      { unfold fuel_ok in *. rewrite G, EI in F. simpl in F. simpl. lia. }
      assert (K : forall dbl buf, wp (number_loop f parent dbl buf) (fun _ s' => reach s s') no_fuel s1).
      { intros. eapply wp_mono; [apply IH; [exact Rs|exact F1]| |auto].
        intros r s3 Q'. eapply reach_trans; eauto using reach1_reach. }
      destruct (is_digit c); [apply K|].
      destruct (Ascii.eqb c "." && negb dbl); [apply K|].
      apply wp_hpop_sunget. apply FIN.
      exists []. split; [exact EI|]. split; [apply hist_pop_ok, EH|left; reflexivity].
    - intros h EI _ EH.
      replace (is_digit EOFCHAR) with false by reflexivity.
      replace (Ascii.eqb EOFCHAR "." && negb dbl) with false by reflexivity.
      apply wp_hpop_sunget. apply FIN.
      exists []. split; [exact EI|]. split; [apply hist_pop_ok, EH|right; reflexivity].
  Qed.

  Lemma null_reach parent c s : ready s -> good s = true ->
    wp (consumeNull params parent c) (fun _ s' => reach s s') no_fuel s.
  Proof.
    intros R G. unfold consumeNull. apply wp_bind. unfold wp at 1, sread. rewrite G.
    apply wp_bind. unfold wp at 1, hputs. cbn [his].
    match goal with |- context [hist_puts ?h ?m ?c] => destruct (hist_puts h m c) as [h'|] eqn:EH end; [|discriminate].
    unfold hist_puts in EH. apply hist_put_many_ok in EH; [|lia|apply R].
    assert (RR : forall w n, reach s (mkSt (skipn 3 (inp s)) (3 <=? length (inp s))%nat h' w n)).
    { intros w n. exists (firstn 3 (inp s)). split; [cbn [inp set_his]; symmetry; apply firstn_skipn|].
      split; [exact EH|]. cbn [good inp set_his]. destruct (3 <=? length (inp s))%nat eqn:E4; [left; reflexivity|right].
      apply skipn_all2. apply Nat.leb_gt in E4. lia. }
    apply wp_bind, wp_is_good. cbn [good set_his].
    destruct (negb (3 <=? length (inp s))%nat); [apply wp_ret, RR|].
    match goal with |- context [beqb ?a (str "null")] => destruct (beqb a (str "null")) end; [|discriminate].
    apply wp_bind.
    match goal with |- wp _ _ _ ?s1 => set (s1' := s1) end.
    match goal with |- wp ?m _ _ _ => assert (D : wp m (fun _ s' => s' = s1') no_fuel s1') end.
    { match goal with |- context [if ?b then _ else _] => destruct b end; [apply wp_ret; reflexivity|].
      unfold deref_strict. destruct params; [reflexivity|discriminate]. }
    eapply wp_mono; [exact D| |auto]. intros ok s' ->. cbv beta. destruct ok; [|discriminate].
    match goal with |- context [if ?b then warn _ else _] => destruct b end.
    - apply wp_warn. apply wp_bind, wp_new_prim, wp_ret. apply RR.
    - apply wp_bind, wp_ret. apply wp_bind, wp_new_prim, wp_ret. apply RR.
  Qed.

  (** A token or an element consumes input; only the empty token does not. *)
  Definition tok_reach (s : st) (t : tok) (s' : st) : Prop :=
    match t with TTok [] => reach s s' | _ => reach1 s s' end.

  Lemma tok_reach_reach s t s' : tok_reach s t s' -> reach s s'.
  Proof. destruct t as [n|[|c b]]; simpl; auto using reach1_reach. Qed.

  Lemma reach1_tok s t s' : reach1 s s' -> tok_reach s t s'.
  Proof. destruct t as [n|[|c b]]; simpl; auto using reach1_reach. Qed.

  Lemma token_reach f : forall parent s, ready s -> fuel_ok f s ->
    wp (token_loop e params f parent) (tok_reach s) no_fuel s.
  Proof.
    induction f as [|f IH]; intros parent s R F.
    { unfold fuel_ok in F. destruct (good s); lia. }
    cbn [token_loop]. apply wp_bind, wp_is_good.
    destruct (good s) eqn:G; cbn [negb]; [|apply wp_ret; simpl; apply reach_refl; exact R].
    apply wp_getput; [apply R|exact G| |].
    - intros c t h EI _ EH.
      set (s1 := mkSt t true h (warns s) (nextid s)).
      assert (R1 : reach1 s s1) by (apply ready_get with c; auto).
      assert (Rs : ready s1) by apply (reach_ready s s1 (reach1_reach _ _ R1)).
      assert (T : forall s2 tk, reach s1 s2 -> tok_reach s tk s2).
      { intros s2 tk Q. apply reach1_tok. eapply reach1_trans_l; eauto. }
      destruct (Ascii.eqb c DQUOTE).
      { unfold consumeString. eapply wp_mono; [apply string_reach; [exact Rs|apply fuel_ok_loop]| |auto]. auto. }
      destruct (existsb _ _).
      { unfold consumeBool. eapply wp_mono; [apply bool_reach; [exact Rs|apply fuel_ok_loop]| |auto]. auto. }
      destruct (_ || _).
      { eapply wp_mono; [apply null_reach; [exact Rs|reflexivity]| |auto]. auto. }
      destruct (_ || _).
      { unfold consumeNumber. eapply wp_mono; [apply number_reach; [exact Rs|apply fuel_ok_loop]| |auto]. auto. }
      destruct (is_token c); [apply wp_ret, T, reach_refl, Rs|].
      destruct (negb (ignoreChar c)); [discriminate|].
      eapply wp_mono; [apply IH; [exact Rs|]| |auto].
      { unfold fuel_ok in *. rewrite G, EI in F. simpl in F. simpl. lia. }
      intros tk s2 Q. apply T. apply (tok_reach_reach _ _ _ Q).
    - intros h EI _ EH.
      set (s1 := mkSt [] false h (warns s) (nextid s)).
      assert (R1 : reach s s1) by (apply ready_eof; auto).
      assert (Rs : ready s1) by apply (reach_ready s s1 R1).
      replace (Ascii.eqb EOFCHAR DQUOTE) with false by reflexivity.
      replace (existsb (Ascii.eqb EOFCHAR) ["t"%char; "f"%char; "T"%char; "F"%char]) with false by reflexivity.
      replace (Ascii.eqb EOFCHAR "n" || Ascii.eqb EOFCHAR "N") with false by reflexivity.
      replace (is_digit EOFCHAR || Ascii.eqb EOFCHAR "." || Ascii.eqb EOFCHAR "-") with false by reflexivity.
      replace (is_token EOFCHAR) with false by reflexivity.
      replace (ignoreChar EOFCHAR) with true by reflexivity. cbn [negb].
      destruct f as [|f].
      { unfold fuel_ok in F. rewrite G in F. lia. }
      cbn [token_loop]. apply wp_bind, wp_is_good. cbn [good s1 negb]. apply wp_ret. exact R1.
  Qed.

  Lemma consumeToken_reach parent s : ready s ->
    wp (consumeToken e params parent) (tok_reach s) no_fuel s.
  Proof. intros R. unfold consumeToken. apply token_reach; [exact R|apply fuel_ok_loop]. Qed.
End Termination.

(** C01, C06 (order), C10 (verbatim escapes), C12. *)
From Verif Require Export Proofs.GrammarTree Proofs.ParserSort Proofs.ParserTree.
Open Scope Z_scope.

Lemma jstring_mono (c c' : ascii -> bytes -> Prop) (u u' : bytes -> bytes -> Prop) :
  (forall a b, c a b -> c' a b) -> (forall a b, u a b -> u' a b) ->
  forall t v, jstring c u t v -> jstring c' u' t v.
Proof.
  intros HC HU t v H. induction H as [|t v t' v' J S IH]; [constructor|]. constructor; [|exact IH].
  destruct J as [x A B C|x A|x y A B|h y A]; [apply JC_plain|apply JC_esc|apply JC_ctrl|apply JC_uni]; auto.
Qed.

Lemma grammar_mono (S S' : bytes -> bytes -> Prop) : (forall a b, S a b -> S' a b) ->
  (forall t v, jval S t v -> jval S' t v) /\ (forall t l, elems S t l -> elems S' t l) /\
  (forall t l, members S t l -> members S' t l).
Proof.
  intros H. apply grammar_mut; intros; try (constructor; auto; fail).
Qed.

Lemma last_keys_distinct t : distinct_keys t -> last_keys t = t.
Proof.
  induction t as [p|l IH|l IH] using tree_ind'; intros D; inversion D as [|l' F|l' N F]; subst; cbn [last_keys].
  - reflexivity.
  - f_equal. induction F as [|x l F1 F2 IHF]; cbn [map]; [reflexivity|]. inversion_clear IH as [|? ? I1 I2].
    rewrite I1 by exact F1. f_equal. apply IHF; [exact I2|]. inversion D; subst. constructor. inversion H0; auto.
  - f_equal. assert (E : map (fun kv => (fst kv, last_keys (snd kv))) l = l).
    { clear N D. induction F as [|[k x] l F1 F2 IHF]; cbn [map]; [reflexivity|]. inversion_clear IH as [|? ? I1 I2].
      cbn [fst snd] in *. rewrite I1 by exact F1. f_equal. apply IHF, I2. }
    rewrite E. apply last_wins_nodup, N.
Qed.

(** Meaning given to unicode escapes by a configuration. *)
Definition conf_uni (e : env) (p : cfg) (h v : bytes) : Prop :=
  if ignoreUnicode p then kept_uni h v
  else exists u, code_unit h u /\ (encodes_surrogates e = true \/ ~ surrogate u) /\ utf8 v u.

Lemma conf_uni_ok e p h v : conf_uni e p h v -> (exists u, code_unit h u) /\
  (if ignoreUnicode p then v = BSLASH :: "u"%char :: h else appendUnicode e h = UniOk v).
Proof.
  unfold conf_uni. destruct (ignoreUnicode p).
  - intros [U E]. auto.
  - intros (u & U & S & V). split; [eauto|]. destruct (appendUnicode_ok e h u U S) as (bs & E & V').
    rewrite E. f_equal. eapply utf8_inj; eauto.
Qed.

(** --keep-order *)
Lemma read_kept_order e p w0 t v rest : sortObjects p = false ->
  jval (jstring kept_ctrl (conf_uni e p)) t v -> (strict p = true -> distinct_keys v) -> ws w0 -> boundary rest ->
  exists root s', read_doc e (Some p) (w0 ++ t ++ rest) = Ok (Some root, s') /\ erase root = last_keys v /\
    inp s' = rest /\ (distinct_keys v -> warns s' = []).
Proof. intros K J D W B. eapply read_kept; eauto. intros h x U. apply conf_uni_ok, U. Qed.

(** Any order *)
Lemma read_grammar e p w0 t v rest : jval (jstring kept_ctrl (conf_uni e p)) t v -> distinct_keys v ->
  ws w0 -> boundary rest ->
  exists root s', read_doc e (Some p) (w0 ++ t ++ rest) = Ok (Some root, s') /\ inp s' = rest /\ warns s' = [] /\
    if sortObjects p then reordered (erase root) v /\ all_objects (StronglySorted byte_lt) (erase root)
    else erase root = v.
Proof.
  intros J D W B. destruct p as [st_ ig so].
  destruct (read_kept_order e (mkCfg st_ ig false) w0 t v rest eq_refl J (fun _ => D) W B) as (r & s & E & ET & EI & EW).
  rewrite (last_keys_distinct v D) in ET. cbn [sortObjects]. destruct so; [|eauto 10].
  pose proof (read_sort_rel e st_ ig (w0 ++ t ++ rest)) as R. rewrite E in R.
  destruct (read_doc e (Some (mkCfg st_ ig true)) (w0 ++ t ++ rest)) as [[[r'|] s']|x|x|x|] eqn:E'; try contradiction.
  destruct R as [-> R]. exists r', s. split; [reflexivity|]. split; [exact EI|]. split; [auto|]. split; [rewrite <- ET; exact R|].
  eapply read_keys_sorted; [|exact E']. reflexivity.
Qed.

(** RFC strings without control escapes. *)
Lemma read_rfc e p w0 t v rest : ignoreUnicode p = false ->
  jval (jstring no_ctrl rfc_uni) t v -> distinct_keys v -> ws w0 -> boundary rest ->
  exists root s', read_doc e (Some p) (w0 ++ t ++ rest) = Ok (Some root, s') /\ inp s' = rest /\ warns s' = [] /\
    if sortObjects p then reordered (erase root) v /\ all_objects (StronglySorted byte_lt) (erase root)
    else erase root = v.
Proof.
  intros I J. apply read_grammar. refine (proj1 (grammar_mono _ _ _) t v J).
  apply jstring_mono; [intros a b []|]. intros h x (u & U & N & V). unfold conf_uni. rewrite I. eauto.
Qed.

(** ** Integers *)
Lemma number_stop_gen w rest parent fuel buf s (Q : tok -> st -> Prop) (E : fail -> Prop) :
  (0 < fuel)%nat -> at_ w rest s -> good s = true -> boundary rest ->
  (forall s', at_ w rest s' -> wp (integer_prim buf) (fun p s' => wp (n <- new_prim parent p ;; ret (TElem n)) Q E s') E s') ->
  wp (number_loop fuel parent false buf) Q E s.
Proof.
  intros L H G B K. destruct fuel as [|fuel]; [lia|]. cbn [number_loop].
  destruct rest as [|c rest].
  - eapply wp_next_eof; [exact H|exact G|]. intros s1 H1 G1.
    change (is_digit EOFCHAR) with false. change (Ascii.eqb EOFCHAR "." && negb false) with false. cbv iota.
    eapply wp_giveback; [exact H1|]. rewrite G1. intros s2 H2. apply wp_bind. eapply K, H2.
  - eapply wp_next; [exact H|]. intros s1 H1 G1. destruct (boundary_char c rest B) as (-> & -> & _ & _). cbn [andb].
    eapply wp_giveback; [exact H1|]. rewrite G1. intros s2 H2. apply wp_bind. eapply K, H2.
Qed.

(** The three outcomes of an integer literal. *)
Definition int_outcome (z : Z) (r : res (option node * st)) (rest : bytes) : Prop :=
  (exists x m s', int_prim z x /\ r = Ok (Some (NPrim m x), s') /\ inp s' = rest /\ warns s' = []) \/
  (~ (- 2 ^ 63 <= z < 2 ^ 63) /\ r = Abort StdOutOfRange).

Lemma read_int e params w0 neg l rest : digits l -> ws w0 -> boundary rest ->
  int_outcome (signed neg (dec_value l)) (read_doc e params (w0 ++ minus neg ++ l ++ rest)) rest.
Proof.
  intros D W B. unfold read_doc. set (input := w0 ++ minus neg ++ l ++ rest).
  assert (A : at_ [] input (init_st input)) by (split; [reflexivity|]; split; [apply init_ready|reflexivity]).
  destruct (minus neg ++ l) as [|c r] eqn:E.
  { destruct D as [N _]. destruct neg; destruct l; discriminate || congruence. }
  assert (EI : input = w0 ++ c :: r ++ rest) by (unfold input; rewrite (app_assoc (minus neg)), E; reflexivity).
  set (z := signed neg (dec_value l)).
  assert (FB : Forall dec_digit r).
  { destruct D as [_ F]. destruct neg; cbn in E.
    - injection E as <- <-. exact F.
    - subst l. inversion F; assumption. }
  assert (K : wp (consumeToken e params None)
     (fun t s' => exists x m, int_prim z x /\ t = TElem (NPrim m x) /\ at_ [] rest s')
     (fun f => ~ (- 2 ^ 63 <= z < 2 ^ 63) /\ f = FAbort StdOutOfRange) (init_st input)).
  { assert (A' : at_ [] (w0 ++ c :: r ++ rest) (init_st input)) by (rewrite <- EI; exact A).
    change (wp (token_loop e params (S (S (length (inp (init_st input))))) None)
     (fun t s' => exists x m, int_prim z x /\ t = TElem (NPrim m x) /\ at_ [] rest s')
     (fun f => ~ (- 2 ^ 63 <= z < 2 ^ 63) /\ f = FAbort StdOutOfRange) (init_st input)).
    assert (LI : length (inp (init_st input)) = (length w0 + S (length (r ++ rest)))%nat) by (rewrite EI; apply app_length).
    rewrite LI. clear LI.
    assert (TS : forall w0, ws w0 -> forall s fuel, (length w0 < fuel)%nat -> at_ [] (w0 ++ c :: r ++ rest) s ->
      wp (token_loop e params fuel None)
     (fun t s' => exists x m, int_prim z x /\ t = TElem (NPrim m x) /\ at_ [] rest s')
     (fun f => ~ (- 2 ^ 63 <= z < 2 ^ 63) /\ f = FAbort StdOutOfRange) s).
    { clear w0 W EI A A' input. induction 1 as [|x w0 X W IH]; intros s fuel LF H.
      - destruct fuel as [|fuel]; [lia|]. cbn [token_loop]. eapply wp_next; [exact H|]. intros s1 H1 G1.
        destruct (number_first neg l c r D E) as (E1 & E2 & E3 & E4). rewrite E1, E2, E3, E4.
        unfold consumeNumber.
        match goal with |- wp _ ?Q ?F _ => change (wp (number_loop (loop_fuel s1) None false [c]) Q F s1) end.
        assert (LL : length (inp s1) = (length r + length rest)%nat) by (destruct H1 as (-> & _); apply app_length).
        eapply number_digits; [exact FB|unfold loop_fuel; lia|exact H1|auto|]. intros s2 H2 G2.
        eapply number_stop_gen; [unfold loop_fuel; lia|exact H2|exact G2|exact B|]. intros s3 H3.
        unfold wp at 1. cbn [app]. rewrite <- E. unfold integer_prim, stoi, stol, stox. rewrite (strtol_spec neg l D). fold z.
        change (2 ^ (32 - 1)) with (2 ^ 31). change (2 ^ (64 - 1)) with (2 ^ 63).
        destruct ((- 2 ^ 31 <=? z) && (z <? 2 ^ 31)) eqn:R1.
        + cbn. exists (PInt z), (mkMeta (nextid s3) None). split; [constructor; lia|]. split; [reflexivity|apply at_fresh, H3].
        + destruct ((- 2 ^ 63 <=? z) && (z <? 2 ^ 63)) eqn:R2; cbn.
          * exists (PLong z), (mkMeta (nextid s3) None). split; [constructor; lia|]. split; [reflexivity|apply at_fresh, H3].
          * split; [lia|reflexivity].
      - cbn [length] in LF. destruct fuel as [|fuel]; [lia|]. cbn [token_loop]. eapply wp_next; [exact H|]. intros s1 H1 G1.
        assert (K1 := IH s1 fuel ltac:(lia) H1). apply is_ws_cases in X. destruct X as [->|[->|[->| ->]]]; exact K1. }
    apply (TS w0); [exact W|lia|exact A']. }
  unfold readNext, readNext_with. unfold bind at 1. unfold wp in K.
  destruct (consumeToken e params None (init_st input)) as [[t s']|x|x|x|].
  - destruct K as (x & m & IP & -> & (EI' & _ & EW)). left. exists x, m, s'. repeat split; auto.
  - destruct K as [_ K]; discriminate.
  - destruct K as [K1 K]. injection K as ->. right. auto.
  - destruct K as [_ K]; discriminate.
  - destruct K as [_ K]; discriminate.
Qed.

(** ** Decimal notation *)
Lemma digit_chr_uchar z : 0 <= z < 10 -> uchar (digit_chr z) = 48 + z.
Proof. intros H. apply chr_uchar. lia. Qed.

Lemma dec_digits_spec fuel : forall n acc, 0 <= n -> n < 10 ^ Z.of_nat fuel -> (0 < fuel)%nat ->
  exists d, dec_digits fuel n acc = d ++ acc /\ digits d /\
    (forall a, fold_left (fun a c => 10 * a + (uchar c - 48)) d a = a * 10 ^ Z.of_nat (length d) + n) /\
    (forall c r, d = c :: r -> uchar c = 48 -> r = [] /\ n = 0).
Proof.
  induction fuel as [|fuel IH]; intros n acc H0 H1 HF; [lia|]. cbn [dec_digits].
  pose proof (Z.div_mod n 10 ltac:(lia)) as DM. pose proof (Z.mod_pos_bound n 10 ltac:(lia)) as MB.
  assert (UD : uchar (digit_chr (n mod 10)) = 48 + n mod 10) by (apply digit_chr_uchar; lia).
  destruct (n / 10 =? 0) eqn:E.
  - exists [digit_chr (n mod 10)]. split; [reflexivity|]. split; [|split].
    + split; [discriminate|]. repeat constructor; unfold dec_digit; lia.
    + intros a. cbn [fold_left length]. change (10 ^ Z.of_nat 1) with 10. lia.
    + intros c r [= <- <-] Q. split; [reflexivity|lia].
  - assert (HP : 0 < n / 10) by (pose proof (Z.div_pos n 10); lia).
    assert (HB : n / 10 < 10 ^ Z.of_nat fuel).
    { rewrite Nat2Z.inj_succ, Z.pow_succ_r in H1 by lia. apply Z.div_lt_upper_bound; lia. }
    assert (HF' : (0 < fuel)%nat) by (destruct fuel; [cbn in HB; lia|lia]).
    destruct (IH (n / 10) (digit_chr (n mod 10) :: acc) ltac:(lia) HB HF') as (d & -> & [N F] & V & Z0).
    exists (d ++ [digit_chr (n mod 10)]). split; [rewrite <- app_assoc; reflexivity|]. split; [|split].
    + split; [destruct d; discriminate|]. apply Forall_app. split; [exact F|]. repeat constructor; unfold dec_digit; lia.
    + intros a. rewrite fold_left_app, V, app_length. cbn [fold_left length].
      rewrite Nat2Z.inj_add, Z.pow_add_r by lia. change (10 ^ Z.of_nat 1) with 10. lia.
    + intros c r Q U. destruct d as [|c' d]; [congruence|]. cbn [app] in Q. injection Q as -> _.
      destruct (Z0 c d eq_refl U). lia.
Qed.

Lemma dec_nonneg_spec n : 0 <= n -> int_digits (dec_nonneg n) /\ dec_value (dec_nonneg n) = n /\
  (forall r, dec_nonneg n = "0"%char :: r -> n = 0).
Proof.
  intros H. unfold dec_nonneg.
  assert (B : n < 10 ^ Z.of_nat (S (Z.to_nat (Z.log2 n + 1)))).
  { pose proof (Z.log2_nonneg n). rewrite Nat2Z.inj_succ, Z2Nat.id by lia.
    destruct (Z.eq_dec n 0) as [->|N]; [reflexivity|]. pose proof (Z.log2_spec n ltac:(lia)) as [_ L].
    assert (2 ^ Z.succ (Z.log2 n) <= 10 ^ Z.succ (Z.log2 n)) by (apply Z.pow_le_mono_l; lia).
    assert (10 ^ Z.succ (Z.log2 n) <= 10 ^ Z.succ (Z.log2 n + 1)) by (apply Z.pow_le_mono_r; lia). lia. }
  destruct (dec_digits_spec _ n [] H B ltac:(lia)) as (d & -> & D & V & Z0). rewrite app_nil_r.
  split; [|split].
  - split; [exact D|]. intros c r E U. apply (Z0 c r E U).
  - unfold dec_value. rewrite V. lia.
  - intros r E. apply (Z0 _ r E). reflexivity.
Qed.

Lemma dec_Z_spec z : exists neg l, dec_Z z = minus neg ++ l /\ int_digits l /\ signed neg (dec_value l) = z /\
  (neg = true -> z <> 0).
Proof.
  unfold dec_Z. destruct (z <? 0) eqn:E.
  - destruct (dec_nonneg_spec (- z) ltac:(lia)) as (D & V & _). exists true, (dec_nonneg (- z)).
    split; [reflexivity|]. split; [exact D|]. cbn [signed]. lia.
  - destruct (dec_nonneg_spec z ltac:(lia)) as (D & V & _). exists false, (dec_nonneg z).
    split; [reflexivity|]. split; [exact D|]. cbn [signed]. split; [exact V|discriminate].
Qed.

Lemma utf8_bijective b1 b2 u v : utf8 b1 u -> utf8 b2 v -> (b1 = b2 <-> u = v).
Proof.
  intros A B. split; intros E; subst.
  - eapply utf8_fun; eauto.
  - eapply utf8_inj; eauto.
Qed.

Lemma read_kept_escapes e p w0 t v rest :
  jval (jstring kept_ctrl (if ignoreUnicode p then kept_uni else rfc_uni)) t v -> distinct_keys v -> ws w0 -> boundary rest ->
  exists root s', read_doc e (Some p) (w0 ++ t ++ rest) = Ok (Some root, s') /\ inp s' = rest /\ warns s' = [] /\
    if sortObjects p then reordered (erase root) v /\ all_objects (StronglySorted byte_lt) (erase root)
    else erase root = v.
Proof.
  intros J. apply read_grammar. refine (proj1 (grammar_mono _ _ _) t v J).
  apply jstring_mono; [auto|]. intros h x. unfold conf_uni. destruct (ignoreUnicode p); [auto|].
  intros (u & U & N & V). eauto.
Qed.

Lemma read_ascii_verbatim e p w0 t v rest : ignoreUnicode p = true ->
  jval (jstring kept_ctrl kept_uni) t v -> distinct_keys v -> ws w0 -> boundary rest ->
  exists root s', read_doc e (Some p) (w0 ++ t ++ rest) = Ok (Some root, s') /\ inp s' = rest /\ warns s' = [] /\
    if sortObjects p then reordered (erase root) v /\ all_objects (StronglySorted byte_lt) (erase root)
    else erase root = v.
Proof. intros I J. apply read_kept_escapes. rewrite I. exact J. Qed.

(** Search patterns. *)
From Verif Require Export Model.SearchPattern Spec.SearchSpec Spec.SearchTypes Proofs.TreeProofs.
Open Scope Z_scope.

(** ** std::search *)
Lemma at_start_iff eq s p : at_start eq s p = true <-> exists m b, s = m ++ b /\ Forall2 (fun x y => eq x y = true) m p.
Proof.
  revert s. induction p as [|y p IH]; intros s; cbn [at_start].
  - split; [|destruct s; reflexivity]. intros _. exists [], s. split; [reflexivity|constructor].
  - destruct s as [|x s].
    + split; [discriminate|]. intros (m & b & E & F). destruct m; [inversion F|discriminate].
    + cbn [at_start]. rewrite andb_true_iff, IH. split.
      * intros [E (m & b & -> & F)]. exists (x :: m), b. split; [reflexivity|]. constructor; assumption.
      * intros (m & b & E & F). destruct m as [|x' m]; [inversion F|]. injection E as <- ->. inversion F; subst.
        split; [assumption|]. eauto.
Qed.

Lemma search_le eq s p : (std_search eq s p <= length s)%nat.
Proof.
  induction s as [|x s IH]; cbn [std_search length]; [destruct at_start; lia|].
  destruct at_start; [lia|]. lia.
Qed.

Lemma found_iff eq s p : found eq s p = true <->
  s <> [] /\ (p = [] \/ exists a m b, s = a ++ m ++ b /\ Forall2 (fun x y => eq x y = true) m p).
Proof.
  unfold found. rewrite negb_true_iff, Nat.eqb_neq.
  assert (K : std_search eq s p <> length s <->
    s <> [] /\ exists a m b, s = a ++ m ++ b /\ (m = [] -> b <> []) /\ Forall2 (fun x y => eq x y = true) m p).
  { induction s as [|x s IH]; cbn [std_search length].
    - destruct at_start; split; try congruence; intros [Q _]; congruence.
    - destruct (at_start eq (x :: s) p) eqn:E.
      + split; [|lia]. intros _. split; [discriminate|]. apply at_start_iff in E. destruct E as (m & b & Q & F).
        exists [], m, b. split; [exact Q|]. split; [|exact F]. intros -> ->. discriminate.
      + split.
        * intros N. assert (N' : std_search eq s p <> length s) by lia. apply IH in N'. destruct N' as [_ (a & m & b & -> & B & F)].
          split; [discriminate|]. exists (x :: a), m, b. auto.
        * intros [_ (a & m & b & Q & B & F)]. destruct a as [|x' a]; cbn [app] in Q.
          { exfalso. assert (at_start eq (x :: s) p = true) by (apply at_start_iff; eauto). congruence. }
          injection Q as <- ->. assert (N' : std_search eq (a ++ m ++ b) p <> length (a ++ m ++ b)); [|lia].
          apply IH. split; [|eauto 6]. intros Q. apply app_eq_nil in Q. destruct Q as [-> Q]. apply app_eq_nil in Q. destruct Q as [-> ->]. apply B; reflexivity. }
  rewrite K. split; intros [N H]; split; auto.
  - destruct H as (a & m & b & E & _ & F). right. eauto 6.
  - destruct H as [-> | (a & m & b & -> & F)].
    + exists [], [], s. split; [reflexivity|]. split; [auto|constructor].
    + destruct p as [|y p].
      * exists [], [], (a ++ m ++ b). split; [reflexivity|]. split; [auto|constructor].
      * exists a, m, b. split; [reflexivity|]. split; [|exact F]. intros ->. inversion F.
Qed.

(** The comparison of the code against the seen text. *)
Lemma foreign_lower c : foreign (tolower c) <-> foreign c.
Proof. unfold foreign. destruct c as [[] [] [] [] [] [] [] []]; vm_compute; intuition congruence. Qed.
Lemma foreign_untab c : foreign (untab c) <-> foreign c.
Proof. unfold untab. destruct (Ascii.eqb c TAB) eqn:E; [|tauto]. apply Ascii.eqb_eq in E. subst c. unfold foreign. vm_compute. intuition congruence. Qed.
Lemma high_iff c : high c = false <-> ~ foreign c.
Proof. unfold high, foreign. destruct (128 <=? uchar c) eqn:A, (uchar c <=? 254) eqn:B; cbn; lia || (split; [discriminate|lia]). Qed.

Lemma pat_eq_seen p m q : Forall2 (fun x y => pat_eq p x y = true) m q <-> seen (fcase p) m = q /\ matchable (fcase p) q.
Proof.
  unfold seen, matchable. split.
  - induction 1 as [|x y m q E F IH]; [split; [reflexivity|constructor]|]. cbn [map]. destruct IH as [IH M].
    unfold pat_eq in E. fold (untab x) in E. destruct (fcase p).
    + apply andb_true_iff in E. destruct E as [H E]. apply Ascii.eqb_eq in E. apply negb_true_iff, high_iff in H. subst y.
      split; [f_equal; exact IH|]. intros _. constructor; [rewrite foreign_lower; exact H|apply M; reflexivity].
    + apply Ascii.eqb_eq in E. subst y. split; [f_equal; exact IH|discriminate].
  - intros [<- M]. induction m as [|x m IH]; cbn [map] in *; constructor.
    + unfold pat_eq. fold (untab x). destruct (fcase p); [|apply Ascii.eqb_refl]. rewrite Ascii.eqb_refl, andb_true_r.
      apply negb_true_iff, high_iff. specialize (M eq_refl). inversion M; subst. rewrite <- foreign_lower. assumption.
    + apply IH. intros E. specialize (M E). inversion M; subst. assumption.
Qed.

Lemma seen_app i a b : seen i (a ++ b) = seen i a ++ seen i b.
Proof. apply map_app. Qed.
Lemma seen_length i a : length (seen i a) = length a.
Proof. apply map_length. Qed.

Lemma occurs_seen i s q : (exists a m b, s = a ++ m ++ b /\ seen i m = q) <-> occurs q (seen i s).
Proof.
  split.
  - intros (a & m & b & -> & <-). exists (seen i a), (seen i b). rewrite !seen_app. reflexivity.
  - intros (a & b & E). unfold seen in E. apply map_eq_app in E. destruct E as (s1 & s2 & -> & <- & E).
    apply map_eq_app in E. destruct E as (m & s3 & -> & <- & <-). exists s1, m, s3. auto.
Qed.

Lemma found_seen p s q : found (pat_eq p) s q = true <-> s <> [] /\ matchable (fcase p) q /\ occurs q (seen (fcase p) s).
Proof.
  rewrite found_iff. split; intros [N H]; split; auto.
  - destruct H as [-> | (a & m & b & E & F)].
    + split; [intros _; constructor|]. exists [], (seen (fcase p) s). reflexivity.
    + apply pat_eq_seen in F. destruct F as [F M]. split; [exact M|]. apply occurs_seen. eauto 6.
  - destruct H as [M H]. apply occurs_seen in H. destruct H as (a & m & b & E & F). right. exists a, m, b. split; [exact E|].
    apply pat_eq_seen. auto.
Qed.

(** ** Matching *)
Lemma plain_match rx p s t : fregex p = false -> fword p = false -> fstr p = false -> type_ok (ftype p) t = true ->
  match_ rx p s t = true <-> s <> [] /\ matchable (fcase p) (pat p) /\ occurs (pat p) (seen (fcase p) s).
Proof.
  intros R W F T. unfold match_. rewrite T, R, W, F. cbn [negb andb orb].
  destruct (length s <? length (pat p))%nat eqn:L; [|apply found_seen].
  split; [discriminate|]. intros [_ [_ (a & b & E)]]. apply (f_equal (@length ascii)) in E.
  rewrite seen_length, !app_length in E. apply Nat.ltb_lt in L. lia.
Qed.

Lemma occurs_same q s : length q = length s -> occurs q s -> s = q.
Proof.
  intros L (a & b & ->). rewrite !app_length in L. destruct a; [|cbn in L; lia]. destruct b; [|cbn in L; lia]. apply app_nil_r.
Qed.

Lemma whole_match rx p s t : fregex p = false -> fword p = false -> fstr p = true -> type_ok (ftype p) t = true ->
  match_ rx p s t = true <-> s <> [] /\ matchable (fcase p) (pat p) /\ seen (fcase p) s = pat p.
Proof.
  intros R W F T. unfold match_. rewrite T, R, W, F. cbn [negb andb orb].
  destruct (length s =? length (pat p))%nat eqn:L; cbn [negb orb].
  - apply Nat.eqb_eq in L. rewrite L, Nat.ltb_irrefl. rewrite found_seen.
    split; intros [N [M H]]; split; auto; split; auto.
    + apply occurs_same; [rewrite seen_length; congruence|exact H].
    + rewrite H. exists [], []. rewrite app_nil_r. reflexivity.
  - split; [discriminate|]. intros [_ [_ E]]. apply (f_equal (@length ascii)) in E. rewrite seen_length in E. apply Nat.eqb_neq in L. lia.
Qed.

Lemma matchable_word i q : matchable i (" "%char :: q ++ [" "%char]) <-> matchable i q.
Proof.
  unfold matchable. split; intros H E; specialize (H E).
  - inversion H as [|c l A B]; subst. apply Forall_app in B. apply B.
  - assert (~ foreign " ") by (unfold foreign; vm_compute; intuition congruence).
    constructor; [assumption|]. apply Forall_app. auto.
Qed.

Lemma word_match rx p s t : fregex p = false -> fword p = true -> fstr p = false -> type_ok (ftype p) t = true ->
  match_ rx p s t = true <->
  s <> [] /\ matchable (fcase p) (pat p) /\ (seen (fcase p) s = pat p \/
              occurs (" "%char :: pat p ++ [" "%char]) (seen (fcase p) s)).
Proof.
  intros R W F T. unfold match_. rewrite T, R, W, F. cbn [negb andb orb].
  destruct (length s <? length (pat p))%nat eqn:L.
  - apply Nat.ltb_lt in L. split; [discriminate|]. intros [_ [_ [E|(a & b & E)]]]; apply (f_equal (@length ascii)) in E;
      rewrite seen_length in E; [lia|]. cbn [app] in E. rewrite !app_length in E. cbn [length] in E. rewrite !app_length in E. lia.
  - apply Nat.ltb_ge in L. destruct (length (pat p) <? length s)%nat eqn:L2.
    + apply Nat.ltb_lt in L2. rewrite found_seen, matchable_word. split; intros [N [M H]]; split; auto; split; auto. destruct H as [E|H]; [|exact H].
      apply (f_equal (@length ascii)) in E. rewrite seen_length in E. lia.
    + apply Nat.ltb_ge in L2. rewrite found_seen. split; intros [N [M H]]; split; auto; split; auto.
      * left. apply occurs_same; [rewrite seen_length; lia|exact H].
      * destruct H as [E|(a & b & E)].
        -- rewrite E. exists [], []. rewrite app_nil_r. reflexivity.
        -- exfalso. apply (f_equal (@length ascii)) in E. rewrite seen_length in E. cbn [app] in E. rewrite !app_length in E. cbn [length] in E. rewrite !app_length in E. cbn [length] in E. lia.
Qed.

Lemma match_type rx p s t : match_ rx p s t = true -> type_ok (ftype p) t = true.
Proof. unfold match_. destruct (type_ok (ftype p) t); [reflexivity|discriminate]. Qed.

Lemma match_untyped rx p s t t' : type_ok (ftype p) t = true -> type_ok (ftype p) t' = true ->
  match_ rx p s t = match_ rx p s t'.
Proof. intros A B. unfold match_. rewrite A, B. reflexivity. Qed.

(** ** Pattern syntax *)
Lemma skip_blanks_spec bl s : Forall blank bl -> no_blank_first s -> skip_blanks (bl ++ s) = s.
Proof.
  intros F N. induction F as [|c bl B F IH]; cbn [app].
  - destruct s as [|c t]; [reflexivity|]. cbn [skip_blanks].
    destruct (Ascii.eqb c " ") eqn:E1; [apply Ascii.eqb_eq in E1; exfalso; exact (N c t eq_refl (or_introl E1))|].
    destruct (Ascii.eqb c TAB) eqn:E2; [apply Ascii.eqb_eq in E2; exfalso; exact (N c t eq_refl (or_intror E2))|]. reflexivity.
  - cbn [skip_blanks]. destruct B as [-> | ->]; exact IH.
Qed.

Lemma nul_no c t : ~ In NUL (c :: t) -> Ascii.eqb c NUL = false /\ ~ In NUL t.
Proof. intros H. split; [apply Ascii.eqb_neq; intros ->; apply H; left; reflexivity|]. intros I. apply H. right. exact I. Qed.


Lemma scan_spells i p : spells i p -> forall acc, ~ In NUL i -> forall rest,
  scan_pattern (i ++ rest) false acc = scan_pattern rest false (acc ++ p).
Proof.
  induction 1 as [|c i p N1 N2 S IH|i p S IH|c i p N S IH]; intros acc NN rest; cbn [app].
  - rewrite app_nil_r. reflexivity.
  - cbn [scan_pattern]. destruct (nul_no _ _ NN) as [E N]. rewrite E. apply Ascii.eqb_neq in N1, N2. rewrite N1, N2.
    rewrite IH by exact N. rewrite <- app_assoc. reflexivity.
  - destruct (nul_no _ _ NN) as [E N]. destruct (nul_no _ _ N) as [E' N'].
    cbn [scan_pattern]. rewrite E. cbn [Ascii.eqb]. change (Ascii.eqb BSLASH BSLASH) with true.
    change (Ascii.eqb "/" NUL) with false. change (Ascii.eqb "/" "/") with true. cbv iota.
    rewrite IH by exact N'. rewrite <- app_assoc. reflexivity.
  - destruct (nul_no _ _ NN) as [E N0]. destruct (nul_no _ _ N0) as [E' N'].
    cbn [scan_pattern]. rewrite E, E'. change (Ascii.eqb BSLASH BSLASH) with true. cbv iota.
    apply Ascii.eqb_neq in N. rewrite N. rewrite IH by exact N'. rewrite <- app_assoc. reflexivity.
Qed.

Lemma spells_total s : ~ In NUL s -> exists i p, spells i p /\
  (s = i \/ s = i ++ [BSLASH] \/ exists fl, s = i ++ "/"%char :: fl).
Proof.
  assert (K : forall n s, (length s <= n)%nat -> exists i p, spells i p /\
    (s = i \/ s = i ++ [BSLASH] \/ exists fl, s = i ++ "/"%char :: fl)).
  { clear s. induction n as [|n IH]; intros s L.
    - destruct s; [|cbn in L; lia]. exists [], []. split; [constructor|auto].
    - destruct s as [|c t]; [exists [], []; split; [constructor|auto]|].
      destruct (Ascii.eqb c "/") eqn:E1.
      { apply Ascii.eqb_eq in E1. subst c. exists [], []. split; [constructor|]. right. right. exists t. reflexivity. }
      apply Ascii.eqb_neq in E1. cbn [length] in L.
      destruct (Ascii.eqb c BSLASH) eqn:E2.
      + apply Ascii.eqb_eq in E2. subst c. destruct t as [|d t].
        { exists [], []. split; [constructor|auto]. }
        cbn [length] in L. destruct (IH t ltac:(lia)) as (i & p & S & H).
        destruct (Ascii.eqb d "/") eqn:E3.
        * apply Ascii.eqb_eq in E3. subst d. exists (BSLASH :: "/"%char :: i), ("/"%char :: p). split; [constructor; exact S|].
          destruct H as [-> |[-> |(fl & ->)]]; [left; reflexivity|right; left; reflexivity|right; right; exists fl; reflexivity].
        * apply Ascii.eqb_neq in E3. exists (BSLASH :: d :: i), (BSLASH :: d :: p). split; [constructor; assumption|].
          destruct H as [-> |[-> |(fl & ->)]]; [left; reflexivity|right; left; reflexivity|right; right; exists fl; reflexivity].
      + apply Ascii.eqb_neq in E2. destruct (IH t ltac:(lia)) as (i & p & S & H).
        exists (c :: i), (c :: p). split; [constructor; assumption|]. destruct H as [-> |[-> |(fl & ->)]]; [left; reflexivity|right; left; reflexivity|right; right; exists fl; reflexivity]. }
  intros _. eapply K. reflexivity.
Qed.

Lemma blanks_total s : exists bl s', s = bl ++ s' /\ Forall blank bl /\ no_blank_first s'.
Proof.
  induction s as [|c t (bl & s' & -> & F & N)].
  - exists [], []. split; [reflexivity|]. split; [constructor|]. intros c t E. discriminate.
  - destruct (Ascii.eqb c " ") eqn:E1; [|destruct (Ascii.eqb c TAB) eqn:E2].
    + apply Ascii.eqb_eq in E1. exists (c :: bl), s'. split; [reflexivity|]. split; [constructor; [left; exact E1|exact F]|exact N].
    + apply Ascii.eqb_eq in E2. exists (c :: bl), s'. split; [reflexivity|]. split; [constructor; [right; exact E2|exact F]|exact N].
    + apply Ascii.eqb_neq in E1, E2. exists [], (c :: bl ++ s'). split; [reflexivity|]. split; [constructor|].
      intros c' t' [= <- _] [B|B]; congruence.
Qed.

(** ** Flags *)
Lemma tolower_idem c : tolower (tolower c) = tolower c.
Proof. destruct c as [[] [] [] [] [] [] [] []]; vm_compute; reflexivity. Qed.
Lemma lower_idem l : map tolower (map tolower l) = map tolower l.
Proof. rewrite map_map. apply map_ext. apply tolower_idem. Qed.

Definition has (c : ascii) (l : bytes) : bool := existsb (Ascii.eqb c) l.
Lemma has_iff c l : has c l = true <-> In c l.
Proof.
  unfold has. rewrite existsb_exists. split.
  - intros (x & I & E). apply Ascii.eqb_eq in E. subst. exact I.
  - intros I. exists c. split; [exact I|apply Ascii.eqb_refl].
Qed.

Definition type_code (c : ascii) : option Z :=
  if Ascii.eqb c "b" then Some TYPE_BOOL else if Ascii.eqb c "n" then Some TYPE_NUMBER
  else if Ascii.eqb c "s" then Some TYPE_STRING else if Ascii.eqb c "o" then Some TYPE_OBJKEY else None.
Fixpoint final_type (fl : bytes) (t : Z) : Z :=
  match fl with [] => t | c :: fl' => final_type fl' (match type_code c with Some z => z | None => t end) end.

Lemma eval_flags_spec fl : forall p, ~ In NUL fl -> (fcase p = true -> map tolower (pat p) = pat p) ->
  eval_flags p fl =
  mkPat (if has "i" fl then map tolower (pat p) else pat p) (fcase p || has "i" fl) (fword p || has "w" fl)
        (fstr p || has "f" fl) (fregex p || has "e" fl) (final_type fl (ftype p)).
Proof.
  induction fl as [|c fl IH]; intros p NN LC; cbn [eval_flags has existsb final_type].
  { destruct p; cbn. rewrite !orb_false_r. reflexivity. }
  destruct (nul_no _ _ NN) as [E N]. rewrite E. fold (has "i" fl) (has "w" fl) (has "f" fl) (has "e" fl).
  unfold eval_flag. rewrite (Ascii.eqb_sym "i" c), (Ascii.eqb_sym "w" c), (Ascii.eqb_sym "f" c), (Ascii.eqb_sym "e" c).
  destruct (Ascii.eqb c "i") eqn:Ei.
  { apply Ascii.eqb_eq in Ei. subst c. rewrite IH; [|exact N|intros _; cbn [pat]; apply lower_idem].
    cbn -[has tolower final_type]. rewrite !orb_true_r, lower_idem. cbn. destruct (has "i" fl); reflexivity. }
  destruct (Ascii.eqb c "w") eqn:Ew.
  { apply Ascii.eqb_eq in Ew. subst c. rewrite IH; [|exact N|exact LC]. cbn -[has tolower final_type]. rewrite !orb_true_r. reflexivity. }
  destruct (Ascii.eqb c "f") eqn:Ef.
  { apply Ascii.eqb_eq in Ef. subst c. rewrite IH; [|exact N|exact LC]. cbn -[has tolower final_type]. rewrite !orb_true_r. reflexivity. }
  destruct (Ascii.eqb c "e") eqn:Ee.
  { apply Ascii.eqb_eq in Ee. subst c. rewrite IH; [|exact N|exact LC]. cbn -[has tolower final_type]. rewrite !orb_true_r. reflexivity. }
  unfold type_code. cbn [orb].
  destruct (Ascii.eqb c "b"); [rewrite IH by assumption; reflexivity|].
  destruct (Ascii.eqb c "n"); [rewrite IH by assumption; reflexivity|].
  destruct (Ascii.eqb c "s"); [rewrite IH by assumption; reflexivity|].
  destruct (Ascii.eqb c "o"); rewrite IH by assumption; reflexivity.
Qed.

Definition is_tf (c : ascii) : Prop := In c ["b"; "n"; "s"; "o"]%char.
Lemma type_code_none c : ~ is_tf c -> type_code c = None.
Proof.
  unfold is_tf, type_code. intros N.
  destruct (Ascii.eqb c "b") eqn:E1; [apply Ascii.eqb_eq in E1; subst; exfalso; apply N; cbn; tauto|].
  destruct (Ascii.eqb c "n") eqn:E2; [apply Ascii.eqb_eq in E2; subst; exfalso; apply N; cbn; tauto|].
  destruct (Ascii.eqb c "s") eqn:E3; [apply Ascii.eqb_eq in E3; subst; exfalso; apply N; cbn; tauto|].
  destruct (Ascii.eqb c "o") eqn:E4; [apply Ascii.eqb_eq in E4; subst; exfalso; apply N; cbn; tauto|]. reflexivity.
Qed.
Lemma final_none fl : forall t, (forall c, In c fl -> ~ is_tf c) -> final_type fl t = t.
Proof.
  induction fl as [|c fl IH]; intros t H; cbn [final_type]; [reflexivity|].
  rewrite type_code_none by (apply H; left; reflexivity). apply IH. intros d I. apply H. right. exact I.
Qed.
Lemma final_app a b t : final_type (a ++ b) t = final_type b (final_type a t).
Proof. revert t. induction a; intros t; cbn; auto. Qed.

(** The type flag left by a list of flags. *)
Definition type_of_flag (c : option ascii) (junk : Z) : Z :=
  match c with
  | None => junk
  | Some c => match type_code c with Some z => z | None => junk end
  end.

Lemma final_last fl o : last_type fl o -> forall t, final_type fl t = type_of_flag o t.
Proof.
  destruct 1 as [fl H|a c b I H]; intros t; cbn [type_of_flag].
  - apply final_none, H.
  - rewrite final_app. cbn [final_type]. rewrite final_none by exact H.
    repeat (destruct I as [<-|I]; [reflexivity|]). destruct I.
Qed.

Lemma last_type_total fl : exists o, last_type fl o.
Proof.
  induction fl as [|c fl (o & L)]; [exists None; constructor; intros c []|].
  assert (D : is_tf c \/ ~ is_tf c) by (unfold is_tf; destruct (in_dec ascii_dec c ["b"; "n"; "s"; "o"]%char); auto).
  destruct L as [fl H|a d b I H].
  - destruct D as [D|D].
    + exists (Some c). apply (LT_some [] c fl D H).
    + exists None. constructor. intros d [<-|I]; [exact D|apply H, I].
  - exists (Some d). apply (LT_some (c :: a) d b I H).
Qed.

(** The constructor on every NUL-free input. *)
Lemma pattern_plain junk bl i p tail : Forall blank bl -> spells i p -> tail = [] \/ tail = [BSLASH] ->
  ~ In NUL i -> no_blank_first i ->
  SearchPattern junk (bl ++ i ++ tail) = mkPat p false false false false junk.
Proof.
  intros F S T N NB. unfold SearchPattern. rewrite skip_blanks_spec; [|exact F|].
  - rewrite (scan_spells i p S [] N). cbn [app]. destruct T as [-> | ->]; reflexivity.
  - destruct i as [|d i]; [|intros c t [= <- _]; exact (NB d i eq_refl)]. cbn [app]. intros c t E. destruct T as [-> | ->]; [discriminate|].
    injection E as <- _. intros [B|B]; discriminate.
Qed.

Lemma pattern_flags junk bl i p fl o : Forall blank bl -> spells i p -> ~ In NUL i -> ~ In NUL fl -> no_blank_first i ->
  last_type fl o ->
  SearchPattern junk (bl ++ i ++ "/"%char :: fl) =
  mkPat (fold (has "i" fl) p) (has "i" fl) (has "w" fl) (has "f" fl) (has "e" fl) (type_of_flag o junk).
Proof.
  intros F S N NF NB L. unfold SearchPattern. rewrite skip_blanks_spec; [|exact F|].
  - rewrite (scan_spells i p S [] N). cbn [app scan_pattern]. change (Ascii.eqb "/" NUL) with false.
    change (Ascii.eqb "/" BSLASH) with false. change (Ascii.eqb "/" "/") with true. cbv iota.
    rewrite eval_flags_spec; [|exact NF|discriminate]. cbn [pat fcase fword fstr fregex ftype orb].
    rewrite (final_last _ _ L). reflexivity.
  - destruct i as [|d i]; [|intros c t [= <- _]; exact (NB d i eq_refl)]. cbn [app]. intros c t E. injection E as <- _. intros [B|B]; discriminate.
Qed.

Lemma pattern_total input : ~ In NUL input ->
  exists bl i p, Forall blank bl /\ spells i p /\ ~ In NUL i /\ no_blank_first i /\
    (input = bl ++ i \/ input = bl ++ i ++ [BSLASH] \/
     exists fl, ~ In NUL fl /\ input = bl ++ i ++ "/"%char :: fl).
Proof.
  intros N. destruct (blanks_total input) as (bl & s & -> & F & NB).
  assert (Ns : ~ In NUL s) by (intros I; apply N, in_or_app; auto).
  destruct (spells_total s Ns) as (i & p & S & H).
  exists bl, i, p. split; [exact F|]. split; [exact S|].
  assert (Ni : ~ In NUL i).
  { intros I. apply Ns. destruct H as [-> |[-> |(fl & ->)]]; [exact I|apply in_or_app; auto..]. }
  split; [exact Ni|]. split.
  { intros c t E. destruct H as [-> |[-> |(fl & ->)]]; rewrite E in *; apply (NB c _ eq_refl). }
  destruct H as [-> |[-> |(fl & ->)]]; [left; reflexivity|right; left; reflexivity|].
  right. right. exists fl. split; [|reflexivity]. intros I. apply Ns, in_or_app. right. right. exact I.
Qed.

(** Texts that can be spelled. *)
Definition spell (p : bytes) : bytes := flat_map (fun c => if Ascii.eqb c "/" then [BSLASH; c] else [c]) p.
Lemma spell_ok p : ~ In BSLASH p -> spells (spell p) p.
Proof.
  induction p as [|c p IH]; intros N; cbn [spell flat_map]; [constructor|].
  assert (N' : ~ In BSLASH p) by (intros I; apply N; right; exact I).
  destruct (Ascii.eqb c "/") eqn:E; cbn [app].
  - apply Ascii.eqb_eq in E. subst c. constructor. apply IH, N'.
  - apply Ascii.eqb_neq in E. constructor; [intros ->; apply N; left; reflexivity|exact E|apply IH, N'].
Qed.

Lemma spell_pattern junk p : ~ In BSLASH p -> ~ In NUL p -> no_blank_first p -> pat (SearchPattern junk (spell p)) = p.
Proof.
  intros N NN NB. replace (spell p) with ([] ++ spell p ++ []) by apply app_nil_r.
  rewrite (pattern_plain junk [] (spell p) p [] ltac:(constructor) (spell_ok p N) (or_introl eq_refl)); [reflexivity| |].
  - intros I. apply in_flat_map in I. destruct I as (c & I & H). destruct (Ascii.eqb c "/"); cbn in H.
    + destruct H as [H|[H|[]]]; [discriminate|subst c; exact (NN I)].
    + destruct H as [H|[]]. subst c. exact (NN I).
  - intros c t E. destruct p as [|d p]; [discriminate|]. cbn [spell flat_map] in E. destruct (Ascii.eqb d "/") eqn:Ed; cbn [app] in E.
    + injection E as <- _. intros [B|B]; discriminate.
    + injection E as <- _. exact (NB d p eq_refl).
Qed.

(** A pattern never begins with a blank. *)
Lemma eval_flags_pat fl : forall p, pat (eval_flags p fl) = pat p \/ pat (eval_flags p fl) = map tolower (pat p).
Proof.
  induction fl as [|c fl IH]; intros p; cbn [eval_flags]; [auto|]. destruct (Ascii.eqb c NUL); [auto|].
  destruct (IH (eval_flag p c)) as [E|E]; rewrite E; unfold eval_flag;
    repeat match goal with |- context [if ?b then _ else _] => destruct b end; cbn [pat]; rewrite ?lower_idem; auto.
Qed.

Lemma tolower_blank c : tolower c = " "%char -> c = " "%char.
Proof. destruct c as [[] [] [] [] [] [] [] []]; vm_compute; congruence. Qed.

Lemma scan_first s : forall acc esc, ~ In NUL acc -> (acc = [] -> esc = false -> no_blank_first s) ->
  no_blank_first acc -> no_blank_first (fst (scan_pattern s esc acc)).
Proof.
  induction s as [|c s IH]; intros acc esc NN H A; cbn [scan_pattern]; [exact A|].
  destruct (Ascii.eqb c NUL) eqn:EN; [exact A|].
  apply Ascii.eqb_neq in EN.
  assert (App : forall l, ~ In NUL l -> l <> [] -> no_blank_first (acc ++ l) -> no_blank_first (fst (scan_pattern s false (acc ++ l)))).
  { intros l Nl El B. apply IH; [|intros E; apply app_eq_nil in E; destruct E; contradiction|exact B].
    intros I. apply in_app_or in I. destruct I; auto. }
  destruct esc.
  - destruct (Ascii.eqb c "/") eqn:E1.
    + apply Ascii.eqb_eq in E1. subst c. apply App; [intros [I|[]]; discriminate|discriminate|].
      destruct acc; [intros d t [= <- _] [B|B]; discriminate|]. intros d t [= <- _]. exact (A _ _ eq_refl).
    + apply App; [intros [I|[I|[]]]; [discriminate|congruence]|discriminate|].
      destruct acc; [intros d t [= <- _] [B|B]; discriminate|]. intros d t [= <- _]. exact (A _ _ eq_refl).
  - destruct (Ascii.eqb c BSLASH).
    + apply IH; [exact NN|discriminate|exact A].
    + destruct (Ascii.eqb c "/"); [exact A|]. apply App; [intros [I|[]]; congruence|discriminate|].
      destruct acc as [|d0 acc]; [intros d t [= <- _]; exact (H eq_refl eq_refl c s eq_refl)|]. intros d t [= <- _]. exact (A _ _ eq_refl).
Qed.

Lemma skip_first s : no_blank_first (skip_blanks s).
Proof.
  induction s as [|c s IH]; cbn [skip_blanks]; [intros c t E; discriminate|].
  destruct (Ascii.eqb c " ") eqn:E1; [exact IH|]. destruct (Ascii.eqb c TAB) eqn:E2; [exact IH|]. cbn [orb].
  apply Ascii.eqb_neq in E1, E2. intros d t [= <- _] [B|B]; congruence.
Qed.

Lemma pattern_first junk input : forall t, pat (SearchPattern junk input) <> " "%char :: t.
Proof.
  intros t E. unfold SearchPattern in E. destruct (scan_pattern (skip_blanks input) false []) as [text fl] eqn:S.
  assert (NB : no_blank_first text).
  { change text with (fst (text, fl)). rewrite <- S. apply scan_first; [intros []|intros _ _; apply skip_first|]. intros c t' Q. discriminate. }
  assert (T : text = " "%char :: t \/ map tolower text = " "%char :: t).
  { destruct fl as [fl|]; [|left; exact E]. destruct (eval_flags_pat fl (mkPat text false false false false junk)) as [Q|Q]; rewrite Q in E; auto. }
  destruct text as [|c text]; [destruct T; discriminate|].
  apply (NB c text eq_refl). left. destruct T as [T|T]; injection T as T _; [exact T|apply tolower_blank, T].
Qed.

(** ** Properties *)
Lemma has_bool c fl b : (b = true <-> In c fl) -> has c fl = b.
Proof. intros H. rewrite <- has_iff in H. destruct (has c fl), b; try reflexivity; destruct H as [A B]; [symmetry; apply B|apply A]; reflexivity. Qed.
Lemma has_false c fl : ~ In c fl -> has c fl = false.
Proof. intros H. apply has_bool. split; [discriminate|contradiction]. Qed.

Lemma matchable_fold i q : matchable i (fold i q) <-> matchable i q.
Proof.
  unfold matchable, fold. destruct i; [|tauto]. rewrite Forall_map. split; intros H _; specialize (H eq_refl); (eapply Forall_impl; [|exact H]); intros c; cbv beta; rewrite foreign_lower; auto.
Qed.


Lemma typed_pattern junk input p fl o : typed input p fl -> last_type fl o ->
  SearchPattern junk input =
  mkPat (fold (has "i" fl) p) (has "i" fl) (has "w" fl) (has "f" fl) (has "e" fl) (type_of_flag o junk).
Proof.
  destruct 1 as [bl i p tail B S N NB T|bl i p fl B S N NB NF]; intros L.
  - rewrite (pattern_plain junk bl i p tail) by assumption.
    inversion L as [fl F E1 E2|a c b I F E1 E2]; [subst; reflexivity|destruct a; discriminate].
  - apply pattern_flags; assumption.
Qed.

Lemma typed_total input : ~ In NUL input -> exists p fl, typed input p fl.
Proof.
  intros N. destruct (pattern_total input N) as (bl & i & p & B & S & Ni & NB & H). exists p.
  destruct H as [E|[E|(fl & NF & E)]]; subst input.
  - exists []. rewrite <- (app_nil_r i). constructor; auto.
  - exists []. constructor; auto.
  - exists fl. constructor; assumption.
Qed.

Lemma scan_out s : forall esc acc, exists i l, fst (scan_pattern s esc acc) = acc ++ l /\ spells i l.
Proof.
  assert (Z : forall acc : bytes, exists i l, acc = acc ++ l /\ spells i l) by (intros acc; exists [], []; rewrite app_nil_r; split; [reflexivity|constructor]).
  induction s as [|c s IH]; intros esc acc; cbn [scan_pattern fst]; [apply Z|].
  destruct (Ascii.eqb c NUL); [apply Z|].
  destruct esc.
  - destruct (Ascii.eqb c "/") eqn:E.
    + apply Ascii.eqb_eq in E. subst c. destruct (IH false (acc ++ ["/"%char])) as (i & l & -> & S).
      exists (BSLASH :: "/"%char :: i), ("/"%char :: l). rewrite <- app_assoc. split; [reflexivity|constructor; exact S].
    + apply Ascii.eqb_neq in E. destruct (IH false (acc ++ [BSLASH; c])) as (i & l & -> & S).
      exists (BSLASH :: c :: i), (BSLASH :: c :: l). rewrite <- app_assoc. split; [reflexivity|constructor; assumption].
  - destruct (Ascii.eqb c BSLASH) eqn:EB; [apply IH|]. destruct (Ascii.eqb c "/") eqn:E; [apply Z|].
    apply Ascii.eqb_neq in E, EB. destruct (IH false (acc ++ [c])) as (i & l & -> & S).
    exists (c :: i), (c :: l). rewrite <- app_assoc. split; [reflexivity|constructor; assumption].
Qed.

Lemma tolower_bslash c : tolower c = BSLASH -> c = BSLASH.
Proof. destruct c as [[] [] [] [] [] [] [] []]; vm_compute; congruence. Qed.

Lemma pattern_no_bslash junk input : pat (SearchPattern junk input) <> [BSLASH].
Proof.
  intros E. unfold SearchPattern in E. destruct (scan_pattern (skip_blanks input) false []) as [text fl] eqn:S.
  destruct (scan_out (skip_blanks input) false []) as (i & l & Q & SP). rewrite S in Q. cbn [fst app] in Q. subst l.
  assert (T : text = [BSLASH] \/ map tolower text = [BSLASH]).
  { destruct fl as [fl|]; [|left; exact E]. destruct (eval_flags_pat fl (mkPat text false false false false junk)) as [Q|Q]; rewrite Q in E; auto. }
  assert (T' : text = [BSLASH]).
  { destruct T as [T|T]; [exact T|]. destruct text as [|c [|d t]]; try discriminate. injection T as T. apply tolower_bslash in T. congruence. }
  subst text. inversion SP; congruence.
Qed.

Lemma no_type fl : ~ In "b"%char fl -> ~ In "n"%char fl -> ~ In "s"%char fl -> ~ In "o"%char fl -> last_type fl None.
Proof. intros A B C D. constructor. intros c I J. repeat (destruct J as [<-|J]; [contradiction|]). destruct J. Qed.

Lemma search_plain rx input p fl ic whole s t :
  typed input p fl -> last_type fl None -> ~ In "w"%char fl -> ~ In "e"%char fl ->
  (ic = true <-> In "i"%char fl) -> (whole = true <-> In "f"%char fl) ->
  match_ rx (SearchPattern 0 input) s t = true <->
  s <> [] /\ matchable ic p /\ (if whole then seen ic s = fold ic p else occurs (fold ic p) (seen ic s)).
Proof.
  intros T L W E I F. rewrite (typed_pattern 0 _ _ _ _ T L). rewrite (has_bool _ _ _ I), (has_bool _ _ _ F), (has_false _ _ W), (has_false _ _ E).
  rewrite <- (matchable_fold ic p). destruct whole.
  - apply whole_match; reflexivity.
  - apply plain_match; reflexivity.
Qed.

Lemma search_word rx input p fl ic s t :
  typed input p fl -> last_type fl None -> In "w"%char fl -> ~ In "e"%char fl -> ~ In "f"%char fl ->
  (ic = true <-> In "i"%char fl) ->
  match_ rx (SearchPattern 0 input) s t = true <->
  s <> [] /\ matchable ic p /\ (seen ic s = fold ic p \/ occurs (" "%char :: fold ic p ++ [" "%char]) (seen ic s)).
Proof.
  intros T L W E F I. rewrite (typed_pattern 0 _ _ _ _ T L).
  rewrite (has_bool _ _ _ I), (has_false _ _ F), (has_bool "w" fl true), (has_false _ _ E) by tauto.
  rewrite <- (matchable_fold ic p). apply word_match; reflexivity.
Qed.

Lemma search_word_sound rx input p fl ic s t :
  typed input p fl -> last_type fl None -> In "w"%char fl -> ~ In "e"%char fl -> ~ In "f"%char fl ->
  (ic = true <-> In "i"%char fl) ->
  match_ rx (SearchPattern 0 input) s t = true -> word_in (fold ic p) (seen ic s).
Proof.
  intros T L W E F I H. apply (search_word rx input p fl ic s t T L W E F I) in H. destruct H as (_ & _ & [H|(a & b & H)]).
  - exists [], []. rewrite app_nil_r. auto.
  - exists (a ++ [" "%char]), (" "%char :: b). split; [rewrite H, <- app_assoc; cbn; rewrite <- !app_assoc; reflexivity|].
    split; right; eauto.
Qed.

Lemma type_ok_flag c t junk : In c ["b"; "n"; "s"; "o"]%char -> type_ok (type_of_flag (Some c) junk) t = true <-> of_type c t.
Proof.
  intros I. repeat (destruct I as [<-|I]; [cbn; split; [destruct t as [[]| |]; try discriminate; constructor|inversion 1; reflexivity]|]). destruct I.
Qed.

Lemma search_type rx junk input p fl c s t : typed input p fl -> last_type fl (Some c) ->
  (match_ rx (SearchPattern junk input) s t = true -> of_type c t) /\
  (forall junk' t', of_type c t -> of_type c t' ->
     match_ rx (SearchPattern junk input) s t = match_ rx (SearchPattern junk' input) s t').
Proof.
  intros T L. assert (I : In c ["b"; "n"; "s"; "o"]%char) by (inversion L; assumption).
  pose proof (typed_pattern junk _ _ _ _ T L) as E. split.
  - intros M. apply match_type in M. rewrite E in M. apply type_ok_flag in M; assumption.
  - intros junk' t' A B. rewrite (typed_pattern junk' _ _ _ _ T L), E.
    assert (Q : type_of_flag (Some c) junk = type_of_flag (Some c) junk').
    { repeat (destruct I as [<-|I]; [reflexivity|]). destruct I. }
    rewrite <- Q. apply match_untyped; cbn [ftype]; apply type_ok_flag; assumption.
Qed.

(** Type flags only restrict: among elements of the type, the answer is the one
    of the pattern without type flag. *)
Lemma search_type_only rx junk input p fl c s t input' fl' : typed input p fl -> last_type fl (Some c) ->
  typed input' p fl' -> last_type fl' None -> (forall d, ~ In d ["b"; "n"; "s"; "o"]%char -> (In d fl <-> In d fl')) ->
  of_type c t -> match_ rx (SearchPattern junk input) s t = match_ rx (SearchPattern 0 input') s t.
Proof.
  intros T L T' L' H O. assert (I : In c ["b"; "n"; "s"; "o"]%char) by (inversion L; assumption).
  rewrite (typed_pattern junk _ _ _ _ T L), (typed_pattern 0 _ _ _ _ T' L').
  assert (Q : forall d, ~ In d ["b"; "n"; "s"; "o"]%char -> has d fl = has d fl').
  { intros d N. apply has_bool. rewrite has_iff. symmetry. apply H, N. }
  rewrite !(Q "i"%char), (Q "w"%char), (Q "f"%char), (Q "e"%char) by (cbn; intuition discriminate).
  unfold match_. cbn [ftype fregex fstr fword fcase pat]. rewrite (proj2 (type_ok_flag c t junk I) O).
  reflexivity.
Qed.

Lemma search_untyped rx junk input p fl s t t' : typed input p fl -> last_type fl None ->
  ~ 1 <= junk <= 4 -> match_ rx (SearchPattern junk input) s t = match_ rx (SearchPattern junk input) s t'.
Proof.
  intros T L J. assert (K : forall t, type_ok (ftype (SearchPattern junk input)) t = true); [|apply match_untyped; apply K].
  intros u. rewrite (typed_pattern junk _ _ _ _ T L). cbn [ftype type_of_flag]. unfold type_ok, TYPE_BOOL, TYPE_STRING, TYPE_OBJKEY, TYPE_NUMBER.
  repeat match goal with |- context [junk =? ?z] => destruct (junk =? z) eqn:?; [lia|] end. reflexivity.
Qed.

Lemma typed_read junk input p fl ic : typed input p fl -> (ic = true <-> In "i"%char fl) ->
  let sp := SearchPattern junk input in
  pat sp = fold ic p /\ (fcase sp = true <-> In "i"%char fl) /\ (fword sp = true <-> In "w"%char fl) /\
  (fstr sp = true <-> In "f"%char fl) /\ (fregex sp = true <-> In "e"%char fl).
Proof.
  intros T I sp. destruct (last_type_total fl) as (o & L). unfold sp. rewrite (typed_pattern junk _ _ _ _ T L).
  cbn [pat fcase fword fstr fregex]. rewrite !has_iff. rewrite (has_bool _ _ _ I). repeat split; auto.
Qed.

Lemma spelling p : ~ In BSLASH p -> ~ In NUL p -> no_blank_first p ->
  exists input, typed input p [] /\ forall junk, pat (SearchPattern junk input) = p.
Proof.
  intros N NN NB. exists (spell p). split; [|intros junk; apply spell_pattern; assumption].
  replace (spell p) with ([] ++ spell p ++ []) by apply app_nil_r. constructor; auto.
  - apply spell_ok, N.
  - intros I. apply in_flat_map in I. destruct I as (c & I & H). destruct (Ascii.eqb c "/"); cbn in H.
    + destruct H as [H|[H|[]]]; [discriminate|subst c; exact (NN I)].
    + destruct H as [H|[]]. subst c. exact (NN I).
  - intros c t E. destruct p as [|d p]; [discriminate|]. cbn [spell flat_map] in E. destruct (Ascii.eqb d "/") eqn:Ed; cbn [app] in E.
    + injection E as <- _. intros [B|B]; discriminate.
    + injection E as <- _. exact (NB d p eq_refl).
Qed.

Lemma search_regex rx input p fl ic s t :
  typed input p fl -> last_type fl None -> In "e"%char fl -> (ic = true <-> In "i"%char fl) ->
  match_ rx (SearchPattern 0 input) s t = rx (fold ic p) ic s.
Proof.
  intros T L E I. rewrite (typed_pattern 0 _ _ _ _ T L). rewrite (has_bool _ _ _ I), (has_bool "e" fl true) by tauto. reflexivity.
Qed.

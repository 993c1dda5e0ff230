(** Printed documents. *)
From Verif Require Export Model.SimpleOutput Spec.PrintSpec Proofs.GrammarProps.
Open Scope Z_scope.

Section Eqs.
  Variable z : bool.
  Fixpoint items (indent : Z) (first : bool) (l : list tree) : bytes :=
    match l with
    | [] => []
    | x :: r => write z indent (negb first) x ++ items indent false r
    end.
  Definition entry (indent : Z) (c : bool) (k : bytes) (x : tree) : bytes :=
    getIndent z indent ++ (if c then str ",""" else str """") ++ k ++ str """:" ++
    (if is_container x then eol z ++ write z indent false x else tree_string x ++ eol z).
  Fixpoint entries (indent : Z) (first : bool) (l : list (bytes * tree)) : bytes :=
    match l with
    | [] => []
    | (k, x) :: r => entry indent (negb first) k x ++ entries indent false r
    end.

  Lemma write_prim i c p : write z i c (TPrim p) = getIndent z i ++ comma c ++ scalar_text p ++ eol z.
  Proof. destruct p; reflexivity. Qed.
  Lemma write_arr i c l : write z i c (TArr l) =
    getIndent z i ++ comma c ++ str "[" ++ eol z ++ items (incr i) true l ++ getIndent z i ++ str "]" ++ eol z.
  Proof.
    cbn [write].
    assert (K : forall b, (fix items (first : bool) (l : list tree) {struct l} : bytes :=
      match l with [] => [] | x :: r => write z (incr i) (negb first) x ++ items false r end) b l = items (incr i) b l).
    { induction l as [|x l IH]; intros b; cbn [items]; [reflexivity|]. rewrite <- IH. reflexivity. }
    rewrite <- K. reflexivity.
  Qed.
  Lemma write_obj i c l : write z i c (TObj l) =
    getIndent z i ++ comma c ++ str "{" ++ eol z ++ entries (incr i) true l ++ getIndent z i ++ str "}" ++ eol z.
  Proof.
    cbn [write].
    assert (K : forall b, (fix entries (first : bool) (l : list (bytes * tree)) {struct l} : bytes :=
      match l with [] => [] | (k, x) :: r => entry (incr i) (negb first) k x ++ entries false r end) b l = entries (incr i) b l).
    { induction l as [|[k x] l IH]; intros b; cbn [entries]; [reflexivity|]. rewrite <- IH. reflexivity. }
    rewrite <- K. reflexivity.
  Qed.
End Eqs.

(** ** Lines *)
Definition ind16 (d : Z) : Z := 4 * (d mod 65536).

(** The output [out] of an element whose lines are [ls]. *)
Definition prints (z : bool) (ls : list (Z * bytes)) (out : bytes) : Prop :=
  out = if z then without_layout ls else with_layout ind16 ls.

Lemma prints_nil z : prints z [] [].
Proof. destruct z; reflexivity. Qed.
Lemma prints_app z a b x y : prints z a x -> prints z b y -> prints z (a ++ b) (x ++ y).
Proof. unfold prints, without_layout, with_layout. intros -> ->. destruct z; rewrite flat_map_app; reflexivity. Qed.
Lemma prints_one z d t : prints z [(d, t)] (getIndent z (d mod 65536) ++ t ++ eol z).
Proof.
  unfold prints, without_layout, with_layout, getIndent, eol, ind16, spaces, INDENT_LEVEL. destruct z; cbn [flat_map app fst snd]; rewrite ?app_nil_r; [reflexivity|].
  replace (4 * (d mod 65536)) with (d mod 65536 * 4) by lia. reflexivity.
Qed.

Lemma incr_mod d : incr (d mod 65536) = (d + 1) mod 65536.
Proof. unfold incr. apply Zplus_mod_idemp_l. Qed.

Lemma print_lines z v : forall d c, exists ls, lines d (comma c) v ls /\ prints z ls (write z (d mod 65536) c v).
Proof.
  induction v as [p|l IH|l IH] using tree_ind'; intros d c.
  - exists [(d, comma c ++ scalar_text p)]. split; [constructor|]. rewrite write_prim.
    replace (getIndent z (d mod 65536) ++ comma c ++ scalar_text p ++ eol z) with (getIndent z (d mod 65536) ++ (comma c ++ scalar_text p) ++ eol z) by (rewrite <- !app_assoc; reflexivity).
    apply prints_one.
  - assert (K : forall b, exists ls, elem_lines (d + 1) (comma (negb b)) l ls /\ prints z ls (items z ((d + 1) mod 65536) b l)).
    { induction IH as [|x l Hx Hl IHl]; intros b.
      - exists []. split; [constructor|apply prints_nil].
      - destruct (Hx (d + 1) (negb b)) as (ls & L & P). destruct (IHl false) as (ls' & L' & P'). exists (ls ++ ls').
        split; [constructor; assumption|]. cbn [items]. apply prints_app; assumption. }
    destruct (K true) as (ls & L & P). exists ((d, comma c ++ str "[") :: ls ++ [(d, str "]")]). split; [constructor; exact L|].
    rewrite write_arr, incr_mod.
    replace (getIndent z (d mod 65536) ++ comma c ++ str "[" ++ eol z ++ items z ((d + 1) mod 65536) true l ++ getIndent z (d mod 65536) ++ str "]" ++ eol z)
      with ((getIndent z (d mod 65536) ++ (comma c ++ str "[") ++ eol z) ++ items z ((d + 1) mod 65536) true l ++ (getIndent z (d mod 65536) ++ str "]" ++ eol z))
      by (rewrite <- !app_assoc; reflexivity).
    apply (prints_app z [_]); [apply prints_one|]. apply prints_app; [exact P|apply prints_one].
  - assert (K : forall b, exists ls, entry_lines (d + 1) (comma (negb b)) l ls /\ prints z ls (entries z ((d + 1) mod 65536) b l)).
    { induction IH as [|[k x] l Hx Hl IHl]; intros b.
      - exists []. split; [constructor|apply prints_nil].
      - destruct (IHl false) as (ls' & L' & P'). cbn [entries]. unfold entry. cbn [snd] in Hx.
        assert (Cm : (if negb b then str ",""" else str """") = comma (negb b) ++ [DQUOTE]) by (destruct b; reflexivity).
        rewrite Cm. destruct x as [p|xl|xl]; cbn [is_container].
        + exists ((d + 1, comma (negb b) ++ DQUOTE :: k ++ DQUOTE :: ":"%char :: prim_string p) :: ls').
          split; [constructor; exact L'|]. apply (prints_app z [_]); [|exact P'].
          replace (_ ++ _ ++ k ++ _) with (getIndent z ((d + 1) mod 65536) ++ (comma (negb b) ++ DQUOTE :: k ++ DQUOTE :: ":"%char :: prim_string p) ++ eol z);
            [apply prints_one|]. cbn [tree_string]. rewrite <- !app_assoc. cbn [app]. rewrite <- !app_assoc. reflexivity.
        + destruct (Hx (d + 1) false) as (ls & L & P). exists ((d + 1, comma (negb b) ++ DQUOTE :: k ++ str """:") :: ls ++ ls').
          split; [apply En_cont; [discriminate|exact L|exact L']|].
          change ((d + 1, comma (negb b) ++ DQUOTE :: k ++ str """:") :: ls ++ ls') with (([(d + 1, comma (negb b) ++ DQUOTE :: k ++ str """:")] ++ ls) ++ ls').
          apply prints_app; [|exact P'].
          replace (_ ++ _ ++ k ++ _) with ((getIndent z ((d + 1) mod 65536) ++ (comma (negb b) ++ DQUOTE :: k ++ str """:") ++ eol z) ++ write z ((d + 1) mod 65536) false (TArr xl));
            [apply prints_app; [apply prints_one|exact P]|]. rewrite <- !app_assoc. cbn [app]. rewrite <- !app_assoc. reflexivity.
        + destruct (Hx (d + 1) false) as (ls & L & P). exists ((d + 1, comma (negb b) ++ DQUOTE :: k ++ str """:") :: ls ++ ls').
          split; [apply En_cont; [discriminate|exact L|exact L']|].
          change ((d + 1, comma (negb b) ++ DQUOTE :: k ++ str """:") :: ls ++ ls') with (([(d + 1, comma (negb b) ++ DQUOTE :: k ++ str """:")] ++ ls) ++ ls').
          apply prints_app; [|exact P'].
          replace (_ ++ _ ++ k ++ _) with ((getIndent z ((d + 1) mod 65536) ++ (comma (negb b) ++ DQUOTE :: k ++ str """:") ++ eol z) ++ write z ((d + 1) mod 65536) false (TObj xl));
            [apply prints_app; [apply prints_one|exact P]|]. rewrite <- !app_assoc. cbn [app]. rewrite <- !app_assoc. reflexivity. }
    destruct (K true) as (ls & L & P). exists ((d, comma c ++ str "{") :: ls ++ [(d, str "}")]). split; [constructor; exact L|].
    rewrite write_obj, incr_mod.
    replace (getIndent z (d mod 65536) ++ comma c ++ str "{" ++ eol z ++ entries z ((d + 1) mod 65536) true l ++ getIndent z (d mod 65536) ++ str "}" ++ eol z)
      with ((getIndent z (d mod 65536) ++ (comma c ++ str "{") ++ eol z) ++ entries z ((d + 1) mod 65536) true l ++ (getIndent z (d mod 65536) ++ str "}" ++ eol z))
      by (rewrite <- !app_assoc; reflexivity).
    apply (prints_app z [_]); [apply prints_one|]. apply prints_app; [exact P|apply prints_one].
Qed.

(** ** Grammar of the output *)
Lemma indent_ws z i : ws (getIndent z i).
Proof.
  unfold getIndent. destruct z; [constructor|]. apply Forall_forall. intros c H. apply repeat_spec in H. subst. left. reflexivity.
Qed.
Lemma eol_ws z : ws (eol z).
Proof. unfold eol. destruct z; [constructor|]. constructor; [|constructor]. right. right. left. reflexivity. Qed.
#[local] Hint Resolve indent_ws eol_ws : core.

Lemma ws_nil : ws [].
Proof. constructor. Qed.
Lemma ws_cat a b : ws a -> ws b -> ws (a ++ b).
Proof. apply Forall_app_2 || (intros; apply Forall_app; auto). Qed.
#[local] Hint Resolve ws_nil ws_cat : core.

Section Text.
  Variable z ascii : bool.
  Notation uni := (if ascii then kept_uni else rfc_uni).
  Notation St := (jstring kept_ctrl uni).
  Notation val_text v := (forall i c, exists t, write z i c v = getIndent z i ++ comma c ++ t ++ eol z /\ jval St t v).

  Lemma scalar_jval p : printable ascii (TPrim p) -> jval St (scalar_text p) (TPrim p).
  Proof.
    intros P. inversion P as [|b|n q I|d Hd|s Hs| |]; subst.
    - constructor.
    - destruct b; [apply J_true|apply J_false].
    - destruct (dec_Z_spec n) as (neg & l & E & D & Sv & _).
      assert (T : scalar_text p = dec_Z n) by (inversion I; subst; reflexivity). rewrite T, E. apply J_int; [exact D|]. rewrite Sv. exact I.
    - destruct Hd as (neg & l & fr & E & Hl & Hfr & V). cbn [scalar_text prim_string]. rewrite E. rewrite V at 1. constructor; assumption.
    - cbn [scalar_text]. constructor. exact Hs.
  Qed.

  Lemma items_elems i l : Forall (fun v => val_text v) l -> l <> [] -> forall b, exists u,
    items z i b l = getIndent z i ++ comma (negb b) ++ u /\ forall w w', ws w -> ws w' -> elems St (w ++ u ++ w') l.
  Proof.
    induction 1 as [|x l Hx Hl IH]; [congruence|]. intros _ b. cbn [items].
    destruct (Hx i (negb b)) as (t & -> & J). destruct l as [|y r].
    - exists (t ++ eol z). split; [cbn [items]; rewrite app_nil_r; reflexivity|].
      intros w w' W W'. replace (w ++ (t ++ eol z) ++ w') with (w ++ t ++ (eol z ++ w')) by (rewrite <- !app_assoc; reflexivity).
      apply E_one; auto.
    - destruct (IH ltac:(discriminate) false) as (u & -> & K). exists (t ++ eol z ++ getIndent z i ++ ","%char :: u).
      split; [rewrite <- !app_assoc; reflexivity|]. intros w w' W W'.
      replace (w ++ (t ++ eol z ++ getIndent z i ++ ","%char :: u) ++ w')
        with (w ++ t ++ (eol z ++ getIndent z i) ++ ","%char :: ([] ++ u ++ w')) by (rewrite <- !app_assoc; reflexivity).
      apply E_more; auto.
  Qed.

  Lemma entries_members i (l : list (bytes * tree)) :
    Forall (fun kv => val_text (snd kv)) l ->
    Forall (fun kv => self_spelled ascii (fst kv) /\ (forall s, snd kv <> TPrim (PStr s)) /\ printable ascii (snd kv)) l ->
    l <> [] -> forall b, exists u,
    entries z i b l = getIndent z i ++ comma (negb b) ++ u /\ forall w w', ws w -> ws w' -> members St (w ++ u ++ w') l.
  Proof.
    induction 1 as [|[k x] l Hx Hl IH]; [congruence|]. intros F _ b. apply Forall_inv_tail in F as F'. apply Forall_inv in F. cbn [fst snd] in *.
    destruct F as (Hk & Hs & Hp). cbn [entries].
    assert (T : exists w3 t, entry z i (negb b) k x = getIndent z i ++ comma (negb b) ++ DQUOTE :: k ++ DQUOTE :: [] ++ ":"%char :: w3 ++ t ++ eol z /\ ws w3 /\ jval St t x).
    { unfold entry. assert (Cm : (if negb b then str ",""" else str """") = comma (negb b) ++ [DQUOTE]) by (destruct b; reflexivity). rewrite Cm.
      assert (CC : is_container x = true \/ exists p, x = TPrim p) by (destruct x; cbn; eauto).
      destruct CC as [C|(p & ->)].
      - rewrite C. destruct (Hx i false) as (t & -> & J). exists (eol z ++ getIndent z i), t. split; [|auto].
        rewrite <- !app_assoc. reflexivity.
      - exists [], (scalar_text p). cbn [is_container tree_string]. split; [|split; [auto|apply scalar_jval; exact Hp]].
        rewrite <- !app_assoc. replace (scalar_text p) with (prim_string p) by (destruct p; try reflexivity; exfalso; eapply Hs; reflexivity).
        reflexivity. }
    destruct T as (w3 & t & -> & W3 & J). destruct l as [|y r].
    - exists (DQUOTE :: k ++ DQUOTE :: [] ++ ":"%char :: w3 ++ t ++ eol z). split; [cbn [entries]; rewrite app_nil_r; reflexivity|].
      intros w w' W W'. match goal with |- members _ ?X _ => replace X with (w ++ DQUOTE :: k ++ DQUOTE :: [] ++ ":"%char :: w3 ++ t ++ (eol z ++ w')) end.
      + apply M_one; auto.
      + cbn [app]. rewrite <- !app_assoc. cbn [app]. rewrite <- !app_assoc. reflexivity.
    - destruct (IH F' ltac:(discriminate) false) as (u & -> & K).
      exists (DQUOTE :: k ++ DQUOTE :: [] ++ ":"%char :: w3 ++ t ++ eol z ++ getIndent z i ++ ","%char :: u). split.
      + cbn [app]. rewrite <- !app_assoc. cbn [app]. rewrite <- !app_assoc. cbn [app]. rewrite <- !app_assoc. reflexivity.
      + intros w w' W W'. match goal with |- members _ ?X _ => replace X with (w ++ DQUOTE :: k ++ DQUOTE :: [] ++ ":"%char :: w3 ++ t ++ (eol z ++ getIndent z i) ++ ","%char :: ([] ++ u ++ w')) end.
        * apply M_more; auto.
        * cbn [app]. rewrite <- !app_assoc. cbn [app]. rewrite <- !app_assoc. reflexivity.
  Qed.

  Lemma write_jval v : printable ascii v -> val_text v.
  Proof.
    induction v as [p|l IH|l IH] using tree_ind'; intros P i c.
    - exists (scalar_text p). split; [apply write_prim|apply scalar_jval; exact P].
    - rewrite write_arr. destruct l as [|x r].
      + exists ("["%char :: (eol z ++ getIndent z i) ++ str "]"). split; [cbn [items]; cbn; rewrite <- ?app_assoc; reflexivity|].
        apply J_arr0; auto.
      + destruct (items_elems (incr i) (x :: r)) with (b := true) as (u & -> & K); [|discriminate|].
        { inversion P as [| | | | |l' F|]; subst. rewrite Forall_forall in *. intros y Hy. apply IH; [exact Hy|]. apply F. exact Hy. }
        exists ("["%char :: ((eol z ++ getIndent z (incr i)) ++ u ++ getIndent z i) ++ str "]"). split.
        * cbn [app comma negb str list_ascii_of_string]. repeat (rewrite <- ?app_assoc; cbn [app]). reflexivity.
        * apply J_arr. apply K; auto.
    - rewrite write_obj. destruct l as [|x r].
      + exists ("{"%char :: (eol z ++ getIndent z i) ++ str "}"). split; [cbn [entries]; cbn; rewrite <- ?app_assoc; reflexivity|].
        apply J_obj0; auto.
      + inversion P as [| | | | | |l' F]; subst.
        destruct (entries_members (incr i) (x :: r)) with (b := true) as (u & -> & K); [|exact F|discriminate|].
        { rewrite Forall_forall in *. intros y Hy. apply IH; [exact Hy|]. apply F. exact Hy. }
        exists ("{"%char :: ((eol z ++ getIndent z (incr i)) ++ u ++ getIndent z i) ++ str "}"). split.
        * cbn [app comma negb str list_ascii_of_string]. repeat (rewrite <- ?app_assoc; cbn [app]). reflexivity.
        * apply J_obj. apply K; auto.
  Qed.
End Text.

(** ** Order of entries *)
Lemma sorted_perm {V} (l1 : list (bytes * V)) : forall l2, Permutation l1 l2 ->
  StronglySorted byte_lt (map fst l1) -> StronglySorted byte_lt (map fst l2) -> l1 = l2.
Proof.
  induction l1 as [|a l1 IH]; intros l2 P S1 S2.
  - apply Permutation_nil in P. congruence.
  - destruct l2 as [|b l2]; [apply Permutation_sym, Permutation_nil in P; discriminate|].
    cbn [map] in S1, S2. apply StronglySorted_inv in S1 as [S1 F1]. apply StronglySorted_inv in S2 as [S2 F2].
    assert (E : a = b).
    { assert (A : In a (b :: l2)) by (eapply Permutation_in; [exact P|left; reflexivity]).
      assert (B : In b (a :: l1)) by (eapply Permutation_in; [apply Permutation_sym; exact P|left; reflexivity]).
      destruct A as [A|A]; [congruence|]. destruct B as [B|B]; [congruence|]. exfalso.
      rewrite Forall_forall in F1, F2. apply (byte_lt_irrefl (fst a)). eapply byte_lt_trans; [apply F1, in_map; exact B|apply F2, in_map; exact A]. }
    subst b. f_equal. apply IH; auto. apply Permutation_cons_inv in P. exact P.
Qed.

Lemma reordered_sorted a : forall b, reordered a b -> all_objects (StronglySorted byte_lt) a ->
  all_objects (StronglySorted byte_lt) b -> a = b.
Proof.
  induction a as [p|l IH|l IH] using tree_ind'; intros b R A B; inversion R as [|? ? F|? l1 ? P F]; subst.
  - reflexivity.
  - f_equal. inversion A as [|? FA|]; inversion B as [|? FB|]; subst. clear R A B. revert IH FA FB.
    induction F as [|x y l l' H F IHF]; intros IH FA FB; [reflexivity|]. inversion IH; inversion FA; inversion FB; subst. f_equal; auto.
  - inversion A as [| |? KA FA]; inversion B as [| |? KB FB]; subst. f_equal.
    assert (E : map fst l = map fst l1).
    { clear - F. induction F as [|x y l l1 [H _] F IHF]; [reflexivity|]. cbn [map]. congruence. }
    assert (FB1 : Forall (fun kv : bytes * tree => all_objects (StronglySorted byte_lt) (snd kv)) l1).
    { rewrite Forall_forall in *. intros x Hx. apply FB. eapply Permutation_in; eauto. }
    rewrite E in KA. apply sorted_perm in P; [|assumption|assumption]. subst l'. clear - IH F FA FB1. revert IH FA FB1.
    induction F as [|[k x] [k' y] l l' [H1 H2] F IHF]; intros IH FA FB; [reflexivity|]. inversion IH; inversion FA; inversion FB; subst.
    cbn [fst snd] in *. f_equal; auto. f_equal; auto.
Qed.

Lemma read_printed e p z v : printable (ignoreUnicode p) v -> distinct_keys v ->
  (sortObjects p = true -> all_objects (StronglySorted byte_lt) v) ->
  exists root s, read_doc e (Some p) (display z v) = Ok (Some root, s) /\ erase root = v /\ warns s = [].
Proof.
  intros P D So. destruct (write_jval z (ignoreUnicode p) v P 0 false) as (t & E & J).
  assert (B : boundary (eol z)). { intros c r H. destruct z; [discriminate|]. injection H as <- <-. repeat split; try discriminate; unfold dec_digit; cbn; lia. }
  destruct (read_kept_escapes e p [] t v (eol z) J D ws_nil B) as (root & s' & R & _ & W & K).
  exists root, s'. split; [|split; [|exact W]].
  - unfold display. rewrite E. cbn [comma app] in *. unfold getIndent. destruct z; exact R.
  - destruct (sortObjects p); [|exact K]. destruct K as [K1 K2]. apply reordered_sorted; auto.
Qed.

(** ** Nesting of the lines *)
Lemma round_nonneg m e : 0 <= m -> 0 <= round_half_even m e.
Proof.
  intros M. unfold round_half_even. destruct (0 <=? e) eqn:E; [assert (0 <= 2 ^ e) by (apply Z.pow_nonneg; lia); nia|].
  assert (0 < 2 ^ (- e)) by (apply Z.pow_pos_nonneg; lia).
  assert (0 <= m / 2 ^ (- e)) by (apply Z.div_pos; lia).
  destruct (_ <? _); [lia|]. destruct (_ <? _); [lia|]. destruct (Z.even _); lia.
Qed.

Definition plain_start (t : bytes) : Prop := exists c r, t = c :: r /\ ~ In c (map (fun x => x) ["["; "{"; "]"; "}"; ","]%char).
Lemma digits_start l r : digits l -> plain_start (l ++ r).
Proof.
  intros [N F]. destruct l as [|c l]; [congruence|]. apply Forall_inv in F. exists c, (l ++ r). split; [reflexivity|].
  unfold dec_digit in F. intros H. cbn in H. repeat (destruct H as [H|H]; [subst c; revert F; cbn; lia|]). exact H.
Qed.
Lemma minus_start neg l r : digits l -> plain_start (minus neg ++ l ++ r).
Proof.
  intros D. destruct neg; [|apply (digits_start l r D)]. exists "-"%char, (l ++ r). split; [reflexivity|].
  cbn. intuition discriminate.
Qed.
Lemma str_start c s : ~ In c (map (fun x => x) ["["; "{"; "]"; "}"; ","]%char) -> plain_start (c :: s).
Proof. intros H. exists c, s. auto. Qed.
Lemma dec_start z : plain_start (dec_Z z).
Proof. destruct (dec_Z_spec z) as (neg & l & -> & [D _] & _). rewrite <- (app_nil_r l). apply minus_start. exact D. Qed.

Lemma scalar_start p : plain_start (scalar_text p).
Proof.
  destruct p as [s| |b|z|z|d]; cbn [scalar_text prim_string]; try apply dec_start.
  1-3: try destruct b; apply str_start; cbn; intuition discriminate.
  destruct d as [s|s| |s m e]; cbn [double_to_string].
  1-3: try destruct s; apply str_start; cbn; intuition discriminate.
  apply (minus_start s). apply dec_nonneg_spec. apply Z.div_pos; [|lia]. apply round_nonneg. lia.
Qed.

Definition sep (c : bytes) : Prop := c = [] \/ c = str ",".
Lemma sep_plain c t : sep c -> plain_start t -> ~ opening (c ++ t) /\ ~ closing (c ++ t).
Proof.
  intros S (x & r & -> & N). unfold opening, closing. cbn in N. assert (X : x <> "["%char /\ x <> "{"%char /\ x <> "]"%char /\ x <> "}"%char /\ x <> ","%char)
    by (repeat split; intros ->; apply N; auto 10). destruct X as (X1 & X2 & X3 & X4 & X5). clear N.
  split; intros H; cbn in H; destruct S as [->| ->]; cbn in H; repeat (destruct H as [H|H]; [congruence|]); exact H.
Qed.
Lemma sep_open c b : sep c -> b = str "[" \/ b = str "{" -> opening (c ++ b).
Proof. intros [->| ->] [->| ->]; cbn; auto. Qed.

Scheme lines_mut := Induction for lines Sort Prop
  with elem_lines_mut := Induction for elem_lines Sort Prop
  with entry_lines_mut := Induction for entry_lines Sort Prop.
Combined Scheme lines_ind3 from lines_mut, elem_lines_mut, entry_lines_mut.

Lemma quote_start l : plain_start (DQUOTE :: l).
Proof. apply str_start. cbn. intuition discriminate. Qed.

Lemma lines_nested_gen :
  (forall d c v ls, lines d c v ls -> sep c -> forall rest d', nested d rest d' -> nested d (ls ++ rest) d') /\
  (forall d c l ls, elem_lines d c l ls -> sep c -> forall rest d', nested d rest d' -> nested d (ls ++ rest) d') /\
  (forall d c l ls, entry_lines d c l ls -> sep c -> forall rest d', nested d rest d' -> nested d (ls ++ rest) d').
Proof.
  apply lines_ind3.
  - intros d c p S rest d' N. cbn [app]. destruct (sep_plain c (scalar_text p) S (scalar_start p)). apply Ne_other; assumption.
  - intros d c l ls _ IH S rest d' N. cbn [app]. apply Ne_open; [apply sep_open; auto|]. rewrite <- app_assoc. apply IH; [left; reflexivity|].
    cbn [app]. replace d with (d + 1 - 1) at 2 by lia. apply Ne_close; [cbn; auto|]. replace (d + 1 - 1) with d by lia. exact N.
  - intros d c l ls _ IH S rest d' N. cbn [app]. apply Ne_open; [apply sep_open; auto|]. rewrite <- app_assoc. apply IH; [left; reflexivity|].
    cbn [app]. replace d with (d + 1 - 1) at 2 by lia. apply Ne_close; [cbn; auto|]. replace (d + 1 - 1) with d by lia. exact N.
  - intros d c S rest d' N. exact N.
  - intros d c v l ls ls' _ IH1 _ IH2 S rest d' N. rewrite <- app_assoc. apply IH1; [exact S|]. apply IH2; [right; reflexivity|exact N].
  - intros d c S rest d' N. exact N.
  - intros d c k p l ls' _ IH S rest d' N. cbn [app]. edestruct (sep_plain c) as [O C]; [exact S|apply quote_start|].
    apply Ne_other; [exact O|exact C|]. apply IH; [right; reflexivity|exact N].
  - intros d c k v l ls ls' _ _ IH1 _ IH2 S rest d' N. cbn [app]. edestruct (sep_plain c) as [O C]; [exact S|apply quote_start|].
    apply Ne_other; [exact O|exact C|]. rewrite <- app_assoc. apply IH1; [left; reflexivity|]. apply IH2; [right; reflexivity|exact N].
Qed.
Lemma lines_nested v ls : lines 0 [] v ls -> nested 0 ls 0.
Proof. intros L. rewrite <- (app_nil_r ls). eapply (proj1 lines_nested_gen); [exact L|left; reflexivity|constructor]. Qed.

Lemma lines_fun_gen :
  (forall d c v ls, lines d c v ls -> forall ls', lines d c v ls' -> ls = ls') /\
  (forall d c l ls, elem_lines d c l ls -> forall ls', elem_lines d c l ls' -> ls = ls') /\
  (forall d c l ls, entry_lines d c l ls -> forall ls', entry_lines d c l ls' -> ls = ls').
Proof.
  apply lines_ind3; intros.
  - inversion H; reflexivity.
  - inversion H0; subst. repeat f_equal. auto.
  - inversion H0; subst. repeat f_equal. auto.
  - inversion H; reflexivity.
  - inversion H1; subst. f_equal; auto.
  - inversion H; reflexivity.
  - inversion H0; subst; [f_equal; auto|]. exfalso. eapply H6. reflexivity.
  - inversion H1; subst; [exfalso; eapply n; reflexivity|]. f_equal. f_equal; auto.
Qed.
Lemma lines_fun d c v ls ls' : lines d c v ls -> lines d c v ls' -> ls = ls'.
Proof. intros A. apply (proj1 lines_fun_gen _ _ _ _ A). Qed.

Lemma lines_depth_gen :
  (forall d c v ls, lines d c v ls -> Forall (fun x => d <= fst x) ls) /\
  (forall d c l ls, elem_lines d c l ls -> Forall (fun x => d <= fst x) ls) /\
  (forall d c l ls, entry_lines d c l ls -> Forall (fun x => d <= fst x) ls).
Proof.
  apply lines_ind3; intros; repeat (apply Forall_app; split); repeat (constructor; cbn [fst]; try lia); auto.
  1,2: (apply Forall_app; split; [|repeat constructor; cbn; lia]; eapply Forall_impl; [|eassumption]; intros; cbn beta in *; lia).
  apply Forall_app; auto.
Qed.

Lemma display_lines v : exists ls, lines 0 [] v ls /\ nested 0 ls 0 /\
  display false v = with_layout ind16 ls /\ display true v = without_layout ls.
Proof.
  destruct (print_lines false v 0 false) as (ls & L & P). destruct (print_lines true v 0 false) as (ls' & L' & P').
  rewrite (lines_fun _ _ _ _ _ L' L) in P'. exists ls. repeat split; auto. apply lines_nested with v. exact L.
Qed.

Lemma with_layout_ext f g ls : Forall (fun x : Z * bytes => f (fst x) = g (fst x)) ls -> with_layout f ls = with_layout g ls.
Proof. unfold with_layout. induction 1 as [|x l H F IH]; [reflexivity|]. cbn [flat_map]. rewrite H, IH. reflexivity. Qed.

Lemma display_indented v : exists ls, lines 0 [] v ls /\ nested 0 ls 0 /\
  (Forall (fun x => fst x < 65536) ls -> display false v = with_layout (fun d => 4 * d) ls) /\ display true v = without_layout ls.
Proof.
  destruct (display_lines v) as (ls & L & N & A & B). exists ls. split; [exact L|]. split; [exact N|]. split; [|exact B]. intros F. rewrite A. apply with_layout_ext.
  pose proof (proj1 lines_depth_gen _ _ _ _ L) as G. rewrite Forall_forall in *. intros x Hx. unfold ind16. specialize (F x Hx). specialize (G x Hx). cbn beta in *.
  rewrite Z.mod_small by lia. reflexivity.
Qed.

(** Deep nests. *)
Lemma layout_length f g ls : Forall (fun x : Z * bytes => f (fst x) <= g (fst x)) ls ->
  (exists x, In x ls /\ f (fst x) < g (fst x) /\ 0 <= f (fst x)) -> (length (with_layout f ls) < length (with_layout g ls))%nat.
Proof.
  assert (M : forall l, Forall (fun x : Z * bytes => f (fst x) <= g (fst x)) l -> (length (with_layout f l) <= length (with_layout g l))%nat).
  { induction 1 as [|x l H F IH]; [reflexivity|]. unfold with_layout in *. cbn [flat_map]. unfold spaces in *. rewrite !app_length, !repeat_length in *. lia. }
  intros F. induction F as [|x l H F IH]; intros (y & I & L & P); [destruct I|].
  specialize (M l F). unfold with_layout in *. cbn [flat_map]. unfold spaces in *. rewrite !app_length, !repeat_length in *.
  destruct I as [->|I]; [lia|]. assert (length (flat_map (fun x0 : Z * bytes => repeat " "%char (Z.to_nat (f (fst x0))) ++ snd x0 ++ [LF]) l) < length (flat_map (fun x0 : Z * bytes => repeat " "%char (Z.to_nat (g (fst x0))) ++ snd x0 ++ [LF]) l))%nat by (apply IH; eauto). lia.
Qed.

Lemma nest_deep n : forall d c ls, lines d c (nest n) ls -> exists t, In (d + Z.of_nat n, t) ls.
Proof.
  induction n as [|n IH]; intros d c ls L.
  - inversion L; subst. eexists. left. f_equal. lia.
  - cbn [nest] in L. inversion L as [|? ? ? ls0 E|]; subst. inversion E as [|? ? ? ? ls1 ls2 E1 E2]; subst.
    destruct (IH _ _ _ E1) as (t & I). exists t. right. apply in_or_app. left. apply in_or_app. left.
    replace (d + Z.of_nat (S n)) with (d + 1 + Z.of_nat n) by lia. exact I.
Qed.

Lemma nest_not_indented n ls : 65536 <= Z.of_nat n -> lines 0 [] (nest n) ls ->
  display false (nest n) <> with_layout (fun d => 4 * d) ls.
Proof.
  intros B L E. destruct (display_lines (nest n)) as (ls' & L' & _ & A & _). rewrite (lines_fun _ _ _ _ _ L' L) in A. rewrite A in E.
  pose proof (proj1 lines_depth_gen _ _ _ _ L) as G.
  assert (length (with_layout ind16 ls) < length (with_layout (fun d => (4 * d)%Z) ls))%nat; [|rewrite E in *; lia].
  apply layout_length.
  - rewrite Forall_forall in *. intros x Hx. specialize (G x Hx). cbn beta in *. unfold ind16. pose proof (Z.mod_le (fst x) 65536 G ltac:(lia)). lia.
  - destruct (nest_deep n 0 _ _ L) as (t & I). eexists. split; [exact I|]. cbn [fst]. unfold ind16. pose proof (Z.mod_pos_bound (0 + Z.of_nat n) 65536 ltac:(lia)). lia.
Qed.

(** C01: texts of the grammar are read as the trees they denote. *)
From Verif Require Export Proofs.GrammarLex.
Open Scope Z_scope.

Scheme jval_mut := Minimality for jval Sort Prop
  with elems_mut := Minimality for elems Sort Prop
  with members_mut := Minimality for members Sort Prop.
Combined Scheme grammar_mut from jval_mut, elems_mut, members_mut.

(** ** Repeated keys *)
Lemma last_wins_nodup {V} (l : list (bytes * V)) : NoDup (map fst l) -> last_wins l = l.
Proof.
  induction l as [|[k v] l IH]; cbn [last_wins map fst]; intros H; [reflexivity|].
  apply NoDup_cons_iff in H. destruct H as [N H]. destruct (in_dec _ _ _) as [I|I]; [tauto|]. rewrite IH by exact H. reflexivity.
Qed.

Lemma last_wins_drop {V} a k (x : V) r : In k (map fst r) -> last_wins (a ++ (k, x) :: r) = last_wins (a ++ r).
Proof.
  intros I. induction a as [|[k' v] a IH]; cbn [app last_wins].
  - destruct (in_dec _ _ _) as [_|N]; [reflexivity|tauto].
  - rewrite IH. destruct (in_dec _ _ _) as [A|A]; destruct (in_dec _ _ _) as [B|B]; try reflexivity; exfalso.
    + apply B. rewrite map_app, in_app_iff in A |- *. cbn [map fst In] in A. destruct A as [A|[<-|A]]; auto.
    + apply A. rewrite map_app, in_app_iff in B |- *. cbn [map fst In]. tauto.
Qed.

Definition ent (x : meta * bytes * node) : bytes * tree := (snd (fst x), erase (snd x)).

Lemma ent_key l : map fst (map ent l) = map entry_key l.
Proof. rewrite map_map. reflexivity. Qed.

Lemma contains_in k l : obj_contains entry_key k l = true <-> In k (map entry_key l).
Proof.
  unfold obj_contains. rewrite existsb_exists, in_map_iff. split; intros (x & A & B); exists x.
  - split; [apply beqb_eq, B|exact A].
  - split; [exact B|apply beqb_eq, A].
Qed.

Lemma last_wins_push k (l : list (meta * bytes * node)) (v : tree) r : NoDup (map entry_key l) ->
  last_wins ((map ent (obj_erase entry_key k l) ++ [(k, v)]) ++ r) = last_wins (map ent l ++ (k, v) :: r).
Proof.
  intros N. rewrite <- app_assoc. cbn [app]. induction l as [|x l IH]; cbn [obj_erase map app]; [reflexivity|].
  cbn [map] in N. apply NoDup_cons_iff in N. destruct N as [NI N].
  destruct (beqb (entry_key x) k) eqn:E.
  - apply beqb_eq in E. replace (ent x) with (k, erase (snd x)) by (unfold ent; rewrite <- E; reflexivity).
    symmetry. apply (last_wins_drop [] k (erase (snd x)) (map ent l ++ (k, v) :: r)).
    rewrite map_app, in_app_iff. right. left. reflexivity.
  - cbn [map app last_wins]. destruct (ent x) as [kx vx]. rewrite IH by exact N.
    assert (IFF : In kx (map fst (map ent (obj_erase entry_key k l) ++ (k, v) :: r)) <-> In kx (map fst (map ent l ++ (k, v) :: r))).
    { rewrite !map_app, !in_app_iff, !ent_key. cbn [map fst In].
      destruct (list_eq_dec ascii_dec kx k) as [->|NE]; [tauto|].
      assert (In kx (map entry_key (obj_erase entry_key k l)) <-> In kx (map entry_key l)); [|tauto].
      clear - NE. induction l as [|y l IH]; cbn [obj_erase map]; [tauto|]. destruct (beqb (entry_key y) k) eqn:E.
      - apply beqb_eq in E. cbn [In]. split; [auto|]. intros [Q|Q]; [congruence|exact Q].
      - cbn [map In]. rewrite IH. tauto. }
    destruct (in_dec _ _ _) as [A|A]; destruct (in_dec _ _ _) as [B|B]; try reflexivity; tauto.
Qed.

Lemma erase_set_parent i n : erase (set_parent i n) = erase n.
Proof. destruct n; reflexivity. Qed.

(** ** Punctuation and white space *)
Lemma is_ws_cases c : is_ws c -> c = chr 32 \/ c = chr 9 \/ c = chr 10 \/ c = chr 13.
Proof.
  intros [H|[H|[H|H]]]; [left|right; left|right; right; left|right; right; right]; apply uchar_inj; rewrite H; reflexivity.
Qed.

Definition closes (c : ascii) : Prop := c = "]"%char \/ c = "}"%char \/ c = ","%char.

Lemma boundary_ws w c rest : ws w -> closes c -> boundary (w ++ c :: rest).
Proof.
  intros W C x r E. destruct w as [|y w]; cbn [app] in E; injection E as <- _.
  - destruct C as [->|[->| ->]]; unfold dec_digit; vm_compute; intuition congruence.
  - inversion_clear W as [|? ? W1 _]. apply is_ws_cases in W1. unfold dec_digit.
    destruct W1 as [->|[->|[->| ->]]]; vm_compute; intuition congruence.
Qed.

Lemma number_first neg l c r : digits l -> minus neg ++ l = c :: r ->
  Ascii.eqb c DQUOTE = false /\ existsb (Ascii.eqb c) ["t"; "f"; "T"; "F"]%char = false /\
  Ascii.eqb c "n" || Ascii.eqb c "N" = false /\ is_digit c || Ascii.eqb c "." || Ascii.eqb c "-" = true.
Proof.
  intros [N F] E. destruct neg; cbn in E; [injection E as <- _; repeat split; reflexivity|].
  destruct F as [|x l D F]; [discriminate|]. injection E as <- <-.
  assert (Q : forall d, (uchar d < 48 \/ 57 < uchar d) -> Ascii.eqb x d = false).
  { intros d Hd. apply uchar_neq. unfold dec_digit in D. lia. }
  repeat split.
  - apply Q. left. reflexivity.
  - cbn [existsb]. rewrite !Q; try reflexivity; right; reflexivity.
  - rewrite !Q; try reflexivity; right; reflexivity.
  - apply dec_digit_is in D. rewrite D. reflexivity.
Qed.

Section Tree.
  Variable e : env.
  Variable p : cfg.
  Hypothesis kept : sortObjects p = false.
  Let params := Some p.
  Variable uni : bytes -> bytes -> Prop.
  Hypothesis uni_ok : forall h v, uni h v -> (exists u, code_unit h u) /\
    (if ignoreUnicode p then v = BSLASH :: "u"%char :: h else appendUnicode e h = UniOk v).
  Let Str := jstring kept_ctrl uni.

  Lemma token_skip w0 : ws w0 -> forall w rest fuel parent s Q E, (length w0 <= fuel)%nat -> at_ w (w0 ++ rest) s ->
    (forall s', at_ w rest s' -> wp (token_loop e params (fuel - length w0) parent) Q E s') ->
    wp (token_loop e params fuel parent) Q E s.
  Proof.
    clear kept.
    induction 1 as [|c w0 C F IH]; intros w rest fuel parent s Q E L H K.
    { cbn [length] in K. rewrite Nat.sub_0_r in K. apply K, H. }
    cbn [length] in L. destruct fuel as [|fuel]; [lia|]. cbn [token_loop]. eapply wp_next; [exact H|].
    intros s1 H1 G1. assert (K1 : wp (token_loop e params fuel parent) Q E s1) by (eapply IH; [lia|exact H1|exact K]).
    apply is_ws_cases in C. destruct C as [->|[->|[->| ->]]]; exact K1.
  Qed.

  (** First character of a token after white space. *)
  Lemma wp_token w0 c w rest parent s Q E : ws w0 -> at_ w (w0 ++ c :: rest) s ->
    (forall s', at_ w rest s' -> good s' = true -> forall fuel, 
       wp (if Ascii.eqb c DQUOTE then consumeString e params parent
           else if existsb (Ascii.eqb c) ["t"; "f"; "T"; "F"]%char then consumeBool params parent c
           else if Ascii.eqb c "n" || Ascii.eqb c "N" then consumeNull params parent c
           else if is_digit c || Ascii.eqb c "." || Ascii.eqb c "-" then consumeNumber parent c
           else if is_token c then ret (TTok [c])
           else if negb (ignoreChar c) then throw Format
           else token_loop e params fuel parent) Q E s') ->
    wp (consumeToken e params parent) Q E s.
  Proof.
    clear kept.
    intros W H K.
    change (wp (token_loop e params (S (S (length (inp s)))) parent) Q E s).
    assert (L : length (inp s) = (length w0 + S (length rest))%nat) by (destruct H as (-> & _); apply app_length).
    eapply token_skip; [exact W| |exact H|]; [lia|]. intros s1 H1.
    destruct (S (S (length (inp s))) - length w0)%nat as [|f] eqn:EF; [lia|].
    cbn [token_loop]. eapply wp_next; [exact H1|]. intros s2 H2 G2. apply K; auto.
  Qed.

  Lemma token_punct w0 c w rest parent s : ws w0 -> at_ w (w0 ++ c :: rest) s -> is_token c = true ->
    wp (consumeToken e params parent) (fun t s' => t = TTok [c] /\ at_ w rest s') never s.
  Proof.
    clear kept.
    intros W H T. eapply wp_token; [exact W|exact H|]. intros s1 H1 G1 fuel.
    assert (K : wp (ret (TTok [c])) (fun t s' => t = TTok [c] /\ at_ w rest s') never s1) by (apply wp_ret; auto).
    unfold is_token in T. apply existsb_exists in T. destruct T as (x & I & Q). apply Ascii.eqb_eq in Q. subst x.
    destruct I as [<-|[<-|[<-|[<-|[<-|[<-|[]]]]]]]; exact K.
  Qed.

  Lemma token_string w0 b v w rest parent s : ws w0 -> Str b v -> at_ w (w0 ++ DQUOTE :: b ++ DQUOTE :: rest) s ->
    wp (consumeToken e params parent) (string_post w rest v) never s.
  Proof.
    clear kept.
    intros W S H. eapply wp_token; [exact W|exact H|]. intros s1 H1 G1 fuel.
    rewrite Ascii.eqb_refl. change (wp (string_loop e params (loop_fuel s1) parent false []) (string_post w rest v) never s1).
    apply (string_at e params uni uni_ok b v S w rest parent (loop_fuel s1) [] s1); [|exact H1]. unfold loop_fuel. destruct H1 as (-> & _). rewrite app_length. cbn [length]. lia.
  Qed.

  (** What is left to do after the first token of a value. *)
  Definition post (v : tree) (w : list exn) (rest : bytes) (n : node) (s' : st) : Prop :=
    erase n = last_keys v /\ exists w', at_ w' rest s' /\ (distinct_keys v -> w' = w).

  Definition after_token (f : nat) (v : tree) (w : list exn) (rest : bytes) (t : tok) (s1 : st) : Prop :=
    match t with
    | TElem n => post v w rest n s1
    | TTok b =>
        (b = str "[" /\ forall q, wp (readArray_with e params (fun q t => array_loop e params f q None t) q) (post v w rest) never s1) \/
        (b = str "{" /\ forall q, wp (object_loop e params f q None) (post v w rest) never s1)
    end.

  Definition P_val (t : bytes) (v : tree) : Prop :=
    exists f0, forall f w0 w rest s parent, (f0 <= f)%nat -> (strict p = true -> distinct_keys v) ->
      ws w0 -> boundary rest -> at_ w (w0 ++ t ++ rest) s ->
      wp (consumeToken e params parent) (after_token f v w rest) never s.

  Definition acc_arr (res : option (meta * list node)) : list node := match res with Some r => snd r | None => [] end.

  Definition P_elems (t : bytes) (l : list tree) : Prop :=
    exists f0, forall f w rest s parent, (f0 <= f)%nat -> (strict p = true -> Forall distinct_keys l) ->
      at_ w (t ++ "]"%char :: rest) s ->
      wp (consumeToken e params parent) (fun tk s1 => tk <> TTok (str "]") /\
        forall q res, wp (array_loop e params f q res tk)
          (fun n s' => (exists m l', n = NArr m l' /\ map erase l' = map erase (acc_arr res) ++ map last_keys l) /\
             exists w', at_ w' rest s' /\ (Forall distinct_keys l -> w' = w)) never s1) never s.

  Definition acc_obj (res : option objpart) : list (meta * bytes * node) := match res with Some r => snd r | None => [] end.
  Definition lastv (kv : bytes * tree) : bytes * tree := (fst kv, last_keys (snd kv)).

  Definition fine (acc : list (meta * bytes * node)) (l : list (bytes * tree)) : Prop :=
    NoDup (map entry_key acc ++ map fst l) /\ Forall (fun kv => distinct_keys (snd kv)) l.

  Definition P_members (t : bytes) (l : list (bytes * tree)) : Prop :=
    exists f0, forall f w rest s q res, (f0 <= f)%nat -> NoDup (map entry_key (acc_obj res)) ->
      (strict p = true -> fine (acc_obj res) l) ->
      at_ w (t ++ "}"%char :: rest) s ->
      wp (object_loop e params f q res)
        (fun n s' => (exists m l', n = NObj m l' /\ map ent l' = last_wins (map ent (acc_obj res) ++ map lastv l)) /\
           exists w', at_ w' rest s' /\ (fine (acc_obj res) l -> w' = w)) never s.

  (** Scalars. *)
  Lemma prim_val t x :
    (forall w0 w rest s parent, ws w0 -> boundary rest -> at_ w (w0 ++ t ++ rest) s ->
       wp (consumeToken e params parent) (fun t s' => (exists m, t = TElem (NPrim m x)) /\ at_ w rest s') never s) ->
    P_val t (TPrim x).
  Proof.
    intros K. exists O. intros f w0 w rest s parent _ _ W B H. eapply wp_mono; [eapply K; eauto| |auto].
    intros tk s' ((m & ->) & H'). split; [reflexivity|]. eauto.
  Qed.

  Lemma V_str b v : Str b v -> P_val (DQUOTE :: b ++ [DQUOTE]) (TPrim (PStr v)).
  Proof.
    intros S. apply prim_val. intros w0 w rest s parent W B H. cbn [app] in H. rewrite <- app_assoc in H.
    exact (token_string w0 b v w rest parent s W S H).
  Qed.

  Lemma V_null : P_val (str "null") (TPrim PNull).
  Proof.
    apply prim_val. intros w0 w rest s parent W B H. eapply wp_token; [exact W|exact H|]. intros s1 H1 G1 fuel.
    exact (null_at params w rest parent s1 H1).
  Qed.

  Lemma V_true : P_val (str "true") (TPrim (PBool true)).
  Proof.
    apply prim_val. intros w0 w rest s parent W B H. eapply wp_token; [exact W|exact H|]. intros s1 H1 G1 fuel.
    exact (bool_true params w rest parent s1 B H1).
  Qed.

  Lemma V_false : P_val (str "false") (TPrim (PBool false)).
  Proof.
    apply prim_val. intros w0 w rest s parent W B H. eapply wp_token; [exact W|exact H|]. intros s1 H1 G1 fuel.
    exact (bool_false params w rest parent s1 B H1).
  Qed.

  Lemma V_int neg l x : int_digits l -> int_prim (signed neg (dec_value l)) x -> P_val (minus neg ++ l) (TPrim x).
  Proof.
    intros [D _] IP. apply prim_val. intros w0 w rest s parent W B H.
    destruct (minus neg ++ l) as [|c r] eqn:E.
    { destruct D as [N _]. destruct neg; destruct l; discriminate || congruence. }
    destruct (number_first neg l c r D E) as (E1 & E2 & E3 & E4).
    eapply wp_token; [exact W|exact H|]. intros s1 H1 G1 fuel. rewrite E1, E2, E3, E4.
    eapply number_int; eauto; rewrite E; [exact H1|reflexivity].
  Qed.

  Lemma V_dbl neg l fr : int_digits l -> digits fr -> P_val (minus neg ++ l ++ "."%char :: fr)
    (TPrim (PDbl (decimal_to_double neg (dec_value (l ++ fr)) (Z.of_nat (length fr))))).
  Proof.
    intros [D _] D'. apply prim_val. intros w0 w rest s parent W B H.
    replace ((minus neg ++ l ++ "."%char :: fr) ++ rest) with ((minus neg ++ l) ++ "."%char :: fr ++ rest) in H
      by (rewrite <- !app_assoc; reflexivity).
    destruct (minus neg ++ l) as [|c r] eqn:E.
    { destruct D as [N _]. destruct neg; destruct l; discriminate || congruence. }
    destruct (number_first neg l c r D E) as (E1 & E2 & E3 & E4).
    cbn [app] in H. eapply wp_token; [exact W|exact H|]. intros s1 H1 G1 fuel. rewrite E1, E2, E3, E4.
    eapply number_dbl; eauto; rewrite E; [exact H1|reflexivity].
  Qed.

  (** Unfolding of the loops. *)
  Lemma array_loop_S f q res t : array_loop e params (S f) q res t =
    (child <- match t with
              | TElem n => ret n
              | TTok b =>
                  if beqb b (str "[") then readArray_with e params (fun p t => array_loop e params f p None t) None
                  else if beqb b (str "{") then object_loop e params f None None
                  else throw NotJson
              end ;;
     r <- match res with
          | Some r => ret r
          | None => i <- fresh ;; ret (mkMeta i q, [])
          end ;;
     let l := snd r ++ [set_parent (mid (fst r)) child] in
     t2 <- consumeToken e params (Some (mid (fst r))) ;;
     match t2 with
     | TElem _ => throw (Unexpected "]")
     | TTok b =>
         if beqb b (str "]") then ret (NArr (fst r) l)
         else if negb (beqb b (str ",")) then throw (Unexpected "]")
         else
           t3 <- consumeToken e params (Some (mid (fst r))) ;;
           array_loop e params f q (Some (fst r, l)) t3
     end).
  Proof. reflexivity. Qed.

  Lemma object_loop_S f q res : object_loop e params (S f) q res =
    (t <- consumeToken e params (result_id res) ;;
     match t with
     | TTok b =>
         if beqb b (str "}") && match res with None => true | Some _ => false end
         then i <- fresh ;; ret (NObj (mkMeta i q) [])
         else throw NotAKey
     | TElem (NPrim _ (PStr key)) =>
         t2 <- consumeToken e params q ;;
         if match t2 with TTok b => beqb b (str ":") | TElem _ => false end then
           r <- open_object params q res key ;;
           child <- readNext_with e params (fun p => object_loop e params f p None)
                      (readArray_with e params (fun p t => array_loop e params f p None t))
                      (Some (mid (fst r))) ;;
           match child with
           | None => ubM NullDeref
           | Some v =>
               i <- fresh ;;
               let entry := (mkMeta i (Some (mid (fst r))), key, set_parent i v) in
               let l := obj_push entry_key (sorts params) entry (snd r) in
               t3 <- consumeToken e params (Some (mid (fst r))) ;;
               match t3 with
               | TTok b => if beqb b (str "}") then ret (NObj (fst r) l)
                           else object_loop e params f q (Some (fst r, l))
               | TElem _ => ret (NObj (fst r) l)
               end
           end
         else throw (Unexpected ":")
     | TElem _ => throw NotAKey
     end).
  Proof. reflexivity. Qed.

  (** Value after its first token, inside an array. *)
  Lemma child_arr f v w rest t s : after_token f v w rest t s ->
    wp (match t with
        | TElem n => ret n
        | TTok b =>
            if beqb b (str "[") then readArray_with e params (fun p t => array_loop e params f p None t) None
            else if beqb b (str "{") then object_loop e params f None None
            else throw NotJson
        end) (post v w rest) never s.
  Proof.
    destruct t as [n|b]; intros H; [apply wp_ret, H|]. destruct H as [[-> H]|[-> H]].
    - exact (H None).
    - exact (H None).
  Qed.

  Lemma child_obj f v w rest q s : wp (consumeToken e params q) (after_token f v w rest) never s ->
    wp (readNext_with e params (fun p => object_loop e params f p None)
          (readArray_with e params (fun p t => array_loop e params f p None t)) q)
       (fun c s' => exists n, c = Some n /\ post v w rest n s') never s.
  Proof.
    intros H. unfold readNext_with. apply wp_bind. eapply wp_mono; [exact H| |auto].
    intros t s1 A. destruct t as [n|b]; [apply wp_ret; eauto|]. destruct A as [[-> A]|[-> A]].
    - change (beqb (str "[") (str "{")) with false. change (beqb (str "[") (str "[")) with true. cbv iota.
      apply wp_bind. eapply wp_mono; [apply A| |auto]. intros n s2 P. apply wp_ret. eauto.
    - change (beqb (str "{") (str "{")) with true. cbv iota.
      apply wp_bind. eapply wp_mono; [apply A| |auto]. intros n s2 P. apply wp_ret. eauto.
  Qed.

  Lemma not_close f v w rest t s : after_token f v w rest t s -> t <> TTok (str "]").
  Proof. intros H ->. destruct H as [[H _]|[H _]]; discriminate. Qed.

  (** [r] of readArray's loop. *)
  Lemma arr_result w rest res q s : at_ w rest s ->
    wp (match res with Some r => ret r | None => i <- fresh ;; ret (mkMeta i q, []) end)
      (fun r s' => snd r = acc_arr res /\ at_ w rest s') never s.
  Proof.
    intros H. destruct res as [r|]; [apply wp_ret; auto|]. apply wp_bind, wp_fresh, wp_ret. split; [reflexivity|apply at_fresh, H].
  Qed.

  Lemma E_one_ok w1 t w2 v : ws w1 -> P_val t v -> ws w2 -> P_elems (w1 ++ t ++ w2) [v].
  Proof.
    intros W1 (f0 & V) W2. exists (S f0). intros f w rest s parent F D H.
    destruct f as [|f]; [lia|]. rewrite <- !app_assoc in H.
    assert (D1 : strict p = true -> distinct_keys v) by (intros Q; specialize (D Q); inversion D; auto).
    eapply wp_mono; [eapply (V f); [lia|exact D1|exact W1| |exact H]| |auto].
    { apply boundary_ws; [exact W2|left; reflexivity]. }
    intros tk s1 A. split; [eapply not_close, A|]. intros q res. rewrite array_loop_S.
    apply wp_bind. eapply wp_mono; [eapply child_arr, A| |auto]. intros n s2 (E & w' & H2 & EW).
    apply wp_bind. eapply wp_mono; [eapply arr_result, H2| |auto]. intros r s3 [ER H3]. cbv zeta.
    apply wp_bind. eapply wp_mono; [eapply token_punct; [exact W2|exact H3|reflexivity]| |auto].
    intros t2 s4 [-> H4]. change (beqb ["]"%char] (str "]")) with true. cbv iota. apply wp_ret. split.
    - eexists _, _. split; [reflexivity|]. rewrite map_app, ER. cbn [map]. rewrite erase_set_parent, E. reflexivity.
    - exists w'. split; [exact H4|]. intros FD. apply EW. inversion FD; auto.
  Qed.

  Lemma E_more_ok w1 t w2 v t' l : ws w1 -> P_val t v -> ws w2 -> P_elems t' l ->
    P_elems (w1 ++ t ++ w2 ++ ","%char :: t') (v :: l).
  Proof.
    intros W1 (f0 & V) W2 (f1 & L). exists (S (f0 + f1)). intros f w rest s parent F D H.
    destruct f as [|f]; [lia|]. rewrite <- !app_assoc in H. cbn [app] in H. 
    assert (D1 : strict p = true -> distinct_keys v) by (intros Q; specialize (D Q); inversion D; auto).
    assert (D2 : strict p = true -> Forall distinct_keys l) by (intros Q; specialize (D Q); inversion D; auto).
    eapply wp_mono; [eapply (V f); [lia|exact D1|exact W1| |exact H]| |auto].
    { apply boundary_ws; [exact W2|right; right; reflexivity]. }
    intros tk s1 A. split; [eapply not_close, A|]. intros q res. rewrite array_loop_S.
    apply wp_bind. eapply wp_mono; [eapply child_arr, A| |auto]. intros n s2 (E & w' & H2 & EW).
    apply wp_bind. eapply wp_mono; [eapply arr_result, H2| |auto]. intros r s3 [ER H3]. cbv zeta.
    apply wp_bind. eapply wp_mono; [eapply token_punct; [exact W2|exact H3|reflexivity]| |auto].
    intros t2 s4 [-> H4]. change (beqb [","%char] (str "]")) with false. change (beqb [","%char] (str ",")) with true.
    cbn [negb]. apply wp_bind. eapply wp_mono; [eapply (L f); [lia|exact D2|exact H4]| |auto].
    intros t3 s5 [_ K]. eapply wp_mono; [apply K| |auto].
    intros n' s6 ((m & l' & -> & EL) & w'' & H6 & EW'). split.
    - exists m, l'. split; [reflexivity|]. rewrite EL. cbn [acc_arr snd]. rewrite map_app, ER. cbn [map].
      rewrite erase_set_parent, E, <- app_assoc. reflexivity.
    - exists w''. split; [exact H6|]. intros FD. inversion FD; subst. rewrite EW', EW; auto.
  Qed.

  Lemma V_arr0 w1 : ws w1 -> P_val ("["%char :: w1 ++ str "]") (TArr []).
  Proof.
    intros W1. exists O. intros f w0 w rest s parent _ _ W B H. cbn [app] in H. rewrite <- app_assoc in H.
    eapply wp_mono; [eapply token_punct; [exact W|exact H|reflexivity]| |auto]. intros tk s1 [-> H1]. left.
    split; [reflexivity|]. intros q. unfold readArray_with. apply wp_bind.
    eapply wp_mono; [eapply token_punct; [exact W1|exact H1|reflexivity]| |auto]. intros t2 s2 [-> H2].
    change (beqb ["]"%char] (str "]")) with true. cbv iota. apply wp_bind, wp_fresh, wp_ret.
    split; [reflexivity|]. exists w. split; [apply at_fresh, H2|auto].
  Qed.

  Lemma V_arr t l : P_elems t l -> P_val ("["%char :: t ++ str "]") (TArr l).
  Proof.
    intros (f0 & L). exists f0. intros f w0 w rest s parent F D W B H. cbn [app] in H. rewrite <- app_assoc in H.
    eapply wp_mono; [eapply token_punct; [exact W|exact H|reflexivity]| |auto]. intros tk s1 [-> H1]. left.
    split; [reflexivity|]. intros q. unfold readArray_with. apply wp_bind.
    assert (DD : distinct_keys (TArr l) <-> Forall distinct_keys l).
    { split; [intros Q; inversion Q; auto|intros Q; constructor; auto]. }
    eapply wp_mono; [eapply (L f); [lia| |exact H1]| |auto].
    { intros Q. apply DD, D, Q. }
    intros t2 s2 [N K].
    assert (KK : wp (array_loop e params f q None t2) (post (TArr l) w rest) never s2).
    { eapply wp_mono; [apply K| |auto]. intros n s3 ((m & l' & -> & EL) & w' & H3 & EW). split.
      - cbn [erase last_keys]. rewrite EL. reflexivity.
      - exists w'. split; [exact H3|]. intros Q. apply EW, DD, Q. }
    destruct t2 as [n|b]; [exact KK|]. destruct (beqb b (str "]")) eqn:EB; [|exact KK].
    apply beqb_eq in EB. subst b. congruence.
  Qed.

  (** One member, up to its value. *)
  Lemma open_ok w rest q res key s : at_ w rest s -> NoDup (map entry_key (acc_obj res)) ->
    (strict p = true -> ~ In key (map entry_key (acc_obj res))) ->
    wp (open_object params q res key) (fun r s' => snd r = obj_erase entry_key key (acc_obj res) /\
      exists w', at_ w' rest s' /\ (~ In key (map entry_key (acc_obj res)) -> w' = w)) never s.
  Proof.
    intros H N D. unfold open_object. destruct res as [[m l]|].
    - cbn [acc_obj snd] in *. destruct (obj_contains entry_key key l) eqn:C.
      + apply contains_in in C. unfold strict_keys, params. destruct (strict p); [exfalso; apply D; auto|].
        apply wp_warn, wp_ret. split; [reflexivity|]. destruct H as (A & B & _). eexists (_ : list exn). split; [split; [exact A|split; [exact B|reflexivity]]|tauto].
      + apply wp_ret. cbn [snd]. split; [|eauto].
        assert (NI : ~ In key (map entry_key l)) by (rewrite <- contains_in; congruence). clear - NI.
        induction l as [|x l IH]; cbn [obj_erase map In] in *; [reflexivity|].
        destruct (beqb (entry_key x) key) eqn:E; [apply beqb_eq in E; tauto|]. rewrite <- IH; tauto.
    - apply wp_bind, wp_fresh, wp_ret. split; [reflexivity|]. exists w. split; [apply at_fresh, H|auto].
  Qed.

  Lemma erase_nodup k (l : list (meta * bytes * node)) : NoDup (map entry_key l) ->
    NoDup (map entry_key (obj_erase entry_key k l)) /\ ~ In k (map entry_key (obj_erase entry_key k l)) /\
    (forall x, In x (map entry_key (obj_erase entry_key k l)) -> In x (map entry_key l)).
  Proof.
    induction l as [|x l IH]; cbn [obj_erase map]; intros N; [split; [constructor|split; [auto|auto]]|].
    apply NoDup_cons_iff in N. destruct N as [NI N]. destruct (beqb (entry_key x) k) eqn:E.
    - apply beqb_eq in E. subst k. split; [exact N|split; [exact NI|cbn; auto]].
    - apply beqb_neq in E. destruct (IH N) as (A & B & C). cbn [map]. split.
      + constructor; [|exact A]. intros I. apply NI, C, I.
      + split; [intros [Q|Q]; auto|]. intros y [Q|Q]; cbn; auto.
  Qed.

  (** A member and its separator [c]; the state of the object after it. *)
  Lemma member_ok w1 k kv w2 w3 t v w4 : ws w1 -> Str k kv -> ws w2 -> ws w3 -> P_val t v -> ws w4 ->
    exists f0, forall f w c rest s q res K, (f0 <= f)%nat -> NoDup (map entry_key (acc_obj res)) ->
      (strict p = true -> ~ In kv (map entry_key (acc_obj res)) /\ distinct_keys v) ->
      (c = "}"%char \/ c = ","%char) ->
      at_ w (w1 ++ DQUOTE :: k ++ DQUOTE :: w2 ++ ":"%char :: w3 ++ t ++ w4 ++ c :: rest) s ->
      (forall m l w' s', map ent l = map ent (obj_erase entry_key kv (acc_obj res)) ++ [(kv, last_keys v)] ->
         at_ w' rest s' -> (~ In kv (map entry_key (acc_obj res)) /\ distinct_keys v -> w' = w) ->
         wp (if beqb [c] (str "}") then ret (NObj m l) else object_loop e params f q (Some (m, l))) K never s') ->
      wp (object_loop e params (S f) q res) K never s.
  Proof.
    intros W1 HS W2 W3 (f0 & V) W4. exists f0. intros f w c rest s q res K F N D C H HK.
    rewrite object_loop_S. apply wp_bind.
    eapply wp_mono; [eapply token_string; [exact W1|exact HS|exact H]| |auto]. intros tk s1 ((m1 & ->) & H1). cbv iota.
    apply wp_bind. eapply wp_mono; [eapply token_punct; [exact W2|exact H1|reflexivity]| |auto]. intros t2 s2 [-> H2].
    change (beqb [":"%char] (str ":")) with true. cbv iota.
    apply wp_bind. eapply wp_mono; [eapply open_ok; [exact H2|exact N|intros Q; apply D, Q]| |auto].
    intros r s3 (ER & w' & H3 & EW). apply wp_bind.
    eapply wp_mono; [eapply child_obj, (V f); [lia|intros Q; apply D, Q|exact W3| |exact H3]| |auto].
    { apply boundary_ws; [exact W4|]. destruct C as [-> | ->]; unfold closes; auto. }
    intros ch s4 (n & -> & E & w'' & H4 & EW'). apply wp_bind, wp_fresh. cbv zeta. apply wp_bind.
    eapply wp_mono; [eapply token_punct; [exact W4|apply at_fresh, H4|]| |auto].
    { destruct C as [-> | ->]; reflexivity. }
    intros t3 s5 [-> H5]. apply HK with w''; [|exact H5|].
    - unfold obj_push, sorts, params. rewrite kept. rewrite map_app, ER. cbn [map]. unfold ent at 2. cbn [fst snd].
      rewrite erase_set_parent, E. reflexivity.
    - intros [NI DV]. rewrite EW', EW; auto.
  Qed.

  Lemma pushed_keys l (acc : list (meta * bytes * node)) kv v : NoDup (map entry_key acc) ->
    map ent l = map ent (obj_erase entry_key kv acc) ++ [(kv, v)] ->
    NoDup (map entry_key l) /\ forall x, In x (map entry_key l) <-> In x (map entry_key (obj_erase entry_key kv acc)) \/ x = kv.
  Proof.
    intros N E. apply (f_equal (map fst)) in E. rewrite map_app, !ent_key in E. cbn [map fst] in E. rewrite E.
    destruct (erase_nodup kv acc N) as (A & B & _). split.
    - rewrite <- (rev_involutive (_ ++ _)). apply NoDup_rev. rewrite rev_app_distr. cbn [rev app]. constructor; [rewrite <- in_rev; exact B|apply NoDup_rev, A].
    - intros x. rewrite in_app_iff. cbn [In]. intuition.
  Qed.

  Lemma fine_push (acc l : list (meta * bytes * node)) kv v v' r : NoDup (map entry_key acc) ->
    map ent l = map ent (obj_erase entry_key kv acc) ++ [(kv, v')] ->
    fine acc ((kv, v) :: r) -> ~ In kv (map entry_key acc) /\ distinct_keys v /\ fine l r.
  Proof.
    intros N E [ND FD]. cbn [map fst] in ND. inversion_clear FD as [|? ? D1 D2].
    assert (NI : ~ In kv (map entry_key acc)).
    { apply NoDup_remove_2 in ND. intros I. apply ND. apply in_or_app. auto. }
    split; [exact NI|]. split; [exact D1|]. split; [|exact D2].
    apply (f_equal (map fst)) in E. rewrite map_app, !ent_key in E. cbn [map fst] in E. rewrite E.
    assert (EE : obj_erase entry_key kv acc = acc).
    { clear - NI. induction acc as [|x acc IH]; cbn [obj_erase map In] in *; [reflexivity|].
      destruct (beqb (entry_key x) kv) eqn:E; [apply beqb_eq in E; tauto|]. rewrite IH; tauto. }
    rewrite EE, <- app_assoc. exact ND.
  Qed.

  Lemma M_one_ok w1 k kv w2 w3 t v w4 : ws w1 -> Str k kv -> ws w2 -> ws w3 -> P_val t v -> ws w4 ->
    P_members (w1 ++ DQUOTE :: k ++ DQUOTE :: w2 ++ ":"%char :: w3 ++ t ++ w4) [(kv, v)].
  Proof.
    intros W1 HS W2 W3 V W4. destruct (member_ok w1 k kv w2 w3 t v w4 W1 HS W2 W3 V W4) as (f0 & MO).
    exists (S f0). intros f w rest s q res F N D H. destruct f as [|f]; [lia|].
    repeat (rewrite <- app_assoc in H; cbn [app] in H).
    assert (FN : fine (acc_obj res) [(kv, v)] -> ~ In kv (map entry_key (acc_obj res)) /\ distinct_keys v).
    { intros [ND FD]. inversion_clear FD. split; [|assumption]. apply NoDup_remove_2 in ND. rewrite app_nil_r in ND. exact ND. }
    eapply MO; [lia|exact N|intros Q; apply FN, D, Q|left; reflexivity|exact H|].
    intros m l w' s' EL H' EW. change (beqb ["}"%char] (str "}")) with true. cbv iota. apply wp_ret. split.
    - exists m, l. split; [reflexivity|]. rewrite EL. cbn [map]. unfold lastv. cbn [fst snd].
      rewrite <- (last_wins_push kv (acc_obj res) (last_keys v) [] N), app_nil_r.
      symmetry. apply last_wins_nodup. rewrite <- EL, ent_key. eapply pushed_keys; eauto.
    - exists w'. split; [exact H'|]. intros Q. apply EW, FN, Q.
  Qed.

  Lemma M_more_ok w1 k kv w2 w3 t v w4 t' r : ws w1 -> Str k kv -> ws w2 -> ws w3 -> P_val t v -> ws w4 -> P_members t' r ->
    P_members (w1 ++ DQUOTE :: k ++ DQUOTE :: w2 ++ ":"%char :: w3 ++ t ++ w4 ++ ","%char :: t') ((kv, v) :: r).
  Proof.
    intros W1 HS W2 W3 V W4 (f1 & L). destruct (member_ok w1 k kv w2 w3 t v w4 W1 HS W2 W3 V W4) as (f0 & MO).
    exists (S (f0 + f1)). intros f w rest s q res F N D H. destruct f as [|f]; [lia|].
    repeat (rewrite <- app_assoc in H; cbn [app] in H).
    assert (FN : fine (acc_obj res) ((kv, v) :: r) -> ~ In kv (map entry_key (acc_obj res)) /\ distinct_keys v).
    { intros [ND FD]. inversion_clear FD. split; [|assumption]. cbn [map fst] in ND. apply NoDup_remove_2 in ND.
      intros I. apply ND, in_or_app. auto. }
    eapply MO; [lia|exact N|intros Q; apply FN, D, Q|right; reflexivity|exact H|].
    intros m l w' s' EL H' EW. change (beqb [","%char] (str "}")) with false. cbv iota.
    eapply wp_mono; [eapply (L f); [lia| | |exact H']| |auto].
    - cbn [acc_obj snd]. eapply pushed_keys; eauto.
    - cbn [acc_obj snd]. intros Q. eapply fine_push; eauto.
    - cbn [acc_obj snd]. intros n s2 ((m' & l' & -> & EL') & w'' & H2 & EW'). split.
      + exists m', l'. split; [reflexivity|]. rewrite EL', EL. apply last_wins_push, N.
      + exists w''. split; [exact H2|]. intros Q. destruct (fine_push _ _ _ _ _ _ N EL Q) as (A & B & C).
        rewrite EW', EW; auto.
  Qed.

  Lemma V_obj0 w1 : ws w1 -> P_val ("{"%char :: w1 ++ str "}") (TObj []).
  Proof.
    intros W1. exists 1%nat. intros f w0 w rest s parent F _ W B H. cbn [app] in H. rewrite <- app_assoc in H.
    destruct f as [|f]; [lia|].
    eapply wp_mono; [eapply token_punct; [exact W|exact H|reflexivity]| |auto]. intros tk s1 [-> H1]. right.
    split; [reflexivity|]. intros q. rewrite object_loop_S. apply wp_bind.
    eapply wp_mono; [eapply token_punct; [exact W1|exact H1|reflexivity]| |auto]. intros t2 s2 [-> H2].
    change (beqb ["}"%char] (str "}")) with true. cbn [andb]. apply wp_bind, wp_fresh, wp_ret.
    split; [reflexivity|]. exists w. split; [apply at_fresh, H2|auto].
  Qed.

  Lemma V_obj t l : P_members t l -> P_val ("{"%char :: t ++ str "}") (TObj l).
  Proof.
    intros (f0 & L). exists f0. intros f w0 w rest s parent F D W B H. cbn [app] in H. rewrite <- app_assoc in H.
    eapply wp_mono; [eapply token_punct; [exact W|exact H|reflexivity]| |auto]. intros tk s1 [-> H1]. right.
    split; [reflexivity|]. intros q.
    assert (DD : distinct_keys (TObj l) -> fine [] l).
    { intros Q. inversion Q; subst. split; [cbn; assumption|assumption]. }
    eapply wp_mono; [eapply (L f); [lia|constructor| |exact H1]| |auto].
    { intros Q. apply DD, D, Q. }
    intros n s2 ((m & l' & -> & EL) & w' & H2 & EW). split.
    - cbn [erase last_keys]. f_equal. exact EL.
    - exists w'. split; [exact H2|]. intros Q. apply EW, DD, Q.
  Qed.

  Lemma grammar_ok :
    (forall t v, jval Str t v -> P_val t v) /\
    (forall t l, elems Str t l -> P_elems t l) /\
    (forall t l, members Str t l -> P_members t l).
  Proof.
    apply grammar_mut.
    - exact V_str.
    - exact V_null.
    - exact V_true.
    - exact V_false.
    - exact V_int.
    - exact V_dbl.
    - exact V_arr0.
    - intros t l _ H. exact (V_arr t l H).
    - exact V_obj0.
    - intros t l _ H. exact (V_obj t l H).
    - intros w1 t w2 v W1 _ V W2. exact (E_one_ok w1 t w2 v W1 V W2).
    - intros w1 t w2 v t' l W1 _ V W2 _ L. exact (E_more_ok w1 t w2 v t' l W1 V W2 L).
    - intros w1 k kv w2 w3 t v w4 W1 S W2 W3 _ V W4. exact (M_one_ok w1 k kv w2 w3 t v w4 W1 S W2 W3 V W4).
    - intros w1 k kv w2 w3 t v w4 t' l W1 S W2 W3 _ V W4 _ L. exact (M_more_ok w1 k kv w2 w3 t v w4 t' l W1 S W2 W3 V W4 L).
  Qed.

  (** Reading a text of the grammar, with --keep-order. *)
  Lemma read_kept w0 t v rest : jval Str t v -> (strict p = true -> distinct_keys v) -> ws w0 -> boundary rest ->
    exists root s', read_doc e params (w0 ++ t ++ rest) = Ok (Some root, s') /\ erase root = last_keys v /\
      inp s' = rest /\ (distinct_keys v -> warns s' = []).
  Proof.
    intros J D W B. destruct (proj1 grammar_ok t v J) as (f0 & V).
    set (input := w0 ++ t ++ rest). set (f := (f0 + S (S (length input)))%nat).
    assert (A : at_ [] input (init_st input)).
    { split; [reflexivity|]. split; [|reflexivity]. apply init_ready. }
    pose proof (child_obj f v [] rest None (init_st input) (V f w0 [] rest (init_st input) None ltac:(unfold f; lia) D W B A)) as H.
    change (wp (readNext e params f None) (fun c s' => exists n, c = Some n /\ post v [] rest n s') never (init_st input)) in H.
    unfold wp in H. destruct (readNext e params f None (init_st input)) as [[c s']| | | |] eqn:ER; try contradiction.
    destruct H as (n & -> & E & w' & (EI & R & EW) & EW').
    exists n, s'. split.
    - unfold read_doc. destruct (readNext_le e params (S (S (length input))) f None ltac:(unfold f; lia) (init_st input)) as [Q|Q].
      + exfalso. exact (read_doc_terminates e params input Q).
      + rewrite Q. exact ER.
    - split; [exact E|]. split; [exact EI|]. intros Q. rewrite EW. auto.
  Qed.
End Tree.

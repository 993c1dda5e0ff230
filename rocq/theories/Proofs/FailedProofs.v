(** What a reading has made and deleted, however it ends. *)
From Verif Require Export Model.Failed Spec.TreeSpec.
From Verif Require Import Proofs.ParserBase Proofs.ParserShape Proofs.ParserTree Proofs.MemoryProofs.
From Coq Require Import Lia.
Open Scope Z_scope.

Definition wpf {A} (m : F A) (Q : A -> st -> list Z -> Prop) (E : Z -> list Z -> Prop) (s : st) (fr : list Z) : Prop :=
  match m s fr with Reads a s' fr' => Q a s' fr' | Stops _ n fr' => E n fr' end.

Lemma wpf_bind {A B} (m : F A) (k : A -> F B) Q E s fr :
  wpf m (fun a s' fr' => wpf (k a) Q E s' fr') E s fr -> wpf (fbind m k) Q E s fr.
Proof. unfold wpf, fbind. destruct (m s fr); auto. Qed.
Lemma wpf_mono {A} (m : F A) (Q Q' : A -> st -> list Z -> Prop) (E E' : Z -> list Z -> Prop) s fr :
  wpf m Q E s fr -> (forall a s' fr', Q a s' fr' -> Q' a s' fr') -> (forall n fr', E n fr' -> E' n fr') -> wpf m Q' E' s fr.
Proof. unfold wpf. destruct (m s fr); auto. Qed.
Lemma wpf_ret {A} (a : A) (Q : A -> st -> list Z -> Prop) E s fr : Q a s fr -> wpf (fret a) Q E s fr.
Proof. auto. Qed.
Lemma wpf_lift {A} (m : M A) (Q : A -> st -> list Z -> Prop) (E : Z -> list Z -> Prop) s fr :
  wp m (fun a s' => Q a s' fr) (fun _ => True) s -> E (nextid s) fr -> wpf (lift m) Q E s fr.
Proof. unfold wp, wpf, lift. destruct (m s) as [[a s']| | | |]; auto. Qed.
Lemma wpf_free l (Q : unit -> st -> list Z -> Prop) E s fr : Q tt s (fr ++ l) -> wpf (free l) Q E s fr.
Proof. auto. Qed.
Lemma wpf_fresh (Q : Z -> st -> list Z -> Prop) E s fr :
  Q (nextid s) (mkSt (inp s) (good s) (his s) (warns s) (nextid s + 1)) fr -> wpf (lift fresh) Q E s fr.
Proof. auto. Qed.

Definition unread (s : st) : Z := Z.of_nat (length (inp s)).
Definition within (lo hi : Z) (l : list Z) : Prop := forall i, In i l -> lo <= i < hi.
Definition credit (t : tok) : Z := match t with TTok (_ :: _) => 1 | _ => 0 end.

Lemma within_app lo hi l r : within lo hi l -> within lo hi r -> within lo hi (l ++ r).
Proof. intros L R i I. apply in_app_iff in I. destruct I; auto. Qed.
Lemma within_wide lo hi lo' hi' l : within lo hi l -> lo' <= lo -> hi <= hi' -> within lo' hi' l.
Proof. intros L A B i I. specialize (L i I). lia. Qed.
Lemma within_nil lo hi : within lo hi [].
Proof. intros i []. Qed.

Section Loops.
  Variable e : env.
  Variable params : option cfg.

  Lemma wpf_token parent s fr (Q : tok -> st -> list Z -> Prop) (E : Z -> list Z -> Prop) : ready s ->
    (forall t s', ready s' -> nextid s <= nextid s' -> nextid s' + unread s' + credit t <= nextid s + unread s ->
       within (nextid s) (nextid s') (ids_tok t) -> (forall n, t = TElem n -> nid n = nextid s /\ nextid s' = nextid s + 1) -> (forall b, t = TTok b -> nextid s' = nextid s) -> Q t s' fr) ->
    E (nextid s) fr -> wpf (lift (consumeToken e params parent)) Q E s fr.
  Proof.
    intros R K X. apply wpf_lift; [|exact X]. assert (A := consumeToken_reach e params parent s R). assert (B := consumeToken_shape e params parent s).
    unfold wp in *. destruct (consumeToken e params parent s) as [[t s']| | | |]; auto.
    assert (RR : exists c, consumed s c s' /\ (c <> [] \/ t = TTok [])).
    { destruct t as [n|[|a b]]; cbn [tok_reach] in A; [destruct A as (c & C & N)|destruct A as (c & C)|destruct A as (c & C & N)]; exists c; auto. }
    destruct RR as (c & (I & RS) & N).
    assert (L : unread s = Z.of_nat (length c) + unread s') by (unfold unread; rewrite I, app_length; lia).
    assert (LC : c <> [] -> 1 <= Z.of_nat (length c)) by (intros H; destruct c; [congruence|cbn [length]; lia]).
    destruct t as [n|b]; cbn [lex_post] in B.
    - destruct B as (p & -> & EN). destruct N as [N|N]; [|discriminate]. specialize (LC N). apply K; auto; cbn [credit]; try lia.
      + intros i [<-|[]]. cbn. lia.
      + intros n [= <-]. split; [reflexivity|exact EN].
      + discriminate.
    - destruct B as [EN _]. apply K; auto; try lia.
      + destruct b as [|x b]; cbn [credit]; [lia|]. destruct N as [N|N]; [|discriminate]. specialize (LC N). lia.
      + apply within_nil.
      + discriminate.
  Qed.

  (** A call from [s] with credit [c], what is freed from [lo] on, the answer's
      identities from [lo'] on. *)
  Definition post (c lo lo' : Z) (s : st) (fr : list Z) (l : list Z) (s' : st) (fr' : list Z) : Prop :=
    ready s' /\ nextid s <= nextid s' /\ nextid s' + unread s' <= nextid s + unread s + c /\
    within lo' (nextid s') l /\ exists d, fr' = fr ++ d /\ within lo (nextid s') d.
  Definition epost (c lo : Z) (some : bool) (s : st) (fr : list Z) (n : Z) (fr' : list Z) : Prop :=
    nextid s <= n <= nextid s + unread s + c /\
    exists d, fr' = fr ++ d /\ within lo n d /\ (some = true -> n = nextid s \/ exists i, nextid s <= i < n /\ ~ In i d).

  Lemma unread_pos s : 0 <= unread s.
  Proof. unfold unread. lia. Qed.

  Definition object_some (f : nat) : Prop := forall parent m ents s fr, ready s -> mid m < nextid s -> within (mid m + 1) (nextid s) (flat_map eids ents) ->
    wpf (object_fin e params f parent (Some (m, ents))) (fun n => post 0 (mid m + 1) (mid m) s fr (ids n)) (epost 0 (mid m + 1) false s fr) s fr.
  Definition object_none (f : nat) : Prop := forall parent s fr, ready s ->
    wpf (object_fin e params f parent None) (fun n => post 1 (nextid s) (nextid s) s fr (ids n)) (epost 1 (nextid s) true s fr) s fr.
  Definition array_some (f : nat) : Prop := forall parent m items t lo s fr, ready s -> lo <= nextid s -> lo <= mid m < nextid s -> within lo (nextid s) (flat_map ids items) -> within lo (nextid s) (ids_tok t) ->
    wpf (array_fin e params f parent (Some (m, items)) t) (fun n => post (credit t) (nextid s) lo s fr (ids n)) (epost (credit t) (nextid s) false s fr) s fr.
  Definition array_none (f : nat) : Prop := forall parent t lo s fr, ready s -> lo <= nextid s -> within lo (nextid s) (ids_tok t) ->
    wpf (array_fin e params f parent None t) (fun n => post (1 + credit t) (nextid s) lo s fr (ids n)) (epost (1 + credit t) (nextid s) true s fr) s fr.

  Lemma array_with f : array_none f -> forall parent s fr, ready s ->
    wpf (readArray_fin e params (fun p t => array_fin e params f p None t) parent) (fun n => post 1 (nextid s) (nextid s) s fr (ids n)) (epost 1 (nextid s) true s fr) s fr.
  Proof.
    intros A parent s fr R. unfold readArray_fin. apply wpf_bind, wpf_token; [exact R| |].
    2: { split; [assert (U := unread_pos s); lia|]. exists []. rewrite app_nil_r. split; [reflexivity|]. split; [apply within_nil|auto]. }
    intros t s1 R1 N1 C1 W1 K1 B1'.
    assert (KA : wpf (array_fin e params f parent None t) (fun n => post 1 (nextid s) (nextid s) s fr (ids n)) (epost 1 (nextid s) true s fr) s1 fr).
    { eapply wpf_mono; [exact (A parent t (nextid s) s1 fr R1 N1 W1)| |].
      - intros n s' fr' (B1 & B2 & B3 & B4 & d & B5 & B6). split; [exact B1|]. split; [lia|]. split; [lia|]. split; [exact B4|].
        exists d. split; [exact B5|]. exact (within_wide _ _ _ _ _ B6 N1 (Z.le_refl _)).
      - intros n fr' (B1 & d & B2 & B3 & B4). split; [lia|]. exists d. split; [exact B2|]. split; [exact (within_wide _ _ _ _ _ B3 N1 (Z.le_refl _))|].
        intros _. destruct (Z.eq_dec (nextid s1) (nextid s)) as [Q|Q].
        + destruct (B4 eq_refl) as [B|(i & B & D)]; [left; lia|right; exists i; split; [lia|exact D]].
        + right. exists (nextid s). split; [lia|]. intros I. specialize (B3 _ I). lia. }
    destruct t as [n0|b]; [exact KA|]. destruct (beqb b (str "]")); [|exact KA].
    assert (U := unread_pos s1). apply wpf_bind, wpf_fresh, wpf_ret. unfold post. cbn [nextid unread inp] in *.
    split; [exact R1|]. split; [lia|]. split; [change (unread (mkSt (inp s1) (good s1) (his s1) (warns s1) (nextid s1 + 1))) with (unread s1); cbn [credit] in C1; destruct b; lia|].
    split; [intros i [<-|[]]; cbn; lia|]. exists []. rewrite app_nil_r. split; [reflexivity|apply within_nil].
  Qed.

  Lemma stop_here c lo some s fr : 0 <= c -> epost c lo some s fr (nextid s) fr.
  Proof. intros C. assert (U := unread_pos s). split; [lia|]. exists []. rewrite app_nil_r. split; [reflexivity|]. split; [apply within_nil|auto]. Qed.

  Lemma token_is b x : beqb b (str x) = true -> x <> ""%string -> credit (TTok b) = 1.
  Proof. intros H N. apply beqb_eq in H. subst b. destruct x; [congruence|reflexivity]. Qed.

  Lemma next_with f : object_none f -> array_none f -> forall parent s fr, ready s ->
    wpf (readNext_fin e params (fun p => object_fin e params f p None) (readArray_fin e params (fun p t => array_fin e params f p None t)) parent)
      (fun o => post 0 (nextid s) (nextid s) s fr (ids_opt o)) (epost 0 (nextid s) true s fr) s fr.
  Proof.
    intros O A parent s fr R. unfold readNext_fin. apply wpf_bind, wpf_token; [exact R| |apply stop_here; lia].
    intros t s1 R1 N1 C1 W1 K1 B1. assert (U := unread_pos s1).
    assert (P0 : forall l, within (nextid s) (nextid s1) l -> credit t >= 0 -> post 0 (nextid s) (nextid s) s fr l s1 fr).
    { intros l W CC. split; [exact R1|]. split; [exact N1|]. split; [lia|]. split; [exact W|]. exists []. rewrite app_nil_r. split; [reflexivity|apply within_nil]. }
    destruct t as [n|b].
    { apply wpf_ret, P0; [exact W1|cbn; lia]. }
    specialize (B1 b eq_refl).
    assert (STEP : forall m : F node, credit (TTok b) = 1 -> wpf m (fun n => post 1 (nextid s1) (nextid s1) s1 fr (ids n)) (epost 1 (nextid s1) true s1 fr) s1 fr ->
      wpf (fbind m (fun x => fret (Some x))) (fun o => post 0 (nextid s) (nextid s) s fr (ids_opt o)) (epost 0 (nextid s) true s fr) s1 fr).
    { intros m CR H. apply wpf_bind. eapply wpf_mono; [exact H| |].
      - intros n s' fr' (Q1 & Q2 & Q3 & Q4 & Q5). apply wpf_ret. cbn [ids_opt]. rewrite B1 in *. split; [exact Q1|]. split; [lia|]. split; [lia|]. split; [exact Q4|exact Q5].
      - intros n fr' (Q1 & Q2). rewrite B1 in *. split; [lia|exact Q2]. }
    destruct (beqb b (str "{")) eqn:B; [apply STEP; [exact (token_is _ _ B ltac:(discriminate))|apply O, R1]|].
    destruct (beqb b (str "[")) eqn:B'; [apply STEP; [exact (token_is _ _ B' ltac:(discriminate))|apply array_with; [exact A|exact R1]]|].
    apply wpf_ret, P0; [apply within_nil|destruct b; cbn; lia].
  Qed.

  Lemma eids_push srt x l i : In i (flat_map eids (obj_push entry_key srt x l)) -> In i (eids x) \/ In i (flat_map eids l).
  Proof. intros I. apply in_app_iff. exact (Permutation_in i (Permutation_sym (Permutation_flat_map' eids _ _ (obj_push_perm entry_key srt x l))) I). Qed.

  (** One member of the object [m], its key read: what follows. *)
  Definition member f parent (r : objpart) (k : Z) (key : bytes) : F node :=
    child <== readNext_fin e params (fun p => object_fin e params f p None)
                (readArray_fin e params (fun p t => array_fin e params f p None t)) (Some (mid (fst r))) ;;
    match child with
    | None => lift (ubM NullDeref)
    | Some v =>
        i <== lift fresh ;;
        let entry := (mkMeta i (Some (mid (fst r))), key, set_parent i v) in
        let l := obj_push entry_key (sorts params) entry (snd r) in
        _ <== free [k] ;;
        t3 <== lift (consumeToken e params (Some (mid (fst r)))) ;;
        match t3 with
        | TTok b => if beqb b (str "}") then fret (NObj (fst r) l) else object_fin e params f parent (Some (fst r, l))
        | TElem _ => fret (NObj (fst r) l)
        end
    end.

  Lemma member_post f parent m l k key s fr : object_some f -> object_none f -> array_none f ->
    ready s -> mid m < nextid s -> within (mid m + 1) (nextid s) (flat_map eids l) ->
    wpf (member f parent (m, l) k key)
      (fun n s' fr' => ready s' /\ nextid s <= nextid s' /\ nextid s' + unread s' <= nextid s + unread s + 1 /\ within (mid m) (nextid s') (ids n) /\
         exists d, fr' = fr ++ d /\ forall i, In i d -> i = k \/ mid m + 1 <= i < nextid s')
      (fun n fr' => nextid s <= n <= nextid s + unread s + 1 /\ exists d, fr' = fr ++ d /\ forall i, In i d -> i = k \/ mid m + 1 <= i < n) s fr.
  Proof.
    intros OS ON AN R LM WE. unfold member. cbn [fst snd]. apply wpf_bind. eapply wpf_mono; [exact (next_with f ON AN (Some (mid m)) s fr R)| |].
    2: { intros n fr' (Q1 & d & Q2 & Q3 & _). split; [lia|]. exists d. split; [exact Q2|]. intros i I. specialize (Q3 i I). lia. }
    intros child s1 fr1 (R1 & N1 & C1 & W1 & d1 & -> & D1). assert (U1 := unread_pos s1).
    destruct child as [v|].
    2: { apply wpf_lift; [exact Logic.I|]. split; [lia|]. exists d1. split; [reflexivity|]. intros i I. specialize (D1 i I). lia. }
    cbn [ids_opt] in W1. apply wpf_bind, wpf_fresh. cbv zeta.
    set (s2 := mkSt (inp s1) (good s1) (his s1) (warns s1) (nextid s1 + 1)). assert (R2 : ready s2) by exact R1.
    set (l2 := obj_push entry_key (sorts params) _ l).
    assert (W2 : within (mid m + 1) (nextid s1 + 1) (flat_map eids l2)).
    { intros i I. apply eids_push in I. destruct I as [I|I]; [|specialize (WE i I); lia]. unfold eids in I. cbn [fst snd mid] in I. rewrite ids_set_parent in I.
      destruct I as [<-|I]; [lia|]. specialize (W1 i I). lia. }
    apply wpf_bind, wpf_free, wpf_bind, wpf_token; [exact R2| |].
    2: { cbn [nextid s2]. split; [lia|]. exists (d1 ++ [k]). rewrite app_assoc. split; [reflexivity|]. intros i I. apply in_app_iff in I.
         destruct I as [I|[<-|[]]]; [|left; reflexivity]. specialize (D1 i I). lia. }
    intros t s3 R3 N3 C3 W3 K3 B3. assert (U3 := unread_pos s3). cbn [nextid s2] in N3, C3, K3, B3. change (unread s2) with (unread s1) in C3.
    assert (CR : 0 <= credit t) by (destruct t as [|[|]]; cbn; lia).
    assert (DONE : ready s3 /\ nextid s <= nextid s3 /\ nextid s3 + unread s3 <= nextid s + unread s + 1 /\ within (mid m) (nextid s3) (ids (NObj m l2)) /\
         exists d, (fr ++ d1) ++ [k] = fr ++ d /\ forall i, In i d -> i = k \/ mid m + 1 <= i < nextid s3).
    { split; [exact R3|]. split; [lia|]. split; [lia|]. split.
      - rewrite ids_obj. intros i [<-|I]; [lia|]. specialize (W2 i I). lia.
      - exists (d1 ++ [k]). rewrite app_assoc. split; [reflexivity|]. intros i I. apply in_app_iff in I. destruct I as [I|[<-|[]]]; [|left; reflexivity].
        specialize (D1 i I). lia. }
    destruct t as [n0|b]; [apply wpf_ret, DONE|]. destruct (beqb b (str "}")); [apply wpf_ret, DONE|].
    eapply wpf_mono; [apply (OS parent m l2 s3 ((fr ++ d1) ++ [k]) R3)| |].
    - lia.
    - exact (within_wide _ _ _ _ _ W2 (Z.le_refl _) N3).
    - intros n s4 fr4 (R4 & N4 & C4 & W4 & d4 & -> & D4). split; [exact R4|]. split; [lia|]. split; [lia|]. split; [exact W4|].
      exists (d1 ++ [k] ++ d4). rewrite !app_assoc. split; [reflexivity|]. intros i I. rewrite !in_app_iff in I. destruct I as [[I|[<-|[]]]|I]; [|left; reflexivity|].
      + specialize (D1 i I). lia.
      + specialize (D4 i I). lia.
    - intros n fr4 (C4 & d4 & -> & D4 & _). split; [lia|]. exists (d1 ++ [k] ++ d4). rewrite !app_assoc. split; [reflexivity|].
      intros i I. rewrite !in_app_iff in I. destruct I as [[I|[<-|[]]]|I]; [|left; reflexivity|].
      + specialize (D1 i I). lia.
      + specialize (D4 i I). lia.
  Qed.

  Lemma object_unfold f parent result : object_fin e params (S f) parent result =
    fbind (lift (consumeToken e params (result_id result))) (fun t =>
      match t with
      | TTok b => if beqb b (str "}") && match result with None => true | Some _ => false end
                  then fbind (lift fresh) (fun i => fret (NObj (mkMeta i parent) [])) else lift (throw NotAKey)
      | TElem (NPrim km (PStr key)) =>
          fbind (lift (consumeToken e params parent)) (fun t2 =>
            if match t2 with TTok b => beqb b (str ":") | TElem _ => false end
            then fbind (open_object_fin params parent result key) (fun r => member f parent r (mid km) key)
            else lift (throw (Unexpected ":")))
      | TElem _ => lift (throw NotAKey)
      end).
  Proof. reflexivity. Qed.

  Lemma colon_credit t : match t with TTok b => beqb b (str ":") | TElem _ => false end = true -> credit t = 1 /\ forall n, t <> TElem n.
  Proof. destruct t as [n|b]; [discriminate|]. intros H. split; [exact (token_is b ":" H ltac:(discriminate))|discriminate]. Qed.

  Lemma object_some_step f : object_some f -> object_none f -> array_none f -> object_some (S f).
  Proof.
    intros OS ON AN parent m ents s fr R LM WE. rewrite object_unfold. assert (U := unread_pos s).
    assert (HERE : forall s1, nextid s <= nextid s1 -> nextid s1 + unread s1 <= nextid s + unread s -> epost 0 (mid m + 1) false s fr (nextid s1) fr).
    { intros s1 N C. assert (U1 := unread_pos s1). split; [lia|]. exists []. rewrite app_nil_r. split; [reflexivity|]. split; [apply within_nil|discriminate]. }
    apply wpf_bind, wpf_token; [exact R| |apply stop_here; lia].
    intros t s1 R1 N1 C1 W1 K1 _. assert (U1 := unread_pos s1). assert (CR1 : 0 <= credit t) by (destruct t as [|[|]]; cbn; lia).
    assert (THROW : forall A x (Q : A -> st -> list Z -> Prop), wpf (lift (throw x)) Q (epost 0 (mid m + 1) false s fr) s1 fr).
    { intros A x Q. apply wpf_lift; [exact Logic.I|apply HERE; lia]. }
    destruct t as [n|b]; [|rewrite andb_false_r; apply THROW]. destruct (K1 n eq_refl) as [KI KN].
    destruct n as [km [key| | | | |]|km l|km l]; try apply THROW. change (nid (NPrim km (PStr key))) with (mid km) in KI.
    apply wpf_bind, wpf_token; [exact R1| |apply HERE; lia].
    intros t2 s2 R2 N2 C2 _ _ B2. assert (U2 := unread_pos s2). assert (CR2 : 0 <= credit t2) by (destruct t2 as [|[|]]; cbn; lia).
    destruct (match t2 with TTok b => beqb b (str ":") | TElem _ => false end) eqn:CO.
    2: { apply wpf_lift; [exact Logic.I|apply HERE; cbn [credit] in *; lia]. }
    destruct (colon_credit _ CO) as [CC _]. cbn [credit] in C1. apply wpf_bind. unfold open_object_fin.
    assert (OPEN : forall l' dd, within (mid m + 1) (nextid s) (flat_map eids l') -> within (mid m + 1) (nextid s) dd -> forall s3, ready s3 -> nextid s3 = nextid s2 -> unread s3 = unread s2 ->
      wpf (member f parent (m, l') (mid km) key) (fun n => post 0 (mid m + 1) (mid m) s fr (ids n)) (epost 0 (mid m + 1) false s fr) s3 (fr ++ dd)).
    { intros l' dd WL WD s3 R3 E3 E3'. eapply wpf_mono; [apply (member_post f parent m l' (mid km) key s3 (fr ++ dd) OS ON AN R3)| |].
      - lia.
      - eapply within_wide; [exact WL|apply Z.le_refl|lia].
      - intros n s4 fr4 (R4 & N4 & C4 & W4 & d & -> & D). split; [exact R4|]. split; [lia|]. split; [lia|]. split; [exact W4|].
        exists (dd ++ d). rewrite app_assoc. split; [reflexivity|]. intros i I. apply in_app_iff in I. destruct I as [I|I].
        + specialize (WD i I). lia.
        + specialize (D i I). lia.
      - intros n fr4 (C4 & d & -> & D). split; [lia|]. exists (dd ++ d). rewrite app_assoc. split; [reflexivity|]. split; [|discriminate].
        intros i I. apply in_app_iff in I. destruct I as [I|I].
        + specialize (WD i I). lia.
        + specialize (D i I). lia. }
    assert (P := erased_perm key ents).
    apply wpf_bind, wpf_lift; [|apply HERE; lia]. unfold open_object. destruct (obj_contains entry_key key ents) eqn:OC.
    - destruct (strict_keys params); [exact Logic.I|]. unfold wp, bind, warn, ret. apply wpf_bind, wpf_free, wpf_ret. apply OPEN; auto.
      + intros i I. apply WE. eapply Permutation_in; [exact P|]. apply in_app_iff. left. exact I.
      + intros i I. apply WE. eapply Permutation_in; [exact P|]. apply in_app_iff. right. exact I.
    - unfold wp, ret. apply wpf_bind, wpf_free, wpf_ret. rewrite (erased_none _ _ OC). apply OPEN; auto. apply within_nil.
  Qed.

  Lemma object_none_step f : object_some f -> object_none f -> array_none f -> object_none (S f).
  Proof.
    intros OS ON AN parent s fr R. rewrite object_unfold. assert (U := unread_pos s).
    apply wpf_bind, wpf_token; [exact R| |apply stop_here; lia].
    intros t s1 R1 N1 C1 W1 K1 B1. assert (U1 := unread_pos s1). assert (CR1 : 0 <= credit t) by (destruct t as [|[|]]; cbn; lia).
    assert (HERE : forall s2, nextid s1 <= nextid s2 -> nextid s2 + unread s2 <= nextid s + unread s -> (nextid s2 = nextid s \/ nextid s < nextid s2) -> epost 1 (nextid s) true s fr (nextid s2) fr).
    { intros s2 N C H. assert (U2 := unread_pos s2). split; [lia|]. exists []. rewrite app_nil_r. split; [reflexivity|]. split; [apply within_nil|].
      intros _. destruct H as [H|H]; [left; exact H|right]. exists (nextid s). split; [lia|intros []]. }
    assert (THROW : forall A x (Q : A -> st -> list Z -> Prop), wpf (lift (throw x)) Q (epost 1 (nextid s) true s fr) s1 fr).
    { intros A x Q. apply wpf_lift; [exact Logic.I|apply HERE; lia]. }
    destruct t as [n|b].
    2: { destruct (beqb b (str "}") && true) eqn:Z; [|apply THROW]. apply wpf_bind, wpf_fresh, wpf_ret. split; [exact R1|]. cbn [nextid].
      change (unread (mkSt (inp s1) (good s1) (his s1) (warns s1) (nextid s1 + 1))) with (unread s1). split; [lia|]. split; [lia|].
      split; [intros i [<-|[]]; cbn; lia|]. exists []. rewrite app_nil_r. split; [reflexivity|apply within_nil]. }
    destruct (K1 n eq_refl) as [KI KN].
    destruct n as [km [key| | | | |]|km l|km l]; try apply THROW. change (nid (NPrim km (PStr key))) with (mid km) in KI. cbn [credit] in C1.
    apply wpf_bind, wpf_token; [exact R1| |apply HERE; lia].
    intros t2 s2 R2 N2 C2 _ _ B2. assert (U2 := unread_pos s2). assert (CR2 : 0 <= credit t2) by (destruct t2 as [|[|]]; cbn; lia).
    destruct (match t2 with TTok b => beqb b (str ":") | TElem _ => false end) eqn:CO.
    2: { apply wpf_lift; [exact Logic.I|apply HERE; lia]. }
    destruct (colon_credit _ CO) as [CC _].
    assert (E2 : nextid s2 = nextid s1) by (destruct t2 as [|b2]; [discriminate CO|exact (B2 b2 eq_refl)]).
    apply wpf_bind. unfold open_object_fin. apply wpf_bind. cbn [open_object].
    unfold wpf at 1, lift, bind, fresh, ret. apply wpf_bind, wpf_free, wpf_ret. rewrite app_nil_r.
    set (s3 := mkSt (inp s2) (good s2) (his s2) (warns s2) (nextid s2 + 1)).
    eapply wpf_mono; [apply (member_post f parent (mkMeta (nextid s2) parent) [] (mid km) key s3 fr OS ON AN)| |].
    - exact R2.
    - cbn. lia.
    - apply within_nil.
    - cbn [mid nextid s3]. change (unread s3) with (unread s2). intros n s4 fr4 (R4 & N4 & C4 & W4 & d & -> & D). split; [exact R4|]. split; [lia|]. split; [lia|].
      split; [eapply within_wide; [exact W4|lia|apply Z.le_refl]|].
      exists d. split; [reflexivity|]. intros i I. specialize (D i I). lia.
    - cbn [mid nextid s3]. change (unread s3) with (unread s2). intros n fr4 (C4 & d & -> & D). split; [lia|]. exists d. split; [reflexivity|].
      split; [intros i I; specialize (D i I); lia|]. intros _. right. exists (nextid s2). split; [lia|]. intros I. specialize (D _ I). lia.
  Qed.

  (** One item of an array: what it is. *)
  Definition item f (t : tok) : F node :=
    match t with
    | TElem n => fret n
    | TTok b => if beqb b (str "[") then readArray_fin e params (fun p t => array_fin e params f p None t) None
                else if beqb b (str "{") then object_fin e params f None None else lift (throw NotJson)
    end.
  (** The rest of the array [r] with [l] in it. *)
  Definition items f parent (r : meta * list node) (child : node) : F node :=
    let l := snd r ++ [set_parent (mid (fst r)) child] in
    t2 <== lift (consumeToken e params (Some (mid (fst r)))) ;;
    match t2 with
    | TElem _ => lift (throw (Unexpected "]"))
    | TTok b =>
        if beqb b (str "]") then fret (NArr (fst r) l)
        else if negb (beqb b (str ",")) then lift (throw (Unexpected "]"))
        else t3 <== lift (consumeToken e params (Some (mid (fst r)))) ;; array_fin e params f parent (Some (fst r, l)) t3
    end.
  Lemma array_unfold f parent result t : array_fin e params (S f) parent result t =
    fbind (item f t) (fun child => fbind (match result with Some r => fret r | None => fbind (lift fresh) (fun i => fret (mkMeta i parent, [])) end) (fun r => items f parent r child)).
  Proof. reflexivity. Qed.

  Lemma item_post f t s fr : object_none f -> array_none f -> ready s -> forall lo, lo <= nextid s -> within lo (nextid s) (ids_tok t) ->
    wpf (item f t) (fun n => post (credit t) (nextid s) lo s fr (ids n)) (epost (credit t) (nextid s) true s fr) s fr.
  Proof.
    intros ON AN R lo LO W. assert (U := unread_pos s). assert (CR : 0 <= credit t) by (destruct t as [|[|]]; cbn; lia).
    assert (STEP : forall m : F node, wpf m (fun n => post 1 (nextid s) (nextid s) s fr (ids n)) (epost 1 (nextid s) true s fr) s fr -> credit t = 1 ->
      wpf m (fun n => post (credit t) (nextid s) lo s fr (ids n)) (epost (credit t) (nextid s) true s fr) s fr).
    { intros m H C. rewrite C. eapply wpf_mono; [exact H| |auto]. intros n s' fr' (A1 & A2 & A3 & A4 & A5). split; [exact A1|]. split; [exact A2|]. split; [exact A3|].
      split; [exact (within_wide _ _ _ _ _ A4 LO (Z.le_refl _))|exact A5]. }
    destruct t as [n|b]; cbn [item].
    { apply wpf_ret. split; [exact R|]. split; [lia|]. split; [cbn; lia|]. split; [exact W|]. exists []. rewrite app_nil_r. split; [reflexivity|apply within_nil]. }
    destruct (beqb b (str "[")) eqn:B; [apply STEP; [apply array_with; assumption|exact (token_is _ _ B ltac:(discriminate))]|].
    destruct (beqb b (str "{")) eqn:B'; [apply STEP; [apply ON, R|exact (token_is _ _ B' ltac:(discriminate))]|].
    apply wpf_lift; [exact Logic.I|apply stop_here, CR].
  Qed.

  Lemma items_post f parent m l child lo s fr : array_some f -> ready s -> lo <= mid m < nextid s -> within lo (nextid s) (flat_map ids l) -> within lo (nextid s) (ids child) ->
    wpf (items f parent (m, l) child) (fun n => post 0 (nextid s) lo s fr (ids n)) (epost 0 (nextid s) false s fr) s fr.
  Proof.
    intros AS R LM WL WC. assert (U := unread_pos s). unfold items. cbn [fst snd]. set (l2 := l ++ _).
    assert (W2 : within lo (nextid s) (flat_map ids l2)).
    { unfold l2. rewrite flat_map_app. cbn [flat_map]. rewrite app_nil_r, ids_set_parent. apply within_app; assumption. }
    assert (HERE : forall s1, nextid s <= nextid s1 -> nextid s1 + unread s1 <= nextid s + unread s -> epost 0 (nextid s) false s fr (nextid s1) fr).
    { intros s1 N C. assert (U1 := unread_pos s1). split; [lia|]. exists []. rewrite app_nil_r. split; [reflexivity|]. split; [apply within_nil|discriminate]. }
    apply wpf_bind, wpf_token; [exact R| |apply stop_here; lia].
    intros t s1 R1 N1 C1 _ _ _. assert (U1 := unread_pos s1). assert (CR1 : 0 <= credit t) by (destruct t as [|[|]]; cbn; lia).
    destruct t as [n0|b]; [apply wpf_lift; [exact Logic.I|apply HERE; lia]|].
    destruct (beqb b (str "]")).
    { apply wpf_ret. split; [exact R1|]. split; [lia|]. split; [lia|]. split.
      - rewrite ids_arr. intros i [<-|I]; [lia|]. specialize (W2 i I). lia.
      - exists []. rewrite app_nil_r. split; [reflexivity|apply within_nil]. }
    destruct (negb (beqb b (str ","))); [apply wpf_lift; [exact Logic.I|apply HERE; lia]|].
    apply wpf_bind, wpf_token; [exact R1| |apply HERE; lia].
    intros t3 s3 R3 N3 C3 W3 _ _. eapply wpf_mono; [apply (AS parent m l2 t3 lo s3 fr R3)| |].
    - lia.
    - lia.
    - eapply within_wide; [exact W2|apply Z.le_refl|lia].
    - eapply within_wide; [exact W3|lia|apply Z.le_refl].
    - intros n s4 fr4 (A1 & A2 & A3 & A4 & d & A5 & A6). split; [exact A1|]. split; [lia|]. split; [lia|]. split; [exact A4|].
      exists d. split; [exact A5|]. eapply within_wide; [exact A6|lia|apply Z.le_refl].
    - intros n fr4 (A1 & d & A2 & A3 & _). split; [lia|]. exists d. split; [exact A2|]. split; [|discriminate]. eapply within_wide; [exact A3|lia|apply Z.le_refl].
  Qed.

  Lemma array_some_step f : object_none f -> array_some f -> array_none f -> array_some (S f).
  Proof.
    intros ON AS AN parent m l t lo s fr R LO LM WL WT. rewrite array_unfold. apply wpf_bind.
    eapply wpf_mono; [exact (item_post f t s fr ON AN R lo LO WT)| |].
    2: { intros n fr' (A1 & d & A2 & A3 & _). split; [exact A1|]. exists d. split; [exact A2|]. split; [exact A3|discriminate]. }
    intros child s1 fr1 (R1 & N1 & C1 & W1 & d1 & -> & D1). apply wpf_bind, wpf_ret.
    eapply wpf_mono; [apply (items_post f parent m l child lo s1 (fr ++ d1) AS R1)| |].
    - lia.
    - eapply within_wide; [exact WL|apply Z.le_refl|lia].
    - exact W1.
    - intros n s2 fr2 (A1 & A2 & A3 & A4 & d & -> & A6). split; [exact A1|]. split; [lia|]. split; [lia|]. split; [exact A4|].
      exists (d1 ++ d). rewrite app_assoc. split; [reflexivity|]. apply within_app; [eapply within_wide; [exact D1|apply Z.le_refl|lia]|eapply within_wide; [exact A6|lia|apply Z.le_refl]].
    - intros n fr2 (A1 & d & -> & A3 & _). split; [lia|]. exists (d1 ++ d). rewrite app_assoc. split; [reflexivity|]. split; [|discriminate].
      apply within_app; [eapply within_wide; [exact D1|apply Z.le_refl|lia]|eapply within_wide; [exact A3|lia|apply Z.le_refl]].
  Qed.

  Lemma array_none_step f : object_none f -> array_some f -> array_none f -> array_none (S f).
  Proof.
    intros ON AS AN parent t lo s fr R LO WT. rewrite array_unfold. apply wpf_bind.
    eapply wpf_mono; [exact (item_post f t s fr ON AN R lo LO WT)| |].
    2: { intros n fr' (A1 & A2). split; [lia|exact A2]. }
    intros child s1 fr1 (R1 & N1 & C1 & W1 & d1 & -> & D1). apply wpf_bind, wpf_bind, wpf_fresh, wpf_ret.
    set (s2 := mkSt (inp s1) (good s1) (his s1) (warns s1) (nextid s1 + 1)).
    eapply wpf_mono; [apply (items_post f parent (mkMeta (nextid s1) parent) [] child lo s2 (fr ++ d1) AS R1)| |].
    - cbn. lia.
    - apply within_nil.
    - cbn [nextid s2]. eapply within_wide; [exact W1|apply Z.le_refl|lia].
    - cbn [nextid s2]. intros n s3 fr3 (A1 & A2 & A3 & A4 & d & -> & A6). cbn [nextid s2] in *. change (unread s2) with (unread s1) in *.
      split; [exact A1|]. split; [lia|]. split; [lia|]. split; [exact A4|].
      exists (d1 ++ d). rewrite app_assoc. split; [reflexivity|]. apply within_app; [eapply within_wide; [exact D1|apply Z.le_refl|lia]|eapply within_wide; [exact A6|lia|apply Z.le_refl]].
    - intros n fr3 (A1 & d & -> & A3 & _). cbn [nextid s2] in *. change (unread s2) with (unread s1) in *.
      split; [lia|]. exists (d1 ++ d). rewrite app_assoc. split; [reflexivity|].
      split; [apply within_app; [eapply within_wide; [exact D1|apply Z.le_refl|lia]|eapply within_wide; [exact A3|lia|apply Z.le_refl]]|].
      intros _. right. exists (nextid s1). split; [lia|]. intros I. apply in_app_iff in I. destruct I as [I|I]; [specialize (D1 _ I)|specialize (A3 _ I)]; lia.
  Qed.

  Lemma loops f : object_some f /\ object_none f /\ array_some f /\ array_none f.
  Proof.
    induction f as [|f (OS & ON & AS & AN)].
    - assert (Z : forall A (Q : A -> st -> list Z -> Prop) c lo some s fr, 0 <= c -> wpf (lift fuelM) Q (epost c lo some s fr) s fr).
      { intros A Q c lo some s fr C. apply wpf_lift; [exact Logic.I|apply stop_here, C]. }
      split; [|split; [|split]].
      + intros parent m ents s fr _ _ _. apply Z. lia.
      + intros parent s fr _. apply Z. lia.
      + intros parent m l t lo s fr _ _ _ _ _. apply Z. destruct t as [|[|]]; cbn; lia.
      + intros parent t lo s fr _ _ _. apply Z. destruct t as [|[|]]; cbn; lia.
    - split; [apply object_some_step; assumption|]. split; [apply object_none_step; assumption|]. split; [apply array_some_step; assumption|apply array_none_step; assumption].
  Qed.

  Lemma read_fin_post input : match read_fin e params input with
    | Reads root s' fr => 0 <= nextid s' <= Z.of_nat (length input) - unread s' /\ within 0 (nextid s') fr
    | Stops _ n fr => 0 <= n <= Z.of_nat (length input) /\ within 0 n fr /\ (n = 0 \/ exists i, 0 <= i < n /\ ~ In i fr)
    end.
  Proof.
    destruct (loops (S (S (length input)))) as (_ & ON & _ & AN).
    assert (H := next_with _ ON AN None (init_st input) [] (init_ready input)). unfold wpf in H. unfold read_fin.
    destruct (readNext_fin _ _ _ _ _ _ _) as [root s' fr|x n fr].
    - destruct H as (_ & A & B & _ & d & -> & D). cbn [nextid init_st app unread inp] in *. change (unread (init_st input)) with (Z.of_nat (length input)) in B. split; [lia|exact D].
    - destruct H as (A & d & -> & D & E). cbn [nextid init_st app] in *. change (unread (init_st input)) with (Z.of_nat (length input)) in A. split; [lia|]. split; [exact D|exact (E eq_refl)].
  Qed.
End Loops.

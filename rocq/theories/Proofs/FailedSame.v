(** The reading of Model/Failed.v is the reading of Model/Memory.v. *)
From Verif Require Import Model.Failed Proofs.MemoryProofs.
Open Scope Z_scope.

(** How a reading ended, without the count of a failed one. *)
Definition ending_of {A} (r : fin A) : res (A * list Z * st) :=
  match r with
  | Reads a s fr => Ok (a, fr, s)
  | Stops (SThrow x) _ _ => Throw x
  | Stops (SAbort x) _ _ => Abort x
  | Stops (SUB x) _ _ => UB x
  | Stops SFuel _ _ => OutOfFuel
  end.
Definition after {A} (fr : list Z) (r : res ((A * account) * st)) : res (A * list Z * st) :=
  match r with
  | Ok ((a, acc), s) => Ok (a, fr ++ fst acc, s)
  | Throw x => Throw x
  | Abort x => Abort x
  | UB x => UB x
  | OutOfFuel => OutOfFuel
  end.
Definition agree {A} (m : F A) (m' : M (A * account)) : Prop := forall s fr, ending_of (m s fr) = after fr (m' s).

Lemma agree_lift {A B} (m0 : M A) (k : A -> F B) (k' : A -> M (B * account)) s fr :
  (forall a s1, ending_of (k a s1 fr) = after fr (k' a s1)) -> ending_of (fbind (lift m0) k s fr) = after fr (bind m0 k' s).
Proof. intros H. unfold fbind, lift, bind. destruct (m0 s) as [[a s1]| | | |]; [apply H|reflexivity..]. Qed.
Lemma agree_call {A B} (m : F A) (m' : M (A * account)) (k : A -> F B) (k' : A * account -> M (B * account)) s fr : agree m m' ->
  (forall a acc s1, ending_of (k a s1 (fr ++ fst acc)) = after fr (k' (a, acc) s1)) -> ending_of (fbind m k s fr) = after fr (bind m' k' s).
Proof.
  intros G H. specialize (G s fr). unfold fbind, bind. destruct (m' s) as [[[a acc] s1]| | | |]; destruct (m s fr) as [b s2 fr2|[| | |] n fr2]; cbn in G; try discriminate G.
  - injection G as -> -> ->. apply H.
  - cbn in *. congruence.
  - cbn in *. congruence.
  - cbn in *. congruence.
  - reflexivity.
Qed.
Lemma after_plus {A} (m : M (A * account)) a s fr : after fr (bind m (fun x => ret (fst x, plus a (snd x))) s) = after (fr ++ fst a) (m s).
Proof. unfold bind, ret. destruct (m s) as [[[x acc] s1]| | | |]; cbn [after fst snd plus]; [rewrite app_assoc|..]; reflexivity. Qed.

Section Same.
  Variable e : env.
  Variable params : option cfg.

  Lemma agree_open parent result key : agree (open_object_fin params parent result key) (open_object_mem params parent result key).
  Proof.
    intros s fr. unfold open_object_fin, open_object_mem. apply agree_lift. intros r s1. destruct result as [[m l]|]; reflexivity.
  Qed.

  Lemma agree_next ro ra ro' ra' parent : (forall p, agree (ro p) (ro' p)) -> (forall p, agree (ra p) (ra' p)) ->
    agree (readNext_fin e params ro ra parent) (readNext_mem e params ro' ra' parent).
  Proof.
    intros O A s fr. unfold readNext_fin, readNext_mem. apply agree_lift. intros [n|b] s1; [cbn; rewrite app_nil_r; reflexivity|].
    destruct (beqb b (str "{")); [apply (agree_call _ _ _ _ _ _ (O parent)); reflexivity|].
    destruct (beqb b (str "[")); [apply (agree_call _ _ _ _ _ _ (A parent)); reflexivity|]. cbn. rewrite app_nil_r. reflexivity.
  Qed.

  Lemma agree_array lp lp' parent : (forall p t, agree (lp p t) (lp' p t)) -> agree (readArray_fin e params lp parent) (readArray_mem e params lp' parent).
  Proof.
    intros L s fr. unfold readArray_fin, readArray_mem. apply agree_lift. intros [n|b] s1; [apply L|].
    destruct (beqb b (str "]")); [|apply L]. cbn. rewrite app_nil_r. reflexivity.
  Qed.

  Lemma agree_loops f : (forall parent result, agree (object_fin e params f parent result) (object_mem e params f parent result)) /\
    (forall parent result t, agree (array_fin e params f parent result t) (array_mem e params f parent result t)).
  Proof.
    induction f as [|f [IO IA]]; [split; intros; intros s fr; reflexivity|].
    assert (NX : forall p, agree (readNext_fin e params (fun p => object_fin e params f p None) (readArray_fin e params (fun p t => array_fin e params f p None t)) p)
      (readNext_mem e params (fun p => object_mem e params f p None) (readArray_mem e params (fun p t => array_mem e params f p None t)) p)).
    { intros p. apply agree_next; intros q; [apply IO|apply agree_array; intros; apply IA]. }
    split.
    - intros parent result s fr. cbn [object_fin object_mem]. apply agree_lift. intros t s1.
      destruct t as [n|b].
      2: { destruct (beqb b (str "}") && _); [cbn; rewrite app_nil_r|]; reflexivity. }
      destruct n as [km [key| | | | |]|km l|km l]; try reflexivity.
      apply agree_lift. intros t2 s2. destruct (match t2 with TTok b => beqb b (str ":") | TElem _ => false end); [|reflexivity].
      apply (agree_call _ _ _ _ _ _ (agree_open parent result key)). intros r a1 s3. cbv zeta. cbn [fst snd].
      (* the continuation starts after what [open_object] freed *)
      match goal with |- ending_of (fbind ?m ?k s3 ?fr1) = after fr (bind ?m' ?k' s3) =>
        assert (G := NX (Some (mid (fst r))) s3 fr1); unfold fbind at 1, bind at 1 end.
      destruct (readNext_mem _ _ _ _ _ s3) as [[[child a2] s4]| | | |]; destruct (readNext_fin _ _ _ _ _ s3 _) as [c4 s5 fr5|[| | |] n5 fr5]; cbn in G; try discriminate G;
        try (cbn in *; congruence).
      injection G as -> -> ->. cbn [fst snd]. destruct child as [v|]; [|reflexivity].
      unfold fbind at 1, lift at 1, bind at 1, fresh. unfold fbind at 1, free. unfold fbind, lift, bind at 1.
      match goal with |- context[consumeToken e params ?p ?s6] => destruct (consumeToken e params p s6) as [[[k|b] s7]| | | |] end; try reflexivity.
      + cbn [ret after ending_of fret fst snd plus]. rewrite app_nil_r, !app_assoc. reflexivity.
      + destruct (beqb b (str "}")); [cbn [ret after ending_of fret fst snd plus]; rewrite !app_assoc; reflexivity|].
        rewrite after_plus. cbn [fst snd plus]. rewrite !app_assoc. apply IO.
    - intros parent result t s fr. cbn [array_fin array_mem].
      eapply agree_call.
      { destruct t as [n|b]; [intros s0 fr0; cbn; rewrite app_nil_r; reflexivity|].
        destruct (beqb b (str "[")); [apply agree_array; intros; apply IA|]. destruct (beqb b (str "{")); [apply IO|intros s0 fr0; reflexivity]. }
      intros child acc s1. cbv zeta. cbn [fst snd].
      assert (ROW : forall r s2, ending_of (fbind (lift (consumeToken e params (Some (mid (fst r))))) (fun t2 =>
          match t2 with
          | TElem _ => lift (throw (Unexpected "]"))
          | TTok b => if beqb b (str "]") then fret (NArr (fst r) (snd r ++ [set_parent (mid (fst r)) child]))
              else if negb (beqb b (str ",")) then lift (throw (Unexpected "]"))
              else fbind (lift (consumeToken e params (Some (mid (fst r))))) (fun t3 => array_fin e params f parent (Some (fst r, snd r ++ [set_parent (mid (fst r)) child])) t3)
          end) s2 (fr ++ fst acc)) =
        after fr (bind (consumeToken e params (Some (mid (fst r)))) (fun t2 =>
          match t2 with
          | TElem _ => throw (Unexpected "]")
          | TTok b => if beqb b (str "]") then ret (NArr (fst r) (snd r ++ [set_parent (mid (fst r)) child]), acc)
              else if negb (beqb b (str ",")) then throw (Unexpected "]")
              else bind (consumeToken e params (Some (mid (fst r)))) (fun t3 => bind (array_mem e params f parent (Some (fst r, snd r ++ [set_parent (mid (fst r)) child])) t3) (fun x => ret (fst x, plus acc (snd x))))
          end) s2)).
      { intros r s2. unfold fbind at 1, lift, bind at 1. destruct (consumeToken _ _ _ s2) as [[[k|b] s3]| | | |]; try reflexivity.
        destruct (beqb b (str "]")); [reflexivity|]. destruct (negb (beqb b (str ","))); [reflexivity|].
        unfold fbind, bind at 1. destruct (consumeToken _ _ _ s3) as [[t3 s4]| | | |]; try reflexivity. rewrite after_plus. apply IA. }
      destruct result as [r|]; [exact (ROW r s1)|]. exact (ROW (mkMeta (nextid s1) parent, []) _).
  Qed.

  Lemma read_same input : ending_of (read_fin e params input) = after [] (read_mem e params input).
  Proof.
    unfold read_fin, read_mem. apply agree_next; intros p; [apply agree_loops|apply agree_array; intros; apply agree_loops].
  Qed.
End Same.

From Verif Require Import Spec.FailedSpec Proofs.FailedProofs Proofs.MemoryGrammar.
From Coq Require Import Lia.

Lemma read_linear e params input : elements_made (read_fin e params input) <= bytes_taken input (read_fin e params input).
Proof.
  assert (H := read_fin_post e params input). destruct (read_fin e params input) as [root s fr|x n fr]; cbn [elements_made bytes_taken]; unfold unread in H; lia.
Qed.

Lemma read_ending e params input : match read_fin e params input with
  | Reads root s freed => read_doc e params input = Ok (root, s) /\ exists lost, read_mem e params input = Ok ((root, (freed, lost)), s)
  | Stops (SThrow x) _ _ => read_doc e params input = Throw x
  | Stops (SAbort a) _ _ => read_doc e params input = Abort a
  | Stops (SUB u) _ _ => read_doc e params input = UB u
  | Stops SFuel _ _ => read_doc e params input = OutOfFuel
  end.
Proof.
  assert (A := read_same e params input). assert (B := read_forget e params input). unfold forget, bind, ret in B.
  destruct (read_mem e params input) as [[[root [del lost]] s]| | | |]; destruct (read_fin e params input) as [root' s' fr|[| | |] n fr]; cbn in A; try discriminate A.
  - injection A as -> -> ->. rewrite <- B. split; [reflexivity|]. exists lost. reflexivity.
  - injection A as ->. rewrite <- B. reflexivity.
  - injection A as ->. rewrite <- B. reflexivity.
  - injection A as ->. rewrite <- B. reflexivity.
  - rewrite <- B. reflexivity.
Qed.

Lemma document_linear e params input root s : read_doc e params input = Ok (Some root, s) -> Z.of_nat (length (ids root)) <= Z.of_nat (length input) - Z.of_nat (length (inp s)).
Proof.
  intros R. destruct (read_accounted e params input (Some root) s R) as (del & lost & RM & P).
  assert (L := read_linear e params input). assert (H := read_fin_post e params input). assert (E := read_ending e params input). destruct (read_fin e params input) as [root' s' fr|[| | |] n fr]; cbn [elements_made bytes_taken] in L; rewrite R in E; try discriminate E.
  destruct E as [E _]. injection E as <- <-. apply Permutation_length in P. cbn [ids_opt] in P. rewrite !app_length in P. unfold made in P. rewrite map_length, seq_length in P. destruct H as [H _]. unfold unread in H. lia.
Qed.

Lemma failed_left e params input : gives_back (read_fin e params input) <-> (elements_made (read_fin e params input) = 0 \/ exists root s freed, read_fin e params input = Reads root s freed).
Proof.
  assert (H := read_fin_post e params input). destruct (read_fin e params input) as [root s fr|x n fr]; cbn [gives_back elements_made].
  - split; [intros _; right; eauto|auto].
  - destruct H as (B & W & D). split.
    + intros G. left. destruct D as [D|(i & I & N)]; [exact D|]. destruct (N (G i I)).
    + intros [->|(r & s & fr' & Q)]; [|discriminate Q]. intros i I. lia.
Qed.

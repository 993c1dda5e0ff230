(** Strings made and destroyed while printing: proofs. *)
From Verif Require Import Proofs.TreeProofs.
From Verif Require Import Spec.PrintMemSpec.
From Coq Require Import Lia Arith List.
Open Scope Z_scope.

Section G.
  Variable (ghost : nat -> bytes -> nat -> ascii) (c : bool).
  Notation byte_of := (byte_of ghost).

  (** Strings in use are among those made. *)
  Definition fine (m : pmem) : Prop := Forall (fun i => (i < made m)%nat) (live m).
  Definition dead_read (f : fault) : Prop := match f with ReadsDestroyed _ => True | _ => False end.
  (** [p] writes [w] if what was destroyed lasts, reads [k] destroyed strings, and
      leaves the strings that were in use. *)
  Definition does (p : M unit) (w : bytes) (k : nat) : Prop := forall m, fine m ->
    exists n fs w', p m = (tt, mkPmem n (live m) (fs ++ faults m) (wrote m ++ w')) /\ (made m <= n)%nat /\ length fs = k /\ Forall dead_read fs /\
      (lasting ghost \/ k = 0%nat -> w' = w).

  Lemma live_head n l : existsb (Nat.eqb n) (n :: l) = true.
  Proof. cbn. rewrite Nat.eqb_refl. reflexivity. Qed.
  Lemma drop_head n l : Forall (fun i => (i < n)%nat) l -> filter (fun j => negb (Nat.eqb n j)) (n :: l) = l.
  Proof.
    intros F. cbn [filter]. rewrite Nat.eqb_refl. cbn [negb]. induction F as [|i l A F IH]; [reflexivity|]. cbn [filter].
    rewrite (proj2 (Nat.eqb_neq n i)) by lia. cbn [negb]. rewrite IH. reflexivity.
  Qed.
  Lemma not_live n l : Forall (fun i => (i < n)%nat) l -> existsb (Nat.eqb n) l = false.
  Proof. intros F. induction F as [|i l A F IH]; [reflexivity|]. cbn [existsb]. rewrite (proj2 (Nat.eqb_neq n i)) by lia. exact IH. Qed.
  Lemma live_in n l : In n l -> existsb (Nat.eqb n) l = true.
  Proof. intros I. apply existsb_exists. exists n. split; [exact I|apply Nat.eqb_refl]. Qed.
  Lemma below n k l : Forall (fun i => (i < n)%nat) l -> (n <= k)%nat -> Forall (fun i => (i < k)%nat) l.
  Proof. intros F L. eapply Forall_impl; [|exact F]. cbn beta. intros a A. lia. Qed.

  (** One string made, used and destroyed. *)
  Lemma destroy_head n l fs w s r : Forall (fun i => (i < n)%nat) l -> destroy (mkText n s) (mkPmem r (n :: l) fs w) = (tt, mkPmem r l fs w).
  Proof. intros F. unfold destroy, is_live. cbn [tid live made faults wrote]. rewrite live_head, drop_head by exact F. reflexivity. Qed.
  Lemma print_in n l fs w s r : In n l -> print (mkText n s) (mkPmem r l fs w) = (tt, mkPmem r l fs (w ++ s)).
  Proof. intros I. unfold print, is_live, literal. cbn [tid live made faults wrote held]. rewrite live_in by exact I. reflexivity. Qed.
  Lemma byte_dead n l fs w s r k : Forall (fun i => (i < n)%nat) l -> byte_of (mkText n s) k (mkPmem r l fs w) = (ghost n s k, mkPmem r l (ReadsDestroyed n :: fs) w).
  Proof. intros F. unfold PrintMem.byte_of, is_live. cbn [tid live made faults wrote held]. rewrite not_live by exact F. reflexivity. Qed.

  Lemma does_literal s : does (literal s) s 0.
  Proof. intros [n l fs w] F. exists n, [], s. cbn. repeat split; [lia|constructor]. Qed.
  Lemma does_ret : does (ret tt) [] 0.
  Proof. intros [n l fs w] F. exists n, [], []. cbn. rewrite app_nil_r. repeat split; [lia|constructor]. Qed.
  Lemma does_bind p q w w' k k' : does p w k -> does q w' k' -> does (bind p (fun _ => q)) (w ++ w') (k + k').
  Proof.
    intros P Q m F. destruct (P m F) as (n & fs & w1 & E & N & L & D & W). unfold bind. rewrite E.
    assert (F1 : fine (mkPmem n (live m) (fs ++ faults m) (wrote m ++ w1))) by (unfold fine; cbn; exact (below _ _ _ F N)).
    destruct (Q _ F1) as (n2 & fs2 & w2 & E2 & N2 & L2 & D2 & W2). cbn [live faults wrote made] in *.
    exists n2, (fs2 ++ fs), (w1 ++ w2). rewrite E2, <- !app_assoc. split; [reflexivity|]. split; [lia|]. split; [rewrite app_length; lia|].
    split; [apply Forall_app; split; assumption|]. intros H. rewrite W, W2; [reflexivity|destruct H; [left; assumption|right; lia]..].
  Qed.

  Lemma does_primitive i b p : does (writePrimitive c i b p) (write c i b (TPrim p)) 0.
  Proof.
    intros [n l fs w] F. unfold fine in F. cbn [live made] in F. assert (F1 : Forall (fun j => (j < S n)%nat) l) by (eapply below; [exact F|lia]).
    unfold writePrimitive, bind, make. cbn [made live faults wrote]. rewrite print_in by (left; reflexivity). unfold literal at 1. cbn [made live faults wrote].
    rewrite destroy_head by exact F. cbn [made live faults wrote].
    destruct p; unfold literal; cbn [made live faults wrote]; rewrite print_in by (left; reflexivity); cbn [made live faults wrote]; rewrite destroy_head by exact F1; cbn [made live faults wrote];
      eexists _, [], _; rewrite <- !app_assoc; (split; [reflexivity|]); (split; [lia|]); (split; [reflexivity|]); (split; [constructor|]); intros _; cbn [write]; rewrite <- ?app_assoc; reflexivity.
  Qed.

  Lemma does_key i b k : does (entry_key c i b k) (getIndent c i ++ (if b then str ",""" else str """") ++ k ++ str """:") 0.
  Proof.
    intros [n l fs w] F. unfold fine in F. cbn [live made] in F. assert (F1 : Forall (fun j => (j < S n)%nat) (n :: l)) by (constructor; [lia|eapply below; [exact F|lia]]).
    unfold entry_key, bind, make. cbn [made live faults wrote]. rewrite print_in by (right; left; reflexivity). unfold literal at 1. cbn [made live faults wrote].
    rewrite print_in by (left; reflexivity). unfold literal at 1. cbn [made live faults wrote]. rewrite destroy_head by exact F1. rewrite destroy_head by exact F.
    eexists _, [], _. rewrite <- !app_assoc. split; [reflexivity|]. cbn [made]. split; [lia|]. split; [reflexivity|]. split; [constructor|]. reflexivity.
  Qed.
  Lemma does_value x : does (entry_value c x) (tree_string x ++ eol c) 0.
  Proof.
    intros [n l fs w] F. unfold fine in F. cbn [live made] in F.
    unfold entry_value, bind, make. cbn [made live faults wrote]. rewrite print_in by (left; reflexivity). rewrite destroy_head by exact F. unfold literal. cbn [made live faults wrote].
    eexists _, [], _. rewrite <- !app_assoc. split; [reflexivity|]. cbn [made]. split; [lia|]. split; [reflexivity|]. split; [constructor|]. reflexivity.
  Qed.

  Lemma does_container i b t body w k : does body w k ->
    does (bind (container_opens ghost c i b t) (fun h => bind body (fun _ => container_closes ghost c h)))
      (getIndent c i ++ comma b ++ bracket 0 t ++ eol c ++ w ++ getIndent c i ++ bracket 2 t ++ eol c) (2 + k).
  Proof.
    intros B [n l fs w0] F. unfold fine in F. cbn [live made] in F.
    assert (F1 : Forall (fun j => (j < S n)%nat) (n :: l)) by (constructor; [lia|eapply below; [exact F|lia]]).
    assert (F2 : Forall (fun j => (j < S (S n))%nat) (n :: l)) by (eapply below; [exact F1|lia]).
    assert (F3 : Forall (fun j => (j < S (S (S n)))%nat) (n :: l)) by (eapply below; [exact F1|lia]).
    set (ind := getIndent c i). set (ts := tree_string t).
    assert (O : container_opens ghost c i b t (mkPmem n l fs w0) =
      ((mkText n ind, mkText (S n) ts), mkPmem (S (S (S n))) (n :: l) (ReadsDestroyed (S n) :: fs) (w0 ++ ind ++ comma b ++ [ghost (S n) ts 0%nat] ++ eol c))).
    { unfold container_opens, bind, make, ret. cbn [made live faults wrote]. rewrite destroy_head by exact F1. rewrite byte_dead by exact F1. cbn [made live faults wrote].
      rewrite print_in by (right; left; reflexivity). unfold literal at 1. cbn [made live faults wrote]. rewrite print_in by (left; reflexivity). rewrite destroy_head by exact F2.
      unfold literal. cbn [made live faults wrote]. rewrite <- !app_assoc. reflexivity. }
    unfold bind at 1. rewrite O. unfold bind at 1.
    match goal with |- context [body ?m] => destruct (B m F3) as (n2 & fs2 & w2 & E & N & L & D & W) end. rewrite E. cbn [made live faults wrote] in *.
    assert (F4 : Forall (fun j => (j < n2)%nat) (n :: l)) by (eapply below; [exact F3|exact N]).
    unfold container_closes, bind, make. cbn [fst snd]. rewrite byte_dead by exact F1. cbn [made live faults wrote].
    rewrite print_in by (right; left; reflexivity). rewrite print_in by (left; reflexivity). rewrite destroy_head by exact F4. unfold literal. cbn [made live faults wrote].
    rewrite destroy_head by exact F.
    exists (S n2), (ReadsDestroyed (S n) :: fs2 ++ [ReadsDestroyed (S n)]), (ind ++ comma b ++ [ghost (S n) ts 0%nat] ++ eol c ++ w2 ++ ind ++ [ghost (S n) ts 2%nat] ++ eol c).
    split; [cbn [app]; rewrite <- !app_assoc; reflexivity|]. split; [lia|]. split; [cbn [length]; rewrite app_length; cbn [length]; lia|].
    split; [constructor; [exact I|apply Forall_app; split; [exact D|repeat constructor]]|].
    intros [H|H]; [|discriminate H]. rewrite W by (left; exact H). unfold bracket. rewrite !H. reflexivity.
  Qed.

  Lemma does_write t : forall i b, does (write_mem ghost c i b t) (write c i b t) (2 * containers t).
  Proof.
    induction t as [p|l IH|l IH] using tree_ind'; intros i b.
    - exact (does_primitive i b p).
    - cbn [write_mem write containers]. replace (2 * S (list_sum (map containers l)))%nat with (2 + 2 * list_sum (map containers l))%nat by lia. apply does_container.
      match goal with |- does (?F true _) (?G true _) ?k => enough (X : forall f, does (F f l) (G f l) k) by apply X end.
      induction IH as [|x r H IH IHr]; intros f; [exact does_ret|]. cbn [map list_sum fold_right].
      replace (2 * (containers x + _))%nat with (2 * containers x + 2 * list_sum (map containers r))%nat by (unfold list_sum; lia).
      apply does_bind; [apply H|apply IHr].
    - cbn [write_mem write containers]. replace (2 * S (list_sum (map (fun e => containers (snd e)) l)))%nat with (2 + 2 * list_sum (map (fun e => containers (snd e)) l))%nat by lia. apply does_container.
      match goal with |- does (?F true _) (?G true _) ?k => enough (X : forall f, does (F f l) (G f l) k) by apply X end.
      induction IH as [|[k x] r H IH IHr]; intros f; [exact does_ret|]. cbn [map list_sum fold_right snd].
      replace (2 * (containers x + _))%nat with (0 + (2 * containers x + 2 * list_sum (map (fun e => containers (snd e)) r)))%nat by (unfold list_sum; lia).
      replace ((getIndent c (incr i) ++ (if negb f then str ",""" else str """") ++ k ++ str """:" ++ (if is_container x then eol c ++ write c (incr i) false x else tree_string x ++ eol c)) ++
        (fix entries (first : bool) (l : list (bytes * tree)) : bytes :=
           match l with
           | [] => []
           | (k, x) :: r =>
               (getIndent c (incr i) ++ (if negb first then str ",""" else str """") ++ k ++ str """:" ++
                (if is_container x then eol c ++ write c (incr i) false x else tree_string x ++ eol c)) ++
               entries false r
           end) false r) with ((getIndent c (incr i) ++ (if negb f then str ",""" else str """") ++ k ++ str """:") ++ (if is_container x then eol c ++ write c (incr i) false x else tree_string x ++ eol c) ++
        (fix entries (first : bool) (l : list (bytes * tree)) : bytes :=
           match l with
           | [] => []
           | (k, x) :: r =>
               (getIndent c (incr i) ++ (if negb first then str ",""" else str """") ++ k ++ str """:" ++
                (if is_container x then eol c ++ write c (incr i) false x else tree_string x ++ eol c)) ++
               entries false r
           end) false r) by (rewrite <- !app_assoc; reflexivity).
      apply (does_bind _ _ _ _ 0); [apply does_key|]. apply does_bind; [|apply IHr].
      destruct x as [p|l'|l']; cbn [is_container]; [exact (does_value _)| |]; (change (2 * containers ?t)%nat with (0 + 2 * containers t)%nat || idtac);
        exact (does_bind _ _ _ _ 0 _ (does_literal _) (H _ _)).
  Qed.
End G.

Lemma display_does ghost c t : exists n fs w, display_mem ghost c t = mkPmem n [] fs w /\ length fs = (2 * containers t)%nat /\ Forall dead_read fs /\
  (lasting ghost \/ containers t = 0%nat -> w = display c t).
Proof.
  destruct (does_write ghost c t 0 false pm0) as (n & fs & w & E & _ & L & D & W); [constructor|]. exists n, fs, w. unfold display_mem. rewrite E. cbn [snd live faults wrote pm0 app].
  rewrite app_nil_r. split; [reflexivity|]. split; [exact L|]. split; [exact D|]. intros H. apply W. destruct H; [left; assumption|right; lia].
Qed.

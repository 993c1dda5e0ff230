(** Documents of the same shape: nothing is printed below the window. *)
From Verif Require Import Spec.SplitPage Spec.LevelSpec.
From Verif Require Import Proofs.SplitDraw Proofs.SplitLevel Proofs.SplitPress Proofs.SplitSteady Proofs.SplitShow.
From Verif Require Import Model.SplitView.
From Coq Require Import Lia ZifyBool.
Open Scope Z_scope.

Lemma countdown_same m l l' : twin_log m l l' -> forall y, countdown y l -> countdown y l'.
Proof. induction 1 as [|x x' l l' (_ & _ & E) _ IH]; intros y C; [exact C|]. cbn in *. destruct C as [C1 C2]. rewrite <- E. split; [exact C1|apply IH, C2]. Qed.

Lemma in_lines sc w top d : 2 <= sh sc -> 0 <= top -> forall y l, countdown y l -> map snd l = rev (map fst d) ->
  Forall (fun p => fst p + 1 <= ends_at w top p) d -> Forall (fun p => ends_at w top p - top < sh sc) (removelast d) -> Forall (fun p => fst p - top < sh sc) d.
Proof.
  intros H T. induction d as [|p d IH] using rev_ind; intros y l C E G S; [constructor|]. rewrite map_app, rev_app_distr in E. cbn [map rev app] in E. rewrite removelast_last in S.
  destruct l as [|x l]; [discriminate E|]. cbn [map] in E. injection E as E1 E2. destruct C as [C1 C2]. apply Forall_app in G. destruct G as [G1 G2].
  apply Forall_app. split.
  - apply (IH _ _ C2 E2 G1). clear - S. induction d as [|a d IH]; [constructor|]. inversion S; subst. destruct d; [constructor|]. cbn [removelast] in *. constructor; auto.
  - constructor; [|constructor]. destruct d as [|q d] using rev_ind.
    + cbn [map rev] in E2. destruct l; [|discriminate E2]. cbn in C2. lia.
    + clear IHd. rewrite map_app, rev_app_distr in E2. cbn [map rev app] in E2. destruct l as [|x' l]; [discriminate E2|]. cbn [map] in E2. injection E2 as E3 _. cbn in C2. destruct C2 as [C2 _].
      apply Forall_app in G1. destruct G1 as [_ G1]. inversion G1; subst. apply Forall_app in S. destruct S as [_ S]. inversion S; subst. lia.
Qed.

Lemma shows_inside r h sc coll w ss res colours : in_memory r -> (forall i, In i (ids r) -> lookup h i = lookup (elems r) i) -> 2 <= sh sc < 2 ^ 32 -> 0 <= wscroll w ->
  shows r h sc coll w ss -> (exists y, countdown y (wlog w)) -> inside_window (sh sc) (cells_of h res colours w).
Proof.
  intros M LK SH0 T (PL & parts & rest & more & (I1 & I2 & I3 & I4 & I5) & E & F & _) (y & C). set (d := concat parts) in *. clearbody d.
  assert (L : map snd (wlog w) = rev (map fst d)).
  { apply (f_equal (map snd)) in I2. rewrite map_map, map_rev, map_map in I2. exact I2. }
  assert (S : Forall (fun p => ends_at (sw sc - 2) (wscroll w) p - wscroll w < sh sc) (removelast d)).
  { destruct F as [[_ F]|(pre & p & -> & F & _)]; [|rewrite removelast_last; exact F]. unfold short in F. clear - F. induction d as [|a d IH]; [constructor|]. inversion F; subst. destruct d; [constructor|]. cbn [removelast] in *. constructor; auto. }
  assert (G : Forall (fun p => fst p + 1 <= ends_at (sw sc - 2) (wscroll w) p) d) by (eapply Forall_impl; [|exact I5]; cbn; intros; lia).
  assert (Q := in_lines sc (sw sc - 2) (wscroll w) d ltac:(lia) T y _ C L G S).
  unfold inside_window, cells_of. apply Forall_rev. apply Forall_map.
  assert (Q' : Forall (fun p => fst p - wscroll w < sh sc) (rev (filter (on_screen (wscroll w)) d))) by (apply Forall_rev; rewrite Forall_forall in *; intros p I; apply filter_In in I; apply Q, I).
  assert (O : Forall (fun p => wscroll w < fst p) (rev (filter (on_screen (wscroll w)) d))) by (apply Forall_rev; rewrite Forall_forall; intros p I; apply filter_In in I; unfold on_screen in I; lia).
  clear - I3 Q' O. induction I3 as [|c p l l' W _ IH]; [constructor|]. inversion Q'; subst. inversion O; subst. constructor; [|auto]. destruct W as (_ & W & _). cbn [cell_as cline]. lia.
Qed.

Lemma run_inside rx f a b m len w hh evs sc p v colours : comparable a b m len f -> shape_of a = shape_of b -> paired m a b ->
  room w hh -> rooms evs -> unsearched evs -> wide_enough len a b w hh evs -> split_run rx f len w hh a b evs = Done (Waits sc p) -> In v (pwins p) ->
  inside_window (sh sc) (cells_of (split_memory a b) (active_res p) colours v).
Proof.
  intros OK SHP P RW R U W E I. assert (X := run_compares rx f a b m len w hh evs OK RW R U). rewrite E in X. destruct X as (G & L & C).
  destruct (run_even rx f a b m len OK SHP P w hh evs _ RW R U W E) as [(w0 & w1 & EW & _ & T & y & CD) _]. cbn [end_split] in EW.
  destruct (windows_are f a b m len sc p OK G L C) as (v0 & v1 & l & r & z & E' & S0 & S1 & _). destruct OK as (MA & MB & _ & _ & D & _).
  destruct C as (_ & (u0 & u1 & EU & A0 & A1) & _). rewrite EU in E'. injection E' as <- <-.
  assert (CD' : exists y, countdown y (wlog v)) by (exists y; rewrite EW in I; destruct I as [<-|[<-|[]]]; [exact CD|exact (countdown_same m _ _ T y CD)]).
  rewrite EU in I. destruct I as [<-|[<-|[]]].
  - apply (shows_inside a _ sc (pcoll p) u0 l _ colours MA (lk_a a b MA) (proj2 G)); [apply A0|exact S0|exact CD'].
  - apply (shows_inside b _ sc (pcoll p) u1 r _ colours MB (lk_b a b D) (proj2 G)); [apply A1|exact S1|exact CD'].
Qed.

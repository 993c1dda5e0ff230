(** Command line. *)
From Verif Require Export Model.Params Spec.CmdMeaning Proofs.TreeProofs Proofs.MapProofs.
From Coq Require Import Permutation.

Definition hasf (f : bytes) (l : list bytes) : bool := existsb (beqb f) l.
Lemma hasf_iff f l : hasf f l = true <-> In f l.
Proof.
  unfold hasf. rewrite existsb_exists. split.
  - intros (x & I & E). apply beqb_eq in E. subst. exact I.
  - intros I. exists f. split; [exact I|apply beqb_refl].
Qed.
Lemma hasf_app f a b : hasf f (a ++ b) = hasf f a || hasf f b.
Proof. apply existsb_app. Qed.

Definition color_step (b : bool) (f : bytes) : bool :=
  if beqb f (str "--color") || beqb f (str "--color=always") then true
  else if beqb f (str "--color=never") then false else b.
Definition color_of (l : list bytes) : bool := fold_left color_step l true.

Definition the_cmd (l : list (list bytes)) : option diffcmd :=
  match l with [] => None | c :: _ => Some (mkDiffCmd c None) end.

(** The state after complete items. *)
Definition result (l : list item) : params :=
  mkParams (negb (hasf (str "-W") (flags l))) (hasf (str "--ascii") (flags l)) (color_of (flags l))
    (negb (hasf (str "--keep-order") (flags l))) (hasf (str "--compress") (flags l)) (hasf (str "--diff") (flags l))
    (the_cmd (cmds l)) (map (fun f => (f, SFile f)) (files l)) false None false.

Lemma flags_app a b : flags (a ++ b) = flags a ++ flags b.
Proof. apply flat_map_app. Qed.
Lemma files_app a b : files (a ++ b) = files a ++ files b.
Proof. apply flat_map_app. Qed.
Lemma cmds_app a b : cmds (a ++ b) = cmds a ++ cmds b.
Proof. apply flat_map_app. Qed.
Lemma color_snoc l f : color_of (l ++ [f]) = color_step (color_of l) f.
Proof. unfold color_of. rewrite fold_left_app. reflexivity. Qed.

Lemma files_in_inputs l f : contains beqb (map (fun f => (f, SFile f)) (files l)) f = true <-> In f (files l).
Proof. rewrite (contains_iff beqb beqb_eq). rewrite map_map. cbn [fst]. rewrite map_id. reflexivity. Qed.

Lemma nodup_l {A} (a b : list A) : NoDup (a ++ b) -> NoDup a.
Proof.
  induction a as [|x a IH]; cbn [app]; intros N; [constructor|]. inversion N; subst. constructor; [|auto].
  intros I. apply H1, in_or_app. auto.
Qed.

Section Read.
  Variable opens : bytes -> bool.

  Lemma step_flag l f : In f flag_names -> read_option opens (result l) f = PNext (result (l ++ [IFlag f])).
  Proof.
    intros I. unfold result. rewrite !flags_app, !files_app, !cmds_app, !hasf_app. cbn [flags files cmds flat_map].
    rewrite !app_nil_r. rewrite color_snoc.
    repeat (destruct I as [<-|I];
      [unfold read_option; vm_compute beqb; vm_compute starts; vm_compute (skipn 8 _); cbv iota; cbn [hasf existsb];
       rewrite ?orb_false_r, ?orb_true_r; reflexivity|]).
    destruct I.
  Qed.

  Lemma is_file_beqb f t : is_file f -> beqb f ("-"%char :: t) = false.
  Proof.
    intros I. destruct (beqb f ("-"%char :: t)) eqn:E; [|reflexivity]. apply beqb_eq in E. exfalso. exact (I t E).
  Qed.
  Lemma is_file_starts f t : is_file f -> starts ("-"%char :: t) f = false.
  Proof.
    intros I. destruct f as [|c f]; [reflexivity|]. cbn [starts]. destruct (Ascii.eqb "-" c) eqn:E; [|reflexivity].
    apply Ascii.eqb_eq in E. subst c. exfalso. exact (I f eq_refl).
  Qed.

  Lemma read_file p f : is_file f -> read_option opens p f =
    if negb (opens f) then PError (ECannotOpen f)
    else if contains beqb (p_inputs p) f then PError (ESameFile f)
    else PNext (mkParams (p_strict p) (p_ascii p) (p_color p) (p_sorted p) (p_compress p) (p_diff p) (p_cmd p)
                 (set beqb SNull (p_inputs p) f (SFile f)) (p_inDiff p) (p_text p) (p_written p)).
  Proof.
    intros I. unfold read_option. destruct p as [st asc col so com df cmd inp ind txt wr]. cbn [str list_ascii_of_string].
    rewrite !is_file_beqb, !is_file_starts by exact I. cbn [orb p_inputs p_cmd p_strict p_ascii p_color p_sorted p_compress p_diff p_inDiff p_text p_written].
    reflexivity.
  Qed.

  Lemma step_file l f : is_file f -> opens f = true -> ~ In f (files l) ->
    read_option opens (result l) f = PNext (result (l ++ [IFile f])).
  Proof.
    intros I O N. rewrite read_file by exact I. rewrite O. cbn [negb].
    unfold result at 1. cbn [p_inputs]. destruct (contains beqb _ f) eqn:E; [apply files_in_inputs in E; contradiction|].
    rewrite set_new; [|exact beqb_eq|cbn [result p_inputs]; rewrite map_map; cbn [fst]; rewrite map_id; exact N].
    unfold result. rewrite !flags_app, !files_app, !cmds_app. cbn [flags files cmds flat_map]. rewrite !app_nil_r.
    rewrite map_app. reflexivity.
  Qed.

  (** Inside --diff-cmd. *)
  Definition in_cmd (l : list item) (c : list bytes) : params :=
    let r := result l in
    mkParams (p_strict r) (p_ascii r) (p_color r) (p_sorted r) (p_compress r) (p_diff r) (Some (mkDiffCmd c None)) (p_inputs r) true None false.

  Lemma read_cmd l c : ~ In (str ";") c -> forall c0 rest,
    read_args opens (in_cmd l c0) (c ++ rest) = read_args opens (in_cmd l (c0 ++ c)) rest.
  Proof.
    induction c as [|a c IH]; intros N c0 rest; cbn [app]; [rewrite app_nil_r; reflexivity|].
    cbn [read_args read_arg in_cmd p_text p_inDiff]. destruct (beqb a (str ";")) eqn:E; [apply beqb_eq in E; exfalso; apply N; left; exact E|].
    cbn [option_map]. unfold DiffCmd_add. cbn [dc_argv dc_alloc].
    change (mkParams _ _ _ _ _ _ _ _ true None false) with (in_cmd l (c0 ++ [a])).
    rewrite IH by (intros I; apply N; right; exact I). rewrite <- app_assoc. reflexivity.
  Qed.

  Lemma step_cmd l : cmds l = [] -> read_option opens (result l) (str "--diff-cmd") = PNext (in_cmd l []).
  Proof. intros C. unfold result, in_cmd. rewrite C. reflexivity. Qed.

  Lemma read_result l a t : read_args opens (result l) (a :: t) =
    match read_option opens (result l) a with PNext p' => read_args opens p' t | r => r end.
  Proof. reflexivity. Qed.

  Lemma fine_app l l' : fine opens (l ++ l') -> fine opens l.
  Proof.
    unfold fine. rewrite files_app, cmds_app, app_length. intros (N & O & C). split; [eapply nodup_l; eauto|].
    split; [intros f I; apply O, in_or_app; auto|lia].
  Qed.

  Lemma read_items w l' : items w l' -> forall l rest, fine opens (l ++ l') ->
    read_args opens (result l) (w ++ rest) = read_args opens (result (l ++ l')) rest.
  Proof.
    induction 1 as [|f w l' I H IH|f w l' I H IH|c w l' N H IH]; intros l rest F.
    - rewrite app_nil_r. reflexivity.
    - cbn [app]. rewrite read_result, (step_flag l f I). change (l ++ IFlag f :: l') with (l ++ [IFlag f] ++ l') in *.
      rewrite app_assoc in *. apply IH, F.
    - cbn [app]. rewrite read_result. change (l ++ IFile f :: l') with (l ++ [IFile f] ++ l') in *.
      rewrite app_assoc in *. rewrite step_file; [apply IH, F|exact I| |].
      + apply fine_app in F. apply F. rewrite files_app. apply in_or_app. right. left. reflexivity.
      + apply fine_app in F. destruct F as [F _]. rewrite files_app in F. cbn [files flat_map app] in F.
        apply NoDup_remove_2 in F. rewrite app_nil_r in F. exact F.
    - cbn [app]. rewrite <- app_assoc. cbn [app]. rewrite read_result.
      assert (C : cmds l = []).
      { destruct F as (_ & _ & F). rewrite cmds_app in F. cbn [cmds flat_map] in F. rewrite app_length in F. cbn [length app] in F.
        destruct (cmds l); [reflexivity|cbn [length] in F; lia]. }
      rewrite (step_cmd l C). rewrite read_cmd by exact N. cbn [app read_args read_arg in_cmd p_text p_inDiff].
      rewrite beqb_refl. change (l ++ ICmd c :: l') with (l ++ [ICmd c] ++ l') in *. rewrite app_assoc in *.
      rewrite <- (IH _ rest F). f_equal. unfold result.
      rewrite !flags_app, !files_app, !cmds_app. cbn [flags files cmds flat_map]. rewrite !app_nil_r, C. reflexivity.
  Qed.

  Lemma read_all_items w l rest : items w l -> fine opens l ->
    read_args opens params0 (w ++ rest) = read_args opens (result l) rest.
  Proof. intros H F. apply (read_items w l H [] rest F). Qed.

  (** Endings. *)
  Definition in_text (l : list item) (t : bytes) (wr : bool) : params :=
    let r := result l in
    mkParams (p_strict r) (p_ascii r) (p_color r) (p_sorted r) (p_compress r) (p_diff r) (p_cmd r)
      (set beqb SNull (p_inputs r) (str "ARGS") SArgs) false (Some t) wr.

  Lemma step_text l : read_option opens (result l) (str "--") = PNext (in_text l [] false).
  Proof. reflexivity. Qed.

  Lemma read_text_more l t : forall t0, read_args opens (in_text l t0 true) t =
    PNext (in_text l (t0 ++ flat_map (fun x => " "%char :: x) t) true).
  Proof.
    induction t as [|x t IH]; intros t0; cbn [read_args flat_map]; [rewrite app_nil_r; reflexivity|].
    cbn [read_arg in_text p_text p_inDiff].
    change (mkParams _ _ _ _ _ _ _ _ false (Some ?t) true) with (in_text l t true). rewrite IH.
    rewrite <- !app_assoc. reflexivity.
  Qed.
  Lemma joined_cons x t : joined (x :: t) = x ++ flat_map (fun x => " "%char :: x) t.
  Proof.
    revert x. induction t as [|y t IH]; intros x; cbn [joined flat_map]; [rewrite app_nil_r; reflexivity|].
    change (joined (y :: t)) with (joined (y :: t)). f_equal. cbn [app]. f_equal. rewrite <- IH. reflexivity.
  Qed.
  Lemma read_text l t : read_args opens (in_text l [] false) t =
    PNext (in_text l (joined t) (match t with [] => false | _ => true end)).
  Proof.
    destruct t as [|x t]; [reflexivity|]. cbn [read_args read_arg in_text p_text p_inDiff app].
    change (mkParams _ _ _ _ _ _ _ _ false (Some ?t) true) with (in_text l t true).
    rewrite read_text_more, joined_cons. reflexivity.
  Qed.

  Definition final (l : list item) (e : ending) : params :=
    match e with
    | EndNone => result l
    | EndText t => in_text l (joined t) (match t with [] => false | _ => true end)
    | EndCmd c => in_cmd l c
    end.

  Lemma read_final w l r e : items w l -> ends r e -> fine opens l -> (length (cmds l ++ end_cmds e) <= 1)%nat ->
    read_args opens params0 (w ++ r) = PNext (final l e).
  Proof.
    intros H E F C. rewrite (read_all_items w l r H F). destruct E as [|t|c N]; cbn [final].
    - reflexivity.
    - rewrite read_result, step_text. apply read_text.
    - rewrite read_result, step_cmd.
      + rewrite <- (app_nil_r c) at 1. rewrite read_cmd by exact N. reflexivity.
      + cbn [end_cmds] in C. rewrite app_length in C. cbn [length] in C. destruct (cmds l); [reflexivity|cbn in C; lia].
  Qed.
End Read.

Lemma hasf_neg f l : negb (hasf f l) = true <-> ~ In f l.
Proof. rewrite negb_true_iff, <- hasf_iff. destruct (hasf f l); split; congruence. Qed.

Lemma color_colour l : colour l (color_of l).
Proof.
  induction l as [|f l IH] using rev_ind.
  - apply Co_none; intros [].
  - rewrite color_snoc. unfold color_step.
    destruct (beqb f (str "--color")) eqn:E1; [|destruct (beqb f (str "--color=always")) eqn:E2; [|destruct (beqb f (str "--color=never")) eqn:E3]]; cbn [orb].
    + apply beqb_eq in E1. apply Co_on; [auto|intros []].
    + apply beqb_eq in E2. apply Co_on; [auto|intros []].
    + apply beqb_eq in E3. subst f. apply Co_off; intros [].
    + assert (N1 : f <> str "--color") by (intros ->; rewrite beqb_refl in E1; discriminate).
      assert (N2 : f <> str "--color=always") by (intros ->; rewrite beqb_refl in E2; discriminate).
      assert (N3 : f <> str "--color=never") by (intros ->; rewrite beqb_refl in E3; discriminate).
      assert (X : forall g b, f <> g -> ~ In g b -> ~ In g (b ++ [f])).
      { intros g b D N I. apply in_app_or in I. destruct I as [I|[I|[]]]; auto. }
      destruct IH as [l A B C|a g b D C|a b A B].
      * apply Co_none; apply X; assumption.
      * rewrite <- app_assoc. cbn [app]. apply Co_on; [exact D|apply X; assumption].
      * rewrite <- app_assoc. cbn [app]. apply Co_off; apply X; assumption.
Qed.

Lemma colour_fun l a b : colour l a -> colour l b -> a = b.
Proof.
  intros H1 H2. assert (K : forall l a, colour l a -> color_of l = a).
  { clear. intros l a H. assert (Kon : forall b x, ~ In (str "--color=never") b -> x = true -> fold_left color_step b x = true).
    { clear. induction b as [|f b IH]; intros x N ->; cbn [fold_left]; [reflexivity|]. apply IH; [intros I; apply N; right; exact I|].
      unfold color_step. destruct (beqb f (str "--color") || beqb f (str "--color=always")); [reflexivity|].
      destruct (beqb f (str "--color=never")) eqn:E; [apply beqb_eq in E; subst; exfalso; apply N; left; reflexivity|reflexivity]. }
    assert (Koff : forall b x, ~ In (str "--color") b -> ~ In (str "--color=always") b -> x = false -> fold_left color_step b x = false).
    { clear. induction b as [|f b IH]; intros x N N' ->; cbn [fold_left]; [reflexivity|].
      apply IH; [intros I; apply N; right; exact I|intros I; apply N'; right; exact I|].
      unfold color_step. destruct (beqb f (str "--color")) eqn:E1; [apply beqb_eq in E1; subst; exfalso; apply N; left; reflexivity|].
      destruct (beqb f (str "--color=always")) eqn:E2; [apply beqb_eq in E2; subst; exfalso; apply N'; left; reflexivity|].
      cbn [orb]. destruct (beqb f (str "--color=never")); reflexivity. }
    unfold color_of. destruct H as [l A B C|a f b D C|a b A B].
    - apply Kon; auto.
    - rewrite fold_left_app. cbn [fold_left]. apply Kon; [exact C|]. unfold color_step. destruct D as [-> | ->]; reflexivity.
    - rewrite fold_left_app. cbn [fold_left]. apply Koff; [exact A|exact B|reflexivity]. }
  rewrite <- (K _ _ H1). apply K, H2.
Qed.

Lemma final_meaning l e : (length (cmds l ++ end_cmds e) <= 1)%nat -> meaning l e (final l e).
Proof.
  intros C. destruct e as [|t|c]; cbn [final end_cmds] in *;
    (constructor; cbn [result in_text in_cmd p_strict p_ascii p_color p_sorted p_compress p_diff p_cmd p_text];
     [apply hasf_neg|apply hasf_iff|apply color_colour|apply hasf_neg|apply hasf_iff|apply hasf_iff| |reflexivity| ]).
  - rewrite app_nil_r. destruct (cmds l); reflexivity.
  - intros _. unfold getInputs, result. cbn [p_inputs]. rewrite app_nil_r. destruct (map _ (files l)); reflexivity.
  - rewrite app_nil_r. destruct (cmds l); reflexivity.
  - intros N. unfold getInputs. cbn [in_text result p_inputs]. rewrite set_new; [|exact beqb_eq|rewrite map_map; cbn [fst]; rewrite map_id; exact N].
    destruct (map _ (files l)); reflexivity.
  - rewrite app_length in C. cbn [length] in C. destruct (cmds l); [reflexivity|cbn in C; lia].
  - intros _. unfold getInputs. cbn [in_cmd result p_inputs]. rewrite app_nil_r. destruct (map _ (files l)); reflexivity.
Qed.

Lemma starts_skipn p : forall s, starts p s = true -> s = p ++ skipn (length p) s.
Proof.
  induction p as [|x p IH]; intros s H; [reflexivity|]. destruct s as [|y s]; [discriminate|]. cbn [starts] in H.
  apply andb_true_iff in H. destruct H as [E H]. apply Ascii.eqb_eq in E. subst. cbn [length skipn app]. f_equal. apply IH, H.
Qed.

Lemma final_names l e n : input_names l e n -> map fst (p_inputs (final l e)) = n.
Proof.
  assert (F : map fst (map (fun f => (f, SFile f)) (files l)) = files l) by (rewrite map_map; cbn [fst]; apply map_id).
  intros I. destruct I as [e N|t N|t N].
  - destruct e as [|t|c]; [exact F| |exact F]. exfalso. eapply N. reflexivity.
  - cbn [final in_text p_inputs result]. rewrite set_new; [|exact beqb_eq|rewrite F; exact N]. rewrite map_app, F. reflexivity.
  - cbn [final in_text p_inputs result].
    destruct (set_old beqb SNull beqb_eq (map (fun f => (f, SFile f)) (files l)) (str "ARGS") SArgs) as (a & v & b & E & _ & ->); [rewrite F; exact N|].
    rewrite <- F, E, !map_app. reflexivity.
Qed.

Section Props.
  Variable opens : bytes -> bool.

  Lemma read_accepts w l r e n : items w l -> ends r e -> fine opens l -> (length (cmds l ++ end_cmds e) <= 1)%nat -> input_names l e n ->
    (In (str "--diff") (flags l) -> (2 <= length n <= 3)%nat) ->
    exists p, Params_read opens (w ++ r) = PNext p /\ meaning l e p /\ map fst (p_inputs p) = n.
  Proof.
    intros H E F C I N. exists (final l e). split; [|split; [apply final_meaning, C|apply final_names, I]]. unfold Params_read. rewrite (read_final opens w l r e H E F C).
    assert (L : length (p_inputs (final l e)) = length n) by (rewrite <- (final_names l e n I), map_length; reflexivity).
    destruct (p_diff (final l e)) eqn:D; [|reflexivity].
    assert (D' : In (str "--diff") (flags l)) by (apply hasf_iff; destruct e; exact D). specialize (N D').
    destruct (3 <? length (p_inputs (final l e)))%nat eqn:A; [apply Nat.ltb_lt in A; lia|].
    destruct (length (p_inputs (final l e)) <? 2)%nat eqn:B; [apply Nat.ltb_lt in B; lia|]. reflexivity.
  Qed.
  Lemma read_refuses w l r e n : items w l -> ends r e -> fine opens l -> (length (cmds l ++ end_cmds e) <= 1)%nat -> input_names l e n ->
    In (str "--diff") (flags l) -> ~ (2 <= length n <= 3)%nat -> exists s, Params_read opens (w ++ r) = PStop s.
  Proof.
    intros H E F C I D N. unfold Params_read. rewrite (read_final opens w l r e H E F C).
    assert (L : length (p_inputs (final l e)) = length n) by (rewrite <- (final_names l e n I), map_length; reflexivity).
    assert (D' : p_diff (final l e) = true) by (apply hasf_iff in D; destruct e; exact D). rewrite D'.
    destruct (3 <? length (p_inputs (final l e)))%nat eqn:A; [eauto|].
    destruct (length (p_inputs (final l e)) <? 2)%nat eqn:B; [eauto|]. apply Nat.ltb_ge in A, B. lia.
  Qed.

  Lemma read_stops w l a rest : items w l -> fine opens l -> In a stop_names -> exists s, Params_read opens (w ++ a :: rest) = PStop s.
  Proof.
    intros H F I. unfold Params_read. rewrite (read_all_items opens w l _ H F), read_result.
    repeat (destruct I as [<-|I]; [eexists; reflexivity|]). destruct I.
  Qed.

  Lemma read_dash_option p a t : a = "-"%char :: t -> ~ In a flag_names -> ~ In a stop_names -> a <> str "--" -> a <> str "--diff-cmd" ->
    exists e, read_option opens p a = PError e.
  Proof.
    intros E NF NS N1 N2. unfold read_option. destruct p as [st asc col so com df cmd inp ind txt wr].
    assert (X : forall x, a <> x -> beqb a x = false) by (intros x D; destruct (beqb a x) eqn:Q; [apply beqb_eq in Q; contradiction|reflexivity]).
    rewrite (X _ N1), (X (str "-W")), (X (str "--ascii")), (X (str "--color")), (X (str "--diff")), (X (str "--compress")),
      (X (str "--help")), (X (str "-h")), (X (str "--version")), (X (str "-v")), (X (str "--keep-order")), (X _ N2).
    2-11: intros ->; first [apply NF; vm_compute; tauto|apply NS; vm_compute; tauto].
    cbn [orb]. destruct (starts (str "--color=") a) eqn:S.
    - apply starts_skipn in S. change (length (str "--color=")) with 8%nat in S.
      destruct (beqb (skipn 8 a) (str "always")) eqn:E1; [apply beqb_eq in E1; rewrite E1 in S; exfalso; apply NF; rewrite S; vm_compute; tauto|].
      destruct (beqb (skipn 8 a) (str "never")) eqn:E2; [apply beqb_eq in E2; rewrite E2 in S; exfalso; apply NF; rewrite S; vm_compute; tauto|].
      eauto.
    - rewrite E. cbn [str list_ascii_of_string starts]. rewrite Ascii.eqb_refl. cbn [andb]. destruct t; eauto.
  Qed.

  Lemma read_rejects w l a rest : items w l -> fine opens l -> wrong opens l a ->
    exists e, Params_read opens (w ++ a :: rest) = PError e.
  Proof.
    intros H F W. unfold Params_read. rewrite (read_all_items opens w l _ H F), read_result.
    destruct W as [a t E NF NS N1 N2|a I O|a I R|C].
    - destruct (read_dash_option (result l) a t E NF NS N1 N2) as (e & ->). eauto.
    - rewrite read_file by exact I. rewrite O. cbn [negb]. eauto.
    - rewrite read_file by exact I. unfold result at 1. cbn [p_inputs]. rewrite (proj2 (files_in_inputs l a) R).
      destruct (opens a); cbn [negb]; eauto.
    - unfold result. destruct (cmds l); [contradiction|]. eexists. reflexivity.
  Qed.

  Lemma is_file_dec a : is_file a \/ exists t, a = "-"%char :: t.
  Proof.
    destruct a as [|c t]; [left; intros t E; discriminate|]. destruct (Ascii.eqb c "-") eqn:E.
    - apply Ascii.eqb_eq in E. subst. eauto.
    - apply Ascii.eqb_neq in E. left. intros t' [= Q _]. contradiction.
  Qed.
  Lemma inb_dec (a : bytes) l : In a l \/ ~ In a l.
  Proof. destruct (hasf a l) eqn:E; [left; apply hasf_iff, E|right; rewrite <- hasf_iff; congruence]. Qed.
  Lemma beq_dec (a b : bytes) : a = b \/ a <> b.
  Proof. destruct (beqb a b) eqn:E; [left; apply beqb_eq, E|right; intros ->; rewrite beqb_refl in E; discriminate]. Qed.
  Lemma split_first (x : bytes) l : In x l -> exists a b, l = a ++ x :: b /\ ~ In x a.
  Proof.
    induction l as [|y l IH]; intros I; [destruct I|]. destruct (beq_dec y x) as [-> |N].
    - exists [], l. split; [reflexivity|intros []].
    - destruct I as [I|I]; [contradiction|]. destruct (IH I) as (a & b & -> & J). exists (y :: a), b. split; [reflexivity|].
      intros [Q|Q]; auto.
  Qed.

  Lemma kinds_total n : forall args l0, (length args <= n)%nat -> fine opens l0 ->
    exists w l rest, args = w ++ rest /\ items w l /\ fine opens (l0 ++ l) /\ kinds opens (l0 ++ l) rest.
  Proof.
    induction n as [|n IH]; intros args l0 L F.
    - destruct args; [|cbn in L; lia]. exists [], [], []. rewrite !app_nil_r. split; [reflexivity|]. split; [constructor|]. split; [exact F|].
      left. exists EndNone. split; [constructor|]. cbn [end_cmds]. rewrite ?app_nil_r. apply F.
    - destruct args as [|a args].
      { exists [], [], []. rewrite !app_nil_r. split; [reflexivity|]. split; [constructor|]. split; [exact F|].
        left. exists EndNone. split; [constructor|]. cbn [end_cmds]. rewrite ?app_nil_r. apply F. }
      cbn [length] in L.
      assert (Stop : kinds opens (l0 ++ []) (a :: args) ->
        exists w l rest, a :: args = w ++ rest /\ items w l /\ fine opens (l0 ++ l) /\ kinds opens (l0 ++ l) rest).
      { intros K. exists [], [], (a :: args). rewrite app_nil_r in *. split; [reflexivity|]. split; [constructor|]. split; [exact F|exact K]. }
      assert (Go : forall i w0 args', a :: args = w0 ++ args' -> (length args' <= n)%nat -> (forall w l, items w l -> items (w0 ++ w) (i :: l)) ->
        fine opens (l0 ++ [i]) ->
        exists w l rest, a :: args = w ++ rest /\ items w l /\ fine opens (l0 ++ l) /\ kinds opens (l0 ++ l) rest).
      { intros i w0 args' E L' HI Fi. destruct (IH args' (l0 ++ [i]) L' Fi) as (w & l & rest & -> & Hi & Ff & K).
        exists (w0 ++ w), (i :: l), rest. rewrite <- app_assoc in Ff, K. rewrite <- app_assoc. split; [exact E|]. split; [apply HI, Hi|]. split; assumption. }
      rewrite app_nil_r in Stop.
      destruct (is_file_dec a) as [I|(t & E)].
      + destruct (opens a) eqn:O; [|apply Stop; right; right; exists a, args; split; [reflexivity|apply W_unreadable; assumption]].
        destruct (inb_dec a (files l0)) as [J|J]; [apply Stop; right; right; exists a, args; split; [reflexivity|apply W_repeated; assumption]|].
        apply (Go (IFile a) [a] args eq_refl); [lia|intros w l Hi; cbn [app]; constructor; assumption|].
        destruct F as (ND & Op & C). unfold fine. rewrite files_app, cmds_app. cbn [files cmds flat_map app]. rewrite app_nil_r.
        split; [|split; [|exact C]].
        * apply NoDup_Add with (a := a) (l := files l0); [|split; [exact ND|exact J]]. rewrite <- (app_nil_r (files l0)) at 1. apply Add_app.
        * intros f I'. apply in_app_or in I'. destruct I' as [I'|[<-|[]]]; [apply Op, I'|exact O].
      + destruct (inb_dec a flag_names) as [J|J].
        { apply (Go (IFlag a) [a] args eq_refl); [lia|intros w l Hi; cbn [app]; constructor; assumption|].
          unfold fine in *. rewrite files_app, cmds_app. cbn [files cmds flat_map app]. rewrite !app_nil_r. exact F. }
        destruct (inb_dec a stop_names) as [K|K]; [apply Stop; right; left; eauto|].
        destruct (beq_dec a (str "--")) as [-> |N1].
        { apply Stop. left. exists (EndText args). split; [constructor|]. cbn [end_cmds]. rewrite ?app_nil_r. apply F. }
        destruct (beq_dec a (str "--diff-cmd")) as [-> |N2].
        * destruct (cmds l0) as [|c0 cs] eqn:C.
          2:{ apply Stop. right. right. exists (str "--diff-cmd"), args. split; [reflexivity|]. apply W_command. rewrite C. discriminate. }
          destruct (inb_dec (str ";") args) as [M|M].
          -- destruct (split_first _ _ M) as (c & args' & -> & N). rewrite app_length in L. cbn [length] in L.
             apply (Go (ICmd c) (str "--diff-cmd" :: c ++ [str ";"]) args'); [cbn [app]; rewrite <- app_assoc; reflexivity|lia| |].
             ++ intros w l Hi. cbn [app]. rewrite <- app_assoc. cbn [app]. constructor; assumption.
             ++ unfold fine in *. rewrite files_app, cmds_app, C. cbn [files cmds flat_map app length]. rewrite app_nil_r.
                destruct F as (A & B & _). split; [exact A|]. split; [exact B|lia].
          -- apply Stop. left. exists (EndCmd args). split; [constructor; exact M|]. rewrite C. cbn. lia.
        * apply Stop. right. right. exists a, args. split; [reflexivity|]. eapply W_option; eauto.
  Qed.

  Lemma command_lines args : exists w l rest, args = w ++ rest /\ items w l /\ fine opens l /\ kinds opens l rest.
  Proof.
    apply (kinds_total (length args) args []); [lia|]. split; [constructor|]. split; [intros f []|cbn; lia].
  Qed.
End Props.

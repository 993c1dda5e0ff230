(** What the comparison of two documents shows: C70, C71. *)
From Verif Require Import Spec.SplitPage Spec.LevelSpec.
From Verif Require Proofs.SplitShow Proofs.SplitFit Proofs.DocumentProofs.
From Verif Require Import Properties.Screen Properties.Split Properties.Compare Properties.Level.
From Coq Require Import Lia.
Open Scope Z_scope.

(** C70: whenever the comparison waits, each window shows its document from a line
    on, down to the end of the document or of the window, with names, scalars,
    search results and the selected row as they should look. *)
Theorem C70_windows : forall f a b m len sc p w colours, comparable a b m len f -> roomy_windows sc -> slen sc = len -> compares a b m sc p -> In w (pwins p) ->
  window_shows (split_memory a b) len (pcoll p) (active_res p) colours (sw sc - 2) (sh sc) w.
Proof. exact SplitShow.windows_show. Qed.
Print Assumptions C70_windows.

Theorem C70_waiting : forall rx f a b m len w hh evs sc p v colours, comparable a b m len f -> room w hh -> rooms evs -> unsearched evs ->
  split_run rx f len w hh a b evs = Done (Waits sc p) -> In v (pwins p) ->
  window_shows (split_memory a b) len (pcoll p) (active_res p) colours (sw sc - 2) (sh sc) v.
Proof.
  intros rx f a b m len w hh evs sc p v colours OK RW R U E I. assert (X := SplitPress.run_compares rx f a b m len w hh evs OK RW R U). rewrite E in X. destruct X as (G & L & C).
  exact (SplitShow.windows_show f a b m len sc p v colours OK G L C I).
Qed.
Print Assumptions C70_waiting.

(** The results marked in a window are those of the active window. *)
Theorem C70_results : forall f a b m len sc p w x colours, comparable a b m len f -> roomy_windows sc -> slen sc = len -> compares a b m sc p -> In w (pwins p) -> active p = Some x ->
  exists drawn rest, half_page len (pcoll p) (nid (wroot w)) 2 (wroot w) = map snd drawn ++ rest /\
    cells_of (split_memory a b) (active_res p) colours w =
      map (fun q => shown_as colours (wsel w) (wres x) (fst q - wscroll w, snd q)) (filter (fun q => wscroll w <? fst q) drawn).
Proof.
  intros f a b m len sc p w x colours OK R L C I A. destruct (SplitShow.windows_show f a b m len sc p w colours OK R L C I) as (drawn & rest & P & _ & S & _).
  exists drawn, rest. split; [exact P|]. rewrite S. unfold active_res. unfold active in A. rewrite A. reflexivity.
Qed.
Print Assumptions C70_results.

(** {"a": [1, "hello"], "b": 2} and the same with "hallo", in 40 columns and 7 lines,
    "hello" selected: "a" is on the first line, "b" is below the end. *)
Definition width_of (e : elem) : Z := Z.of_nat (length (etext e)).
Definition texts_of (a b : node) (o : out ending) : option (Z * list Z * list (list printed)) :=
  match o with Done (Waits sc p) => Some (sh sc, map wscroll (pwins p), map (cells_of (split_memory a b) (active_res p) true) (pwins p)) | _ => None end.
Lemma hello_comparable : comparable (hello 1 "hello") (hello 21 "hallo") hello_mat width_of fuel.
Proof.
  split; [apply DocumentProofs.document_in_memory|]. split; [apply DocumentProofs.document_in_memory|].
  split; [repeat constructor|]. split; [repeat constructor|]. split; [vm_compute; repeat constructor; cbn; intuition congruence|]. split; [vm_compute; reflexivity|].
  split; [intros e; unfold width_of; lia|]. split; vm_compute; reflexivity.
Qed.
Example C70_example : comparable (hello 1 "hello") (hello 21 "hallo") hello_mat width_of fuel /\ room 40 7 /\
  texts_of (hello 1 "hello") (hello 21 "hallo") (split_run no_regex fuel width_of 40 7 (hello 1 "hello") (hello 21 "hallo") (map key ["J"; "J"; "J"]%string)) =
  Some (5, [1; 1],
    [drawn [(1, 6, [("a", false, Some 5); (": ", false, None)]);
            (2, 6, [("[", false, None)]);
            (3, 10, [("1", false, Some 2)]);
            (4, 10, [("hello", true, Some 1)])]%string;
     drawn [(1, 6, [("a", false, Some 5); (": ", false, None)]);
            (2, 6, [("[", false, None)]);
            (3, 10, [("1", false, Some 2)]);
            (4, 10, [("hallo", true, Some 1)])]%string]) /\
  half_page width_of [] 1 2 (hello 1 "hello") =
    [mkStrip 1 1 2 [mark "{"] 1 0; mkStrip 2 2 6 [(Name, str "a"); mark ": "] 1 2; mkStrip 3 2 6 [mark "["] 1 0;
     mkStrip 4 4 10 [(Number, str "1")] 1 0; mkStrip 5 5 10 [(Text, str "hello")] 5 0; mkStrip 3 2 6 [mark "]"] 1 0;
     mkStrip 6 6 6 [(Name, str "b"); mark ": "; (Number, str "2")] 4 0; mkStrip 1 1 2 [mark "}"] 1 0].
Proof. split; [exact hello_comparable|]. split; [split; split; vm_compute; congruence|]. split; vm_compute; reflexivity. Qed.

(** The documents of C70_example in 9 lines, "hallo" looked for in the second: it is
    marked there, and nothing in the first. *)
Definition looked_for : list event := [key "^W-W"; look "hallo"]%string.
Definition looking : out ending := split_run no_regex fuel width_of 40 9 (hello 1 "hello") (hello 21 "hallo") looked_for.
Definition state_of (o : out ending) : option (Z * Z * split) := match o with Done (Waits sc p) => Some (sw sc, sh sc, p) | _ => None end.
Example C70_results_example : exists sc p x, state_of looking = Some (sw sc, sh sc, p) /\
  roomy_windows sc /\ slen sc = width_of /\ compares (hello 1 "hello") (hello 21 "hallo") hello_mat sc p /\ active p = Some x /\ map wres (pwins p) = [[]; [25]] /\ wres x = [25] /\
  match texts_of (hello 1 "hello") (hello 21 "hallo") looking with
  | Some (_, _, [l; r]) => filter (fun c => 3 <? cline c) l = drawn [(4, 10, [("1", false, Some 2)]); (5, 10, [("hello", true, Some 1)]); (6, 6, [("]", false, None)])]%string /\
                           filter (fun c => 3 <? cline c) r = drawn [(4, 10, [("1", false, Some 2)]); (5, 10, [("hallo", true, Some 51)]); (6, 6, [("]", false, None)])]%string
  | _ => False
  end.
Proof.
  let s := eval vm_compute in (state_of looking) in
  match s with Some (?w, ?hh, ?v) => exists (mkScreen w hh width_of), v; eexists; split; [vm_compute; reflexivity|] end.
  split; [split; split; vm_compute; congruence|]. split; [reflexivity|].
  split.
  { split; [match goal with |- exists ws, redraw_all _ _ _ _ _ = Done (true, pwins ?v) => exists (pwins v) end; vm_compute; reflexivity|]. split.
    - eexists _, _. split; [reflexivity|]. split; (split; [reflexivity|split; [eexists; split; [reflexivity|vm_compute; tauto]|split; [intros i; vm_compute; intros [= <-]; tauto|vm_compute; congruence]]]).
    - split; [intros w i [<-|[<-|[]]]; intros H; exact H|]. split; [split; [reflexivity|right; reflexivity]|].
      split; [eexists _, _; split; [reflexivity|split; [reflexivity|vm_compute; tauto]]|].
      split; [eexists _, _; split; [reflexivity|right; split; vm_compute; reflexivity]|intros x y _; cbn; tauto]. }
  split; [reflexivity|]. split; [reflexivity|]. split; [reflexivity|]. vm_compute. split; reflexivity.
Qed.

(** C71, full statement: whenever the comparison waits, [inside_window] of what each
    window shows.  False: what has no counterpart, or takes more lines than what is
    beside it, moves the other window on, which then draws one thing below its end.
    There, wmove() fails and the text appears after the last one printed: "short7".
    Proved for documents of the same shape, as C61. *)
Theorem C71_partial : forall rx f a b m len w hh evs sc p v colours, comparable a b m len f -> shape_of a = shape_of b -> paired m a b ->
  room w hh -> rooms evs -> unsearched evs -> wide_enough len a b w hh evs ->
  split_run rx f len w hh a b evs = Done (Waits sc p) -> In v (pwins p) ->
  inside_window (sh sc) (cells_of (split_memory a b) (active_res p) colours v).
Proof. exact SplitFit.run_inside. Qed.
Print Assumptions C71_partial.

(** The documents of C70_example, in 80 columns. *)
Example C71_partial_example :
  comparable (hello 1 "hello") (hello 21 "hallo") hello_mat width_of fuel /\ shape_of (hello 1 "hello") = shape_of (hello 21 "hallo") /\ paired hello_mat (hello 1 "hello") (hello 21 "hallo") /\
  room 80 7 /\ rooms hello_keys /\ unsearched hello_keys /\ wide_enough width_of (hello 1 "hello") (hello 21 "hallo") 80 7 hello_keys /\
  match texts_of (hello 1 "hello") (hello 21 "hallo") (split_run no_regex fuel width_of 80 7 (hello 1 "hello") (hello 21 "hallo") hello_keys) with
  | Some (height, top, l) => (height, top, map (map cline) l) = (4, [2; 2], [[1; 2; 3]; [1; 2; 3]])
  | None => False
  end.
Proof.
  split; [exact hello_comparable|].
  split; [reflexivity|]. split; [intros x y I; vm_compute in I; repeat (destruct I as [[= <- <-]|I]; [split; vm_compute; reflexivity|]); destruct I|].
  split; [split; split; vm_compute; congruence|].
  split; [intros w hh I; cbn in I; repeat (destruct I as [I|I]; [try discriminate I; try (injection I as <- <-; split; split; vm_compute; congruence)|]); destruct I|].
  split; [intros k q I; cbn in I; repeat (destruct I as [I|I]; [try discriminate I; try (injection I as <- <-; split; discriminate)|]); destruct I|].
  split.
  { intros w hh I. cbn in I. repeat (destruct I as [I|I]; [try discriminate I; try (injection I as <- <-; split; intros e IE; vm_compute in IE; repeat (destruct IE as [<-|IE]; [vm_compute; congruence|]); destruct IE)|]). destruct I. }
  vm_compute. reflexivity.
Qed.

(** ["a long text, …", 7] and ["short", 7], in 40 columns and 7 lines: 7 is written on
    line 5 of a window of 5 lines, 0 to 4. *)
Definition tail_of (s : string) (i : Z) : node := document i (TArr [txt s; num 7]).
Definition long_doc : node := tail_of "a long text, longer than the window is wide" 1.
Definition tail_mat : mat := match build long_doc (tail_of "short" 21) with inl m => m | inr _ => mkMat [] [] 0 true end.
Theorem C71_refuted : exists a b m sc p v, comparable a b m width_of fuel /\ room 40 7 /\ shape_of a = shape_of b /\ paired m a b /\
  split_run no_regex fuel width_of 40 7 a b [] = Done (Waits sc p) /\ In v (pwins p) /\ sh sc = 5 /\
  cells_of (split_memory a b) (active_res p) true v = drawn [(1, 2, [("[", true, None)]); (2, 6, [("short", false, Some 1)]); (5, 6, [("7", false, Some 2)])]%string /\
  ~ inside_window (sh sc) (cells_of (split_memory a b) (active_res p) true v).
Proof.
  assert (X : match texts_of long_doc (tail_of "short" 21) (split_run no_regex fuel width_of 40 7 long_doc (tail_of "short" 21) []) with
    | Some (height, _, [_; l]) => height = 5 /\ l = drawn [(1, 2, [("[", true, None)]); (2, 6, [("short", false, Some 1)]); (5, 6, [("7", false, Some 2)])]%string
    | _ => False
    end) by (vm_compute; split; reflexivity).
  exists long_doc, (tail_of "short" 21), tail_mat.
  destruct (split_run no_regex fuel width_of 40 7 long_doc (tail_of "short" 21) []) as [[sc p|sc p]|] eqn:E; cbn [texts_of] in X; try contradiction.
  destruct (pwins p) as [|v0 [|v [|v2 vs]]] eqn:V; cbn [map] in X; try contradiction. exists sc, p, v. rewrite V.
  split. { split; [apply DocumentProofs.document_in_memory|]. split; [apply DocumentProofs.document_in_memory|].
    split; [repeat constructor|]. split; [repeat constructor|]. split; [vm_compute; repeat constructor; cbn; intuition congruence|]. split; [vm_compute; reflexivity|].
    split; [intros e; unfold width_of; lia|]. split; vm_compute; reflexivity. }
  split; [repeat split; vm_compute; congruence|]. split; [reflexivity|].
  split; [intros x y I; vm_compute in I; repeat (destruct I as [[= <- <-]|I]; [split; vm_compute; reflexivity|]); destruct I|].
  split; [reflexivity|]. split; [right; left; reflexivity|].
  destruct X as [H X]. split; [exact H|]. split; [exact X|]. rewrite H, X. intros I.
  apply (Forall_inv_tail (P := fun c => 1 <= cline c < 5)), Forall_inv_tail, Forall_inv in I. cbn in I. lia.
Qed.
Print Assumptions C71_refuted.

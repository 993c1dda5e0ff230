(** What the terminal shows of the two documents of a comparison: C91. *)
From Verif Require Import Spec.SplitPage Spec.LevelSpec Spec.HalfCellSpec.
From Verif Require Proofs.HalfCells Proofs.SplitFit Proofs.SplitPress Proofs.DocumentProofs.
From Verif Require Import Properties.Screen Properties.Split Properties.Compare Properties.Level Properties.Both Properties.Cells.
From Coq Require Import Lia.
Open Scope Z_scope.

(** C91, full statement: as C91_partial without the hypothesis that what the window
    prints is inside the window ([inside_window]) and the one that every strip begins
    left of its right edge.  False of a text below the end of the window
    (C91_refuted): it appears after the last text printed. *)
Theorem C91_partial : forall f a b m len sc p w colours name inks, comparable a b m len f -> roomy_windows sc -> slen sc = len -> compares a b m sc p -> In w (pwins p) ->
  sw sc < 2 ^ 31 -> readable (wroot w) sc -> Forall (fun s => column s < sw sc - 2) (half_page len (pcoll p) (nid (wroot w)) 2 (wroot w)) ->
  inside_window (sh sc) (cells_of (split_memory a b) (active_res p) colours w) ->
  mixed (cells_of (split_memory a b) (active_res p) colours w) (rev (wmarks w)) inks ->
  window_right len (pcoll p) (sw sc - 2) (sh sc) name w inks.
Proof. exact HalfCells.compares_cells. Qed.
Print Assumptions C91_partial.

(** Documents of the same shape in which each element is opposite its counterpart and
    takes one line: nothing is printed below the end (C71), after any keys. *)
Theorem C91_same_shape : forall rx f a b m len w hh evs sc p v colours name inks, comparable a b m len f -> shape_of a = shape_of b -> paired m a b ->
  room w hh -> rooms evs -> unsearched evs -> wide_enough len a b w hh evs ->
  split_run rx f len w hh a b evs = Done (Waits sc p) -> In v (pwins p) ->
  sw sc < 2 ^ 31 -> readable (wroot v) sc -> Forall (fun s => column s < sw sc - 2) (half_page len (pcoll p) (nid (wroot v)) 2 (wroot v)) ->
  mixed (cells_of (split_memory a b) (active_res p) colours v) (rev (wmarks v)) inks ->
  window_right len (pcoll p) (sw sc - 2) (sh sc) name v inks.
Proof.
  intros rx f a b m len w hh evs sc p v colours name inks OK SH PA RW R U WE E I W RB CO MX.
  assert (IN := SplitFit.run_inside rx f a b m len w hh evs sc p v colours OK SH PA RW R U WE E I).
  assert (X := SplitPress.run_compares rx f a b m len w hh evs OK RW R U). rewrite E in X. destruct X as (G & L & C).
  exact (HalfCells.compares_cells f a b m len sc p v colours name inks OK G L C I W RB CO IN MX).
Qed.
Print Assumptions C91_same_shape.

(** ["left", 7] and ["right", 7], in 72 columns and 8 lines: the windows have 34 columns
    and 6 lines. *)
Definition lr : node * node := (tail_of "left" 1, tail_of "right" 21).
Definition lr_mat : mat := match build (fst lr) (snd lr) with inl m => m | inr _ => mkMat [] [] 0 true end.
Definition lr_run : out ending := split_run no_regex fuel width_of 72 8 (fst lr) (snd lr) [].
(** A mark goes before the text of its line. *)
Fixpoint marks_first (ps : list printed) (ms : list (Z * op)) : list ink :=
  match ps with
  | [] => map (fun m => Margin (fst m) (snd m)) ms
  | p :: ps => match ms with
               | m :: ms' => if fst m <=? cline p then Margin (fst m) (snd m) :: Inked p :: marks_first ps ms' else Inked p :: marks_first ps ms
               | [] => Inked p :: marks_first ps ms
               end
  end.
Lemma first_mixed ps : forall ms, mixed ps ms (marks_first ps ms).
Proof.
  induction ps as [|p ps IH]; intros ms; cbn [marks_first].
  - induction ms as [|m ms IH]; cbn [map]; constructor. exact IH.
  - destruct ms as [|m ms]; [constructor; apply IH|]. destruct (_ <=? _); repeat constructor; apply IH.
Qed.
Definition windows_shown (a b : node) (name : string) (o : out ending) : option (list (list bytes)) :=
  match o with
  | Done (Waits sc p) => Some (map (fun w => screen_lines (sw sc - 2) (sh sc)
      (window_cells (str name) (sw sc - 2) (sh sc) (marks_first (cells_of (split_memory a b) (active_res p) true w) (rev (wmarks w))))) (pwins p))
  | _ => None
  end.

Lemma lr_comparable : comparable (fst lr) (snd lr) lr_mat width_of fuel.
Proof.
  split; [apply DocumentProofs.document_in_memory|]. split; [apply DocumentProofs.document_in_memory|].
  split; [repeat constructor|]. split; [repeat constructor|]. split; [vm_compute; repeat constructor; cbn; intuition congruence|]. split; [vm_compute; reflexivity|].
  split; [intros e; unfold width_of; lia|]. split; vm_compute; reflexivity.
Qed.
Example C91_example :
  comparable (fst lr) (snd lr) lr_mat width_of fuel /\ shape_of (fst lr) = shape_of (snd lr) /\ paired lr_mat (fst lr) (snd lr) /\
  room 72 8 /\ wide_enough width_of (fst lr) (snd lr) 72 8 [] /\
  windows_shown (fst lr) (snd lr) "a.json" lr_run = Some [map str
    ["a.json                            ";
     "  [                               ";
     "!!    left                        ";
     "      7                           ";
     "  ]                               ";
     "                                  "]%string; map str
    ["a.json                            ";
     "  [                               ";
     "!!    right                       ";
     "      7                           ";
     "  ]                               ";
     "                                  "]%string] /\
  Forall (fun n => Forall (fun s => column s < 34) (half_page width_of [] (nid n) 2 n) /\ forall e, In e (elems n) -> printable (etext e)) [fst lr; snd lr] /\
  exists sc p, lr_run = Done (Waits sc p) /\ map wroot (pwins p) = [fst lr; snd lr] /\ pcoll p = [] /\ sw sc = 36 /\ map wmarks (pwins p) = [[(2, OMod)]; [(2, OMod)]].
Proof.
  split; [exact lr_comparable|]. split; [reflexivity|].
  split; [intros x y I; vm_compute in I; repeat (destruct I as [[= <- <-]|I]; [split; vm_compute; reflexivity|]); destruct I|].
  split; [repeat split; vm_compute; congruence|].
  split. { intros w hh I. cbn in I. repeat (destruct I as [I|I]; [try discriminate I; try (injection I as <- <-; split; intros e IE; vm_compute in IE; repeat (destruct IE as [<-|IE]; [vm_compute; congruence|]); destruct IE)|]). destruct I. }
  split; [vm_compute; reflexivity|].
  split. { repeat apply Forall_cons; try apply Forall_nil; (split; [vm_compute; repeat constructor|]); intros e I; vm_compute in I; repeat (destruct I as [<-|I]; [vm_compute; repeat apply Forall_cons; try apply Forall_nil; vm_compute; split; congruence|]); destruct I. }
  assert (X : match lr_run with Done (Waits sc p) => Some (map wroot (pwins p), pcoll p, sw sc, map wmarks (pwins p)) | _ => None end = Some ([fst lr; snd lr], [], 36, [[(2, OMod)]; [(2, OMod)]])) by (vm_compute; reflexivity).
  destruct lr_run as [[sc p|sc p]|]; try discriminate X. injection X as X1 X2 X3 X4. exists sc, p. auto.
Qed.

(** The documents of C71_refuted: 7 is printed behind "short". *)
Theorem C91_refuted : exists a b m sc p v name inks, comparable a b m width_of fuel /\ room 40 7 /\ shape_of a = shape_of b /\ paired m a b /\
  split_run no_regex fuel width_of 40 7 a b [] = Done (Waits sc p) /\ In v (pwins p) /\ sw sc = 20 /\ sh sc = 5 /\
  inks = marks_first (cells_of (split_memory a b) (active_res p) true v) (rev (wmarks v)) /\
  screen_lines 18 5 (window_cells name 18 5 inks) = map str
    ["b                 ";
     "  [               ";
     "!!    short7      ";
     "                  ";
     "                  "]%string /\
  ~ window_right width_of (pcoll p) (sw sc - 2) (sh sc) name v inks.
Proof.
  set (o := split_run no_regex fuel width_of 40 7 long_doc (tail_of "short" 21) []).
  assert (X : match o with Done (Waits sc p) => match pwins p with [_; v] =>
      Some (sw sc, sh sc, pcoll p, wroot v, wscroll v, wmarks v, cells_of (split_memory long_doc (tail_of "short" 21)) (active_res p) true v) | _ => None end | _ => None end =
    Some (20, 5, [], tail_of "short" 21, 0, [(2, OMod)], drawn [(1, 2, [("[", true, None)]); (2, 6, [("short", false, Some 1)]); (5, 6, [("7", false, Some 2)])]%string)) by (vm_compute; reflexivity).
  exists long_doc, (tail_of "short" 21), tail_mat.
  destruct o as [[sc p|sc p]|] eqn:E; try discriminate X.
  destruct (pwins p) as [|v0 [|v [|v2 vs]]] eqn:V; try discriminate X. injection X as X1 X2 X3 X4 X5 X6 X7.
  exists sc, p, v, (str "b"), (marks_first (cells_of (split_memory long_doc (tail_of "short" 21)) (active_res p) true v) (rev (wmarks v))). rewrite V.
  split. { split; [apply DocumentProofs.document_in_memory|]. split; [apply DocumentProofs.document_in_memory|].
    split; [repeat constructor|]. split; [repeat constructor|]. split; [vm_compute; repeat constructor; cbn; intuition congruence|]. split; [vm_compute; reflexivity|].
    split; [intros e; unfold width_of; lia|]. split; vm_compute; reflexivity. }
  split; [repeat split; vm_compute; congruence|]. split; [reflexivity|].
  split; [intros x y I; vm_compute in I; repeat (destruct I as [[= <- <-]|I]; [split; vm_compute; reflexivity|]); destruct I|].
  split; [exact E|]. split; [right; left; reflexivity|]. split; [exact X1|]. split; [exact X2|]. split; [reflexivity|]. rewrite X7, X6.
  split; [vm_compute; reflexivity|].
  intros (drawn & rest & P & _ & _ & D). rewrite X1, X2, X3, X4, X5, X6 in *. destruct D as (_ & _ & _ & D).
  (* nothing of the document belongs in the cell behind "short" *)
  assert (C : tcell (window_cells (str "b") (20 - 2) 5 (marks_first (Screen.drawn [(1, 2, [("[", true, None)]); (2, 6, [("short", false, Some 1)]); (5, 6, [("7", false, Some 2)])]%string) (rev [(2, OMod)]))) 47 = "7"%char) by (vm_compute; reflexivity).
  rewrite D in C; [discriminate C|split; vm_compute; congruence| |].
  - intros q I CV. assert (S : In (snd q) (half_page width_of [] 21 2 (tail_of "short" 21))).
    { change 21 with (nid (tail_of "short" 21)) at 1. rewrite P. apply in_or_app. left. unfold in_view in I. apply in_map_iff in I. destruct I as (q0 & <- & I). apply filter_In in I. cbn [snd]. apply in_map, I. }
    unfold covers, first_cell in CV. destruct q as [y s]. cbn [fst snd] in *. vm_compute in S.
    repeat (destruct S as [<-|S]; [unfold letters in CV; cbn in CV; lia|]). destruct S.
  - intros mk [<-|[]] (_ & M). cbn in M. lia.
Qed.
Print Assumptions C91_refuted.

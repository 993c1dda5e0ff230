(** What the view of one document shows: C67, C68. *)
From Verif Require Import Model.SimpleText Spec.PageSpec Properties.View.
From Verif Require Proofs.PageProofs Proofs.LookProofs Proofs.PressProofs Proofs.DocumentProofs.
From Coq Require Import Lia.
Open Scope Z_scope.

(** C67: a redraw that succeeds prints consecutive strips of the page of the
    document from the line below the top one on: as many are left out above as
    lines are scrolled, every strip printed starts on a line of the window, and
    strips are left out below only when the window is full.  The strips of the
    selected row, and no others, are in reverse; names, scalars and search results
    have their colours.  [vlines] says the same. *)
Theorem C67_screen : forall root sc colours v0 v, in_memory root -> roomy root sc -> 2 <= sh sc < 2 ^ 32 -> on_row root v0 -> 0 <= vscroll v0 ->
  redraw root sc v0 = Some (true, v) ->
  exists above shown below,
    page (slen sc) (vcoll v) (nid root) 0 root = above ++ shown ++ below /\
    Z.of_nat (length above) = vscroll v /\
    painted root colours sc v0 = Some (map (shown_as colours (vsel v) (vres v)) (stacked (sw sc) 1 shown)) /\
    vlines v = rev (map (listed_as (vsel v)) (stacked (sw sc) 1 shown)) /\
    Forall (fun p => 1 <= fst p <= sh sc - 1) (stacked (sw sc) 1 shown) /\
    (below = [] \/ sh sc - 1 <= total_lines (sw sc) shown).
Proof. exact PageProofs.screen_page. Qed.
Print Assumptions C67_screen.

(** In particular whenever the viewer waits, if no search was made. *)
Theorem C67_waiting : forall rx root sc evs sc' v stop colours, in_memory root -> roomy root sc -> wide evs -> unsearched evs ->
  run rx root sc view0 evs = Waiting sc' v stop -> 2 <= sh sc' < 2 ^ 32 ->
  exists v0 above shown below,
    redraw root sc' v0 = Some (true, v) /\
    page (slen sc') (vcoll v) (nid root) 0 root = above ++ shown ++ below /\
    Z.of_nat (length above) = vscroll v /\
    painted root colours sc' v0 = Some (map (shown_as colours (vsel v) (vres v)) (stacked (sw sc') 1 shown)) /\
    Forall (fun p => 1 <= fst p <= sh sc' - 1) (stacked (sw sc') 1 shown) /\
    (below = [] \/ sh sc' - 1 <= total_lines (sw sc') shown).
Proof.
  intros rx root sc evs sc' v stop colours M R W U E HS. assert (Q := PressProofs.run_rest rx root M evs sc R W U). rewrite E in Q.
  destruct Q as (R' & v0 & RD & ON & T & _). exists v0.
  destruct (PageProofs.screen_page root sc' colours v0 v M R' HS ON T RD) as (above & shown & below & Q1 & Q2 & Q3 & _ & Q4 & Q5).
  exists above, shown, below. auto 8.
Qed.
Print Assumptions C67_waiting.

(** The rows of the page are the rows on display. *)
Theorem C67_rows : forall sc coll root i, In i (map row (page (slen sc) coll (nid root) 0 root)) <-> In i (rows coll root).
Proof. intros sc coll root i. rewrite PageProofs.page_rows. unfold rows. cbn [In]. split; (intros [E|I]; [left; symmetry; exact E|right; exact I]). Qed.
Print Assumptions C67_rows.

(** {"a": [1, "x"], "b": {"x": 2}, "c": "x"} with b folded, "x" (row 5) selected and
    found, one line scrolled, in 12 columns and 7 lines. *)
Definition drawn (l : list (Z * Z * list (string * bool * option Z))) : list printed :=
  map (fun x => mkPrinted (fst (fst x)) (snd (fst x)) (map (fun p => mkPiece (str (fst (fst p))) (snd (fst p)) (snd p)) (snd x))) l.
Definition measured (w hh : Z) : screen := mkScreen w hh (fun e => Z.of_nat (length (etext e))).
Example C67_example : let v0 := mkView (Some 5) 1 [7] [5] None None false [] in
  on_row doc v0 /\ (exists v, redraw doc (measured 12 7) v0 = Some (true, v) /\ vscroll v = 1 /\ vsel v = Some 5) /\
  painted doc true (measured 12 7) v0 = Some (drawn
    [(1, 4, [("a", false, Some 5); (": ", false, None)]);
     (2, 6, [("[", false, None)]);
     (3, 10, [("1", false, Some 2)]);
     (4, 10, [("x", true, Some 51)]);
     (5, 6, [("]", false, None)]);
     (6, 4, [("b", false, Some 5); (": ", false, None); ("{ ... }", false, None)])])%string /\
  page (slen (measured 12 7)) [7] 1 0 doc =
    [mkStrip 1 1 0 [mark "{"] 1 0; mkStrip 2 2 4 [(Name, str "a"); mark ": "] 1 2; mkStrip 3 2 6 [mark "["] 1 0;
     mkStrip 4 4 10 [(Number, str "1")] 1 0; mkStrip 5 5 10 [(Text, str "x")] 1 0; mkStrip 3 2 6 [mark "]"] 1 0;
     mkStrip 6 6 4 [(Name, str "b"); mark ": "; mark "{ ... }"] 10 0;
     mkStrip 10 10 4 [(Name, str "c"); mark ": "; (Text, str "x")] 4 0; mkStrip 1 1 0 [mark "}"] 1 0].
Proof.
  split; [exists 5; split; [reflexivity|vm_compute; auto]|]. split; [eexists; split; [vm_compute; reflexivity|split; reflexivity]|].
  split; vm_compute; reflexivity.
Qed.

(** C68: documents that look the same are the same.  False without colours, since
    strings are shown without quotes: [1] and ["1"] look alike.  (And texts end at
    a NUL byte, with colours too.) *)
Theorem C68_refuted : exists a b sc v, in_memory a /\ in_memory b /\ roomy a sc /\ roomy b sc /\ on_row a v /\ on_row b v /\ erase a <> erase b /\
  painted a false sc v = painted b false sc v /\ painted a false sc v <> None.
Proof.
  exists (document 1 (TArr [num 1])), (document 1 (TArr [txt "1"])), (win 20 7), (set_sel view0 (Some 1)).
  split; [apply DocumentProofs.document_in_memory|]. split; [apply DocumentProofs.document_in_memory|].
  split; [apply roomy_win; [cbn; lia|vm_compute; reflexivity]|]. split; [apply roomy_win; [cbn; lia|vm_compute; reflexivity]|].
  split; [exists 1; split; [reflexivity|left; reflexivity]|]. split; [exists 1; split; [reflexivity|left; reflexivity]|].
  split; [discriminate|]. split; [vm_compute; reflexivity|vm_compute; discriminate].
Qed.
Print Assumptions C68_refuted.

(** With colours: documents shown whole, with nothing folded nor found, that look
    the same have the same structure, names and scalars up to NUL bytes and to the
    type of numbers. *)
Theorem C68_partial : forall a b sc v0 v w0 w, in_memory a -> in_memory b -> roomy a sc -> roomy b sc -> 2 <= sh sc < 2 ^ 32 ->
  on_row a v0 -> on_row b w0 -> 0 <= vscroll v0 -> 0 <= vscroll w0 ->
  redraw a sc v0 = Some (true, v) -> redraw b sc w0 = Some (true, w) ->
  vcoll v0 = [] -> vcoll w0 = [] -> vres v0 = [] -> vres w0 = [] -> vscroll v = 0 -> vscroll w = 0 ->
  total_lines (sw sc) (page (slen sc) [] (nid a) 0 a) < sh sc - 1 -> total_lines (sw sc) (page (slen sc) [] (nid b) 0 b) < sh sc - 1 ->
  painted a true sc v0 = painted b true sc w0 -> alike (erase a) (erase b).
Proof. exact LookProofs.tells_apart. Qed.
Print Assumptions C68_partial.

(** {"a": [1, {}], "b": true}, numbered from 1 and from 50. *)
Example C68_example : let t := TObj [(str "a", TArr [num 1; TObj []]); (str "b", TPrim (PBool true))] in let a := document 1 t in let b := document 50 t in
  let va := set_sel view0 (Some 4) in let vb := set_sel view0 (Some 53) in let sc := measured 20 12 in
  on_row a va /\ on_row b vb /\ (exists v, redraw a sc va = Some (true, v) /\ vscroll v = 0) /\ (exists w, redraw b sc vb = Some (true, w) /\ vscroll w = 0) /\
  total_lines 20 (page (slen sc) [] 1 0 a) = 9 /\ total_lines 20 (page (slen sc) [] 50 0 b) = 9 /\
  painted a true sc va = painted b true sc vb /\ painted a true sc va = Some (drawn
    [(1, 0, [("{", false, None)]);
     (2, 4, [("a", false, Some 5); (": ", false, None)]);
     (3, 6, [("[", false, None)]);
     (4, 10, [("1", true, Some 2)]);
     (5, 10, [("{", false, None)]);
     (6, 10, [("}", false, None)]);
     (7, 6, [("]", false, None)]);
     (8, 4, [("b", false, Some 5); (": ", false, None); ("true", false, Some 3)]);
     (9, 0, [("}", false, None)])])%string.
Proof.
  split; [exists 4; split; [reflexivity|vm_compute; auto]|]. split; [exists 53; split; [reflexivity|vm_compute; auto]|].
  split; [eexists; split; [vm_compute; reflexivity|reflexivity]|]. split; [eexists; split; [vm_compute; reflexivity|reflexivity]|].
  repeat split; vm_compute; reflexivity.
Qed.

(** Colours on the terminal: C95; C68 again. *)
From Verif Require Import Spec.ColoursSpec Spec.SplitPage Properties.View Properties.Screen Properties.Split Properties.Compare Properties.Level Properties.Both.
From Verif Require Proofs.ColoursProofs Proofs.DocumentProofs.
From Coq Require Import Lia.
Open Scope Z_scope.

(** C95: what was found can be told from what was not.  False without colours
    (--color=never): the same screen whether the string was found or not. *)
Theorem C95_refuted : exists root sc v0 w0 v w, in_memory root /\ roomy root sc /\ on_row root v0 /\ on_row root w0 /\
  redraw root sc v0 = Some (true, v) /\ redraw root sc w0 = Some (true, w) /\ vres v = [2] /\ vres w = [] /\ In 2 (rows (vcoll v) root) /\
  option_map (see_all false) (painted root false sc v0) = option_map (see_all false) (painted root false sc w0) /\
  painted root false sc v0 <> None.
Proof.
  pose (a := document 1 (TArr [txt "x"])). pose (v0 := mkView (Some 1) 0 [] [2] None None false []). pose (w0 := mkView (Some 1) 0 [] [] None None false []).
  exists a, (win 20 7), v0, w0, (match redraw a (win 20 7) v0 with Some (_, v) => v | None => v0 end), (match redraw a (win 20 7) w0 with Some (_, w) => w | None => w0 end).
  split; [apply DocumentProofs.document_in_memory|]. split; [apply roomy_win; [cbn; lia|vm_compute; reflexivity]|].
  split; [exists 1; split; [reflexivity|left; reflexivity]|]. split; [exists 1; split; [reflexivity|left; reflexivity]|].
  split; [vm_compute; reflexivity|]. split; [vm_compute; reflexivity|]. split; [vm_compute; reflexivity|]. split; [vm_compute; reflexivity|].
  split; [vm_compute; auto|]. split; [vm_compute; reflexivity|vm_compute; discriminate].
Qed.
Print Assumptions C95_refuted.

(** Nor can it ever be without colours: screens of the same document that differ in
    what was found only are the same. *)
Theorem C95_never : forall root sc v0 w0 v w, in_memory root -> roomy root sc -> 2 <= sh sc < 2 ^ 32 ->
  on_row root v0 -> on_row root w0 -> 0 <= vscroll v0 -> 0 <= vscroll w0 -> redraw root sc v0 = Some (true, v) -> redraw root sc w0 = Some (true, w) ->
  vcoll v = vcoll w -> vsel v = vsel w -> vscroll v = vscroll w ->
  option_map (see_all false) (painted root false sc v0) = option_map (see_all false) (painted root false sc w0).
Proof. exact ColoursProofs.plain_screen. Qed.
Print Assumptions C95_never.

(** With colours: every text on screen has the look of what was found if its
    element was found, and another if not. *)
Theorem C95_partial : forall root sc v0 v, in_memory root -> roomy root sc -> 2 <= sh sc < 2 ^ 32 -> on_row root v0 -> 0 <= vscroll v0 ->
  redraw root sc v0 = Some (true, v) ->
  exists cells above shown below, painted root true sc v0 = Some cells /\
    page (slen sc) (vcoll v) (nid root) 0 root = above ++ shown ++ below /\ Z.of_nat (length above) = vscroll v /\
    Forall2 (looks_right (vsel v) (vres v)) (stacked (sw sc) 1 shown) (see_all true cells).
Proof. exact ColoursProofs.right_screen. Qed.
Print Assumptions C95_partial.

(** And in both windows of a comparison, for what was found in the active one. *)
Theorem C95_windows_partial : forall f a b m len sc p w x, comparable a b m len f -> roomy_windows sc -> slen sc = len -> compares a b m sc p -> In w (pwins p) -> active p = Some x ->
  exists drawn rest, half_page len (pcoll p) (nid (wroot w)) 2 (wroot w) = map snd drawn ++ rest /\
    Forall2 (looks_right (wsel w) (wres x)) (map (fun q => (fst q - wscroll w, snd q)) (filter (fun q => wscroll w <? fst q) drawn))
      (see_all true (cells_of (split_memory a b) (active_res p) true w)).
Proof.
  intros f a b m len sc p w x OK R L C I A. destruct (C70_results f a b m len sc p w x true OK R L C I A) as (drawn & rest & P & S).
  exists drawn, rest. split; [exact P|]. rewrite S. rewrite <- (map_map (fun q => (fst q - wscroll w, snd q)) (shown_as true (wsel w) (wres x))). apply ColoursProofs.all_right.
Qed.
Print Assumptions C95_windows_partial.

(** The state of [C70_results_example], from the fourth line on. *)
Example C95_windows_example :
  match texts_of (hello 1 "hello") (hello 21 "hallo") looking with
  | Some (_, _, [l; r]) => see_all true (filter (fun c => 3 <? cline c) l) =
                             [(4, 10, [mkSeen (str "1") false (Some (Green, Black))]); (5, 10, [mkSeen (str "hello") true (Some (Cyan, Black))]); (6, 6, [mkSeen (str "]") false None])] /\
                           see_all true (filter (fun c => 3 <? cline c) r) =
                             [(4, 10, [mkSeen (str "1") false (Some (Green, Black))]); (5, 10, [mkSeen (str "hallo") true (Some (White, Blue))]); (6, 6, [mkSeen (str "]") false None])]
  | _ => False
  end.
Proof. vm_compute. split; reflexivity. Qed.

(** With colours or not, text never has the colour of its background. *)
Theorem C95_legible : forall root sc colours v0 v cells, in_memory root -> roomy root sc -> 2 <= sh sc < 2 ^ 32 -> on_row root v0 -> 0 <= vscroll v0 ->
  redraw root sc v0 = Some (true, v) -> painted root colours sc v0 = Some cells ->
  Forall (fun c => Forall legible (snd c)) (see_all colours cells).
Proof. exact ColoursProofs.legible_screen. Qed.
Print Assumptions C95_legible.

(** The screen of [C67_example]. *)
Example C95_example : let v0 := mkView (Some 5) 1 [7] [5] None None false [] in
  on_row doc v0 /\ (exists v, redraw doc (measured 12 7) v0 = Some (true, v) /\ vres v = [5]) /\
  option_map (see_all true) (painted doc true (measured 12 7) v0) = Some
    [(1, 4, [mkSeen (str "a") false (Some (Cyan, Black)); mkSeen (str ": ") false None]);
     (2, 6, [mkSeen (str "[") false None]);
     (3, 10, [mkSeen (str "1") false (Some (Green, Black))]);
     (4, 10, [mkSeen (str "x") true (Some (White, Blue))]);
     (5, 6, [mkSeen (str "]") false None]);
     (6, 4, [mkSeen (str "b") false (Some (Cyan, Black)); mkSeen (str ": ") false None; mkSeen (str "{ ... }") false None])].
Proof.
  split; [exists 5; split; [reflexivity|vm_compute; auto]|]. split; [eexists; split; [vm_compute; reflexivity|reflexivity]|]. vm_compute. reflexivity.
Qed.

(** C68_partial, for what the terminal shows: names are as cyan as strings, null as
    red as true, and still documents that look the same are the same. *)
Theorem C68_seen_partial : forall a b sc v0 v w0 w, in_memory a -> in_memory b -> roomy a sc -> roomy b sc -> 2 <= sh sc < 2 ^ 32 ->
  on_row a v0 -> on_row b w0 -> 0 <= vscroll v0 -> 0 <= vscroll w0 ->
  redraw a sc v0 = Some (true, v) -> redraw b sc w0 = Some (true, w) ->
  vcoll v0 = [] -> vcoll w0 = [] -> vres v0 = [] -> vres w0 = [] -> vscroll v = 0 -> vscroll w = 0 ->
  total_lines (sw sc) (page (slen sc) [] (nid a) 0 a) < sh sc - 1 -> total_lines (sw sc) (page (slen sc) [] (nid b) 0 b) < sh sc - 1 ->
  option_map (see_all true) (painted a true sc v0) = option_map (see_all true) (painted b true sc w0) -> alike (erase a) (erase b).
Proof. exact ColoursProofs.seen_apart. Qed.
Print Assumptions C68_seen_partial.

(** The documents of [C68_example]. *)
Example C68_seen_example : let t := TObj [(str "a", TArr [num 1; TObj []]); (str "b", TPrim (PBool true))] in let a := document 1 t in let b := document 50 t in
  let va := set_sel view0 (Some 4) in let vb := set_sel view0 (Some 53) in let sc := measured 20 12 in
  on_row a va /\ on_row b vb /\
  option_map (see_all true) (painted a true sc va) = option_map (see_all true) (painted b true sc vb) /\ option_map (@length _) (painted a true sc va) = Some 9%nat.
Proof.
  split; [exists 4; split; [reflexivity|vm_compute; auto]|]. split; [exists 53; split; [reflexivity|vm_compute; auto]|]. split; vm_compute; reflexivity.
Qed.

(** What the terminal shows of the view of one document: C76. *)
From Verif Require Import Model.Terminal Spec.CellSpec Spec.PageSpec.
From Verif Require Proofs.CellProofs Proofs.DocumentProofs.
From Verif Require Import Properties.View Properties.Screen.
From Coq Require Import Lia.
Open Scope Z_scope.

(** C76, full statement: [forall root sc name colours v0 v ps, in_memory root ->
    roomy root sc -> sw sc < 2 ^ 31 -> 2 <= sh sc < 2 ^ 32 -> on_row root v0 -> 0 <=
    vscroll v0 -> readable root sc -> redraw root sc v0 = Some (true, v) -> painted
    root colours sc v0 = Some ps -> screen_right root sc name v ps (last_cell_right
    (sw sc) (sh sc))].  False of texts that begin beyond the right edge of the screen
    (C76_refuted) and of the last cell (C76_last_refuted).  Proved when every text
    begins on the screen: all of the screen, the last cell when no text goes beyond
    it. *)
Theorem C76_partial : forall root sc name colours v0 v, in_memory root -> roomy root sc -> sw sc < 2 ^ 31 -> 2 <= sh sc < 2 ^ 32 -> on_row root v0 -> 0 <= vscroll v0 ->
  readable root sc -> Forall (fun s => column s < sw sc) (page (slen sc) (vcoll v0) (nid root) 0 root) ->
  redraw root sc v0 = Some (true, v) ->
  exists ps, painted root colours sc v0 = Some ps /\ screen_right root sc name v ps (fun _ _ => True).
Proof. exact CellProofs.screen_cells. Qed.
Print Assumptions C76_partial.

Theorem C76_waiting_partial : forall rx root sc evs sc' v stop name colours, in_memory root -> roomy root sc -> wide evs -> unsearched evs ->
  run rx root sc view0 evs = Waiting sc' v stop -> sw sc' < 2 ^ 31 -> 2 <= sh sc' < 2 ^ 32 ->
  readable root sc' -> Forall (fun s => column s < sw sc') (page (slen sc') (vcoll v) (nid root) 0 root) ->
  exists v0 ps, redraw root sc' v0 = Some (true, v) /\ painted root colours sc' v0 = Some ps /\ screen_right root sc' name v ps (fun _ _ => True).
Proof. exact CellProofs.waiting_cells. Qed.
Print Assumptions C76_waiting_partial.

(** The lines of the terminal. *)
Definition screen_lines (w h : Z) (t : term) : list bytes :=
  map (fun y => map (fun x => tcell t (Z.of_nat y * w + Z.of_nat x)) (seq 0 (Z.to_nat w))) (seq 0 (Z.to_nat h)).
Definition on_screen (root : node) (sc : screen) (name : string) (v : view) : option (list bytes) :=
  option_map (fun ps => screen_lines (sw sc) (sh sc) (terminal (str name) (sw sc) (sh sc) ps)) (painted root true sc v).
(** Widths, cut off far beyond the texts used. *)
Definition width (e : elem) : Z := Z.min (Z.of_nat (length (etext e))) 1000.
Definition paper (w h : Z) : screen := mkScreen w h width.

(** {"a": [1, "some text"], "b": {}} in 12 columns. *)
Definition small : node := document 1 (TObj [(str "a", TArr [num 1; txt "some text"]); (str "b", TObj [])]).
Ltac readable_doc :=
  let e := fresh in let I := fresh in
  intros e I; vm_compute in I; repeat (destruct I as [<-|I]; [split; [repeat constructor; vm_compute; congruence|vm_compute; reflexivity]|]); destruct I.
Example C76_example : let v0 := set_sel view0 (Some 1) in
  in_memory small /\ roomy small (paper 12 10) /\ on_row small v0 /\ readable small (paper 12 10) /\
  Forall (fun s => column s < 12) (page width [] (nid small) 0 small) /\
  (exists v, redraw small (paper 12 10) v0 = Some (true, v)) /\
  on_screen small (paper 12 10) "a.json" v0 = Some (map str
    ["a.json      ";
     "{           ";
     "    a:      ";
     "      [     ";
     "          1 ";
     "          so";
     "me text     ";
     "      ]     ";
     "    b: { }  ";
     "}           "]%string).
Proof.
  split; [apply DocumentProofs.document_in_memory|].
  split; [split; [vm_compute; split; congruence|]; split; [intros e; unfold paper, width; cbn [slen]; lia|vm_compute; reflexivity]|].
  split; [exists 1; vm_compute; auto|]. split; [readable_doc|]. split; [vm_compute; repeat constructor|]. split; [eexists; vm_compute; reflexivity|]. vm_compute. reflexivity.
Qed.

(** [[["x"]]] in 10 columns: x belongs to column 12 of line 4 and is printed where
    the cursor was left, behind the third bracket. *)
Definition deep : node := document 1 (TArr [TArr [TArr [txt "x"]]]).
(** What is shown of a page from its beginning on. *)
Lemma prefix (w h : Z) (all above shown below : list strip) : all = above ++ shown ++ below -> Z.of_nat (length above) = 0 ->
  (below = [] \/ h <= total_lines w shown) -> exists k, shown = firstn k all /\ (k <= length all)%nat /\ (k = length all \/ h <= total_lines w (firstn k all)).
Proof.
  intros E L B. destruct above; [|cbn in L; lia]. cbn in E. subst all. exists (length shown). rewrite firstn_app, firstn_all, PeanoNat.Nat.sub_diag, app_nil_r.
  split; [reflexivity|]. rewrite app_length. split; [lia|]. destruct B as [->|B]; [left; cbn; lia|right; exact B].
Qed.
Ltac each_prefix E L B D :=
  let k := fresh "k" in let K := fresh "K" in let L' := fresh in let B' := fresh in
  destruct (prefix _ _ _ _ _ _ E L B) as (k & K & L' & B'); rewrite K in D; clear E L B K;
  match type of B' with k = ?n \/ _ => let n' := eval vm_compute in n in change n with n' in B', L' end;
  do 10 (try (destruct k as [|k])); try lia;
  try (exfalso; destruct B' as [B'|B']; [discriminate B'|vm_compute in B'; apply B'; reflexivity]).

Theorem C76_refuted : exists root sc name v0 v ps, in_memory root /\ roomy root sc /\ on_row root v0 /\ 0 <= vscroll v0 /\ readable root sc /\
  redraw root sc v0 = Some (true, v) /\ painted root true sc v0 = Some ps /\
  screen_lines (sw sc) (sh sc) (terminal name (sw sc) (sh sc) ps) = map str
    ["a         "; "[         "; "    [     "; "        [x"; "          "; "          "; "        ] "; "    ]     "; "]         "; "          "]%string /\
  ~ screen_right root sc name v ps (fun _ _ => True).
Proof.
  eexists deep, (paper 10 10), (str "a"), (set_sel view0 (Some 1)), _, _.
  split; [apply DocumentProofs.document_in_memory|].
  split; [split; [vm_compute; split; congruence|]; split; [intros e; unfold paper, width; cbn [slen]; lia|vm_compute; reflexivity]|].
  split; [exists 1; vm_compute; auto|]. split; [vm_compute; congruence|]. split; [readable_doc|].
  split; [vm_compute; reflexivity|]. split; [vm_compute; reflexivity|]. split; [vm_compute; reflexivity|].
  intros (above & shown & below & E & L & B & (_ & D & _) & _).
  each_prefix E L B D.
  all: specialize (D (4, mkStrip 4 4 12 [(Text, str "x")] 1 0) 52); assert (D' := D ltac:(vm_compute; auto 10) ltac:(vm_compute; split; congruence) ltac:(vm_compute; reflexivity) ltac:(left; vm_compute; congruence)); vm_compute in D'; discriminate D'.
Qed.
Print Assumptions C76_refuted.

(** {"abcdefgh": 1} in three lines of 10 columns: the name goes beyond the screen,
    and its last letter shown, f, is overwritten by what follows the name. *)
Definition cut : node := document 1 (TObj [(str "abcdefgh", num 1)]).
Theorem C76_last_refuted : exists root sc name v0 v ps, in_memory root /\ roomy root sc /\ on_row root v0 /\ 0 <= vscroll v0 /\ readable root sc /\
  Forall (fun s => column s < sw sc) (page (slen sc) (vcoll v0) (nid root) 0 root) /\
  redraw root sc v0 = Some (true, v) /\ painted root true sc v0 = Some ps /\
  screen_lines (sw sc) (sh sc) (terminal name (sw sc) (sh sc) ps) = map str
    ["a         "; "{         "; "    abcde1"]%string /\
  ~ screen_right root sc name v ps (last_cell_right (sw sc) (sh sc)).
Proof.
  eexists cut, (paper 10 3), (str "a"), (set_sel view0 (Some 1)), _, _.
  split; [apply DocumentProofs.document_in_memory|].
  split; [split; [vm_compute; split; congruence|]; split; [intros e; unfold paper, width; cbn [slen]; lia|vm_compute; reflexivity]|].
  split; [exists 1; vm_compute; auto|]. split; [vm_compute; congruence|]. split; [readable_doc|].
  split; [vm_compute; repeat constructor|].
  split; [vm_compute; reflexivity|]. split; [vm_compute; reflexivity|]. split; [vm_compute; reflexivity|].
  intros (above & shown & below & E & L & B & _ & D).
  each_prefix E L B D.
  all: specialize (D (2, mkStrip 2 2 4 [(Name, str "abcdefgh"); (Mark, str ": "); (Number, str "1")] 11 0)); assert (D' := D ltac:(vm_compute; auto 10) ltac:(vm_compute; split; congruence)); vm_compute in D'; discriminate D'.
Qed.
Print Assumptions C76_last_refuted.

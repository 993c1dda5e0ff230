(** C80: the windows of the comparison. *)
From Verif Require Import Spec.WindowSpec Proofs.WindowProofs.
Open Scope Z_scope.

(** [n] inputs on a terminal of [w] columns, at least three for each input, and [h]
    lines.  There is a pair of windows for each input, within the terminal; *)
Theorem C80_inside : forall n w h l b i o inn line col, 0 < n -> 3 * n <= w < 2 ^ 31 -> 3 <= h < 2 ^ 31 ->
  windows n w h = Some (l, b) -> nth_error l i = Some (o, inn) -> covers o line col -> 0 <= line < h /\ 0 <= col < w.
Proof. intros n w h l b i o inn line col N W H. exact (windows_inside n w h N W H l b i o inn line col). Qed.
Print Assumptions C80_inside.

Theorem C80_count : forall n w h, 0 < n -> 3 * n <= w < 2 ^ 31 -> 3 <= h < 2 ^ 31 ->
  exists l b, windows n w h = Some (l, b) /\ length l = Z.to_nat n.
Proof. intros n w h N W H. do 2 eexists. split; [exact (windows_is n w h N W H)|]. now rewrite map_length, seq_length. Qed.
Print Assumptions C80_count.

(** the inner one is what the frame of the outer one surrounds; *)
Theorem C80_framed : forall n w h l b i o inn line col, 0 < n -> 3 * n <= w < 2 ^ 31 -> 3 <= h < 2 ^ 31 ->
  windows n w h = Some (l, b) -> nth_error l i = Some (o, inn) ->
  (covers inn line col <-> covers o line col /\ ~ frame o line col).
Proof. intros n w h l b i o inn line col N W H. exact (windows_framed n w h N W H l b i o inn line col). Qed.
Print Assumptions C80_framed.

(** no inner window meets a window of another input; neighbours share one column,
    the right side of the one and the left side of the other; *)
Theorem C80_apart : forall n w h l b i j o inn o' inn' line col, 0 < n -> 3 * n <= w < 2 ^ 31 -> 3 <= h < 2 ^ 31 ->
  windows n w h = Some (l, b) -> nth_error l i = Some (o, inn) -> nth_error l j = Some (o', inn') -> i <> j ->
  covers inn line col -> ~ covers o' line col.
Proof. intros n w h l b i j o inn o' inn' line col N W H. exact (windows_apart n w h N W H l b i j o inn o' inn' line col). Qed.
Print Assumptions C80_apart.

Theorem C80_touch : forall n w h l b i o inn o' inn' line col, 0 < n -> 3 * n <= w < 2 ^ 31 -> 3 <= h < 2 ^ 31 ->
  windows n w h = Some (l, b) -> nth_error l i = Some (o, inn) -> nth_error l (S i) = Some (o', inn') ->
  (covers o line col /\ covers o' line col <-> 0 <= line < h /\ col = rleft o' /\ col = rleft o + rcols o - 1).
Proof. intros n w h l b i o inn o' inn' line col N W H. exact (windows_touch n w h N W H l b i o inn o' inn' line col). Qed.
Print Assumptions C80_touch.

(** the bottom line meets no inner window. *)
Theorem C80_bottom_partial : forall n w h l b i o inn line col, 0 < n -> 3 * n <= w < 2 ^ 31 -> 3 <= h < 2 ^ 31 ->
  windows n w h = Some (l, b) -> nth_error l i = Some (o, inn) -> covers b line col -> ~ covers inn line col.
Proof. intros n w h l b i o inn line col N W H. exact (windows_bottom n w h N W H l b i o inn line col). Qed.
Print Assumptions C80_bottom_partial.

(** After a change of size the windows are where a start at that size puts them. *)
Theorem C80_resized : forall n w h w' h' l b, 0 < n -> 3 * n <= w < 2 ^ 31 -> 3 <= h < 2 ^ 31 -> 3 * n <= w' < 2 ^ 31 -> 3 <= h' < 2 ^ 31 ->
  windows n w h = Some (l, b) -> resized n w' h' l = windows n w' h'.
Proof.
  intros n w h w' h' l b N W H W' H' E. apply (resized_same n w' h' N W' H'). exact (proj1 (window_count n w h N W H l b E)).
Qed.
Print Assumptions C80_resized.

(** Missing: the bottom line is not apart from the frames.  All of it but the last
    [w - n * (w / n - 1) - 1] columns is under their last lines, so that every redraw,
    which draws the frames (curseSplitOutput.cpp:438-439), hides what it said. *)
Theorem C80_hidden : forall n w h l b line col, 0 < n -> 3 * n <= w < 2 ^ 31 -> 3 <= h < 2 ^ 31 ->
  windows n w h = Some (l, b) -> covers b line col ->
  (col <= n * (w / n - 1) <-> exists i o inn, nth_error l i = Some (o, inn) /\ frame o line col).
Proof. intros n w h l b line col N W H. exact (windows_over n w h N W H l b line col). Qed.
Print Assumptions C80_hidden.

Theorem C80_bottom_refuted : exists n w h l b i o inn line col, windows n w h = Some (l, b) /\ nth_error l i = Some (o, inn) /\
  covers b line col /\ frame o line col.
Proof.
  exists 2, 80, 24. do 2 eexists. exists 0%nat. do 2 eexists. exists 23, 5. split; [vm_compute; reflexivity|]. split; [reflexivity|].
  unfold frame, covers. cbn [rtop rleft rlines rcols]. repeat split; try discriminate; try reflexivity. right. left. reflexivity.
Qed.
Print Assumptions C80_bottom_refuted.

(** Before all that, the constructor divides by a member nobody has assigned. *)
Theorem C80_refuted : exists junk w h, 0 <= junk < 2 ^ 16 /\ constructed junk w h = None.
Proof. exists 0, 80, 24. split; [split; [discriminate|reflexivity]|reflexivity]. Qed.
Print Assumptions C80_refuted.

Example C80_example : windows 2 81 24 =
  Some ([(mkRect 0 0 24 40, mkRect 1 1 22 38); (mkRect 0 39 24 40, mkRect 1 40 22 38)], mkRect 23 0 1 81) /\
  resized 2 81 24 [(mkRect 0 0 5 7, mkRect 1 1 3 5); (mkRect 0 6 5 7, mkRect 1 7 3 5)] = windows 2 81 24 /\
  2 * (81 / 2 - 1) = 78.
Proof. vm_compute. repeat split. Qed.

(** The windows, the screen and the file of the terminal: C99. *)
From Verif Require Import Spec.HandleSpec.
From Verif Require Proofs.HandleProofs.
From Coq Require Import Lia.

(** C99: whatever is drawn, asked and resized, and whichever windows cannot be made, no
    window, screen or file is used before it is there or after it is gone, and all are
    given back when the viewer is destroyed. *)
Theorem C99_given_back : forall made tty n l, given_back (comparison made tty n l).
Proof. exact HandleProofs.comparison_back. Qed.
Print Assumptions C99_given_back.

Theorem C99_viewer : forall tty l, given_back (viewer tty l).
Proof. exact HandleProofs.viewer_back. Qed.
Print Assumptions C99_viewer.

(** The same up to any call, for programs that end there. *)
Theorem C99_orderly : forall made tty n l k, orderly (firstn k (comparison made tty n l)).
Proof. intros made tty n l k. exact (HandleProofs.back_orderly _ k (HandleProofs.comparison_back made tty n l)). Qed.
Print Assumptions C99_orderly.

(** With a change of size that is noticed between two statements of shutdown(), after
    the first [j] of its 5: true for [j] of 0 and 1. *)
Theorem C99_partial : forall made tty n l j ws, j <= 1 -> given_back (comparison_signal made tty n l j ws).
Proof. exact HandleProofs.comparison_signal_back. Qed.
Print Assumptions C99_partial.

(** Later the handler resizes the bottom line, which is deleted but still pointed to. *)
Theorem C99_late : forall made tty n l j ws, made 0 = true -> 2 <= j <= 5 -> ~ orderly (comparison_signal made tty n l j ws).
Proof. exact HandleProofs.comparison_signal_late. Qed.
Print Assumptions C99_late.
Theorem C99_refuted : exists made tty n l j ws, j <= 5 /\ ~ orderly (comparison_signal made tty n l j ws).
Proof.
  exists (fun _ => true), false, 2, [Draw [0; 1]; Read], 2, [0; 1]. split; [lia|]. apply HandleProofs.comparison_signal_late; [reflexivity|lia].
Qed.
Print Assumptions C99_refuted.

(** The destructor's resize_term never finds a screen. *)
Theorem C99_screenless : forall made tty n l, exists c s, comparison made tty n l = c ++ [ResizeTerm] /\ goes nothing c s /\ ascreen s = false.
Proof. exact HandleProofs.comparison_screenless. Qed.
Print Assumptions C99_screenless.

(** The viewer of one document leaves the terminal in its normal mode, also when its
    size changes between two statements of shutdown(), except after endwin(): there
    the handler's refresh() enters curses mode again and nothing leaves it. *)
Theorem C99_mode : forall tty l, ~ visual (viewer tty l).
Proof. exact HandleProofs.viewer_mode. Qed.
Print Assumptions C99_mode.
Theorem C99_mode_partial : forall tty l j, j <> 1 -> j <= 3 -> ~ visual (viewer_signal tty l j).
Proof. exact HandleProofs.viewer_signal_mode. Qed.
Print Assumptions C99_mode_partial.
Theorem C99_mode_after_endwin : forall tty l, visual (viewer_signal tty l 1).
Proof. exact HandleProofs.viewer_signal_visual. Qed.
Print Assumptions C99_mode_after_endwin.
Theorem C99_mode_refuted : exists tty l j, j <= 3 /\ visual (viewer_signal tty l j).
Proof. exists false, [Draw []; Read], 1. split; [lia|]. apply HandleProofs.viewer_signal_visual. Qed.
Print Assumptions C99_mode_refuted.

(** The comparison touches no window after endwin(), also with a signal before it. *)
Theorem C99_comparison_mode : forall made tty n l, ~ visual_window (comparison made tty n l).
Proof. exact HandleProofs.comparison_mode. Qed.
Print Assumptions C99_comparison_mode.
Theorem C99_comparison_mode_partial : forall made tty n l j ws, j <= 2 -> ~ visual_window (comparison_signal made tty n l j ws).
Proof. exact HandleProofs.comparison_signal_mode. Qed.
Print Assumptions C99_comparison_mode_partial.
(** A comparison that is not ended is in curses mode; here it has drawn. *)
Example C99_comparison_mode_example : visual_window (firstn 26 (comparison (fun _ => true) false 2 [Draw [0]])).
Proof.
  eexists (firstn 25 (comparison (fun _ => true) false 2 [Draw [0]])), _, []. split; [vm_compute; reflexivity|]. vm_compute. intuition discriminate.
Qed.

(** Two inputs, stdin not a terminal, no memory for the inner window of the second
    (window 4); the documents are drawn and a key is read. *)
Definition no4 (k : nat) : bool := negb (k =? 4).
Example C99_example : comparison no4 true 2 [Draw [0; 1]; Read] =
  [Fopen; OnFile; OnFile; Newterm; OnScreen; OnScreen; OnScreen; Newwin 0;
   OnScreen; Newwin 1; OnScreen; Newwin 2; OnWin 1; OnWin 1; OnWin 1;
   OnScreen; Newwin 3; OnScreen; OnWin 3; OnWin 3; OnWin 3;
   OnWin 1; OnWin 1; OnWin 2; OnWin 2; OnWin 3; OnWin 3; OnWin 2; OnWin 2; OnWin 1;
   OnWin 1; OnWin 1; Delwin 1; Delwin 2; OnWin 3; OnWin 3; Delwin 3; Delwin 0; Endwin; Delscreen; Fclose; ResizeTerm] /\
  ~ orderly [Newterm; Newwin 0; Delwin 0; OnWin 0] /\ ~ orderly [Newterm; Newwin 0; Delwin 0; Delwin 0] /\ ~ given_back [Newterm; Newwin 0; Endwin; Delscreen] /\
  viewer true [Draw []; Read; Resize []] = 
    [Fopen; OnFile; OnFile; Newterm; OnScreen; OnScreen; Refresh; OnScreen; OnFile; ResizeTerm; OnScreen; Refresh; Endwin; Delscreen; Fclose; ResizeTerm] /\
  visual (firstn 8 (viewer true [Draw []; Read])) /\
  viewer_signal true [Draw []] 1 = [Fopen; OnFile; OnFile; Newterm; OnScreen; OnScreen; Refresh; Endwin; OnFile; ResizeTerm; OnScreen; Refresh; Delscreen; Fclose; ResizeTerm].
Proof.
  split; [vm_compute; reflexivity|]. split; [|split; [|split; [|split]]].
  - apply (HandleProofs.deleted_used [Newterm; Newwin 0] 0 [] []).
  - intros [s G]. repeat match goal with H : goes _ (_ :: _) _ |- _ => inversion H; clear H; subst | M : may _ _ _ |- _ => inversion M; clear M; subst end.
    match goal with K : In 0 ?w, E : forall x, In x ?w <-> _ |- _ => apply E in K; destruct K as [_ K]; apply K; reflexivity end.
  - intros [e G]. repeat match goal with H : goes _ (_ :: _) _ |- _ => inversion H; clear H; subst | M : may _ _ _ |- _ => inversion M; clear M; subst end.
  - vm_compute. reflexivity.
  - split; [|vm_compute; reflexivity]. exists [Fopen; OnFile; OnFile; Newterm; OnScreen; OnScreen], [OnScreen]. cbn. intuition discriminate.
Qed.

(** The windows, the screen and the file of the terminal during a comparison:
    src/curseSplitOutput.cpp, src/curseOutput.cpp. *)
From Coq Require Export List Arith.
Export ListNotations.

(** Calls of curses and stdio, by what they act on.  [Newterm], [Endwin], [Delscreen]:
    the screen; [Refresh]: refresh(); [OnScreen]: any other call on stdscr or the screen; [Newwin k]: a window
    is made, [OnWin k]: any call that is given it, [Delwin k]; [Fopen], [OnFile],
    [Fclose]: /dev/tty; [ResizeTerm]: resize_term, which returns ERR without a screen;
    [Stray]: a call that is given a pointer nobody has set. *)
Inductive call : Type := Newterm | OnScreen | Refresh | ResizeTerm | Endwin | Delscreen | Newwin (k : nat) | OnWin (k : nat) | Delwin (k : nat) | Fopen | OnFile | Fclose | Stray.

(** A WINDOW * of the object: not set, nullptr, or a window (which may be deleted). *)
Inductive ptr : Type := Unset | Null | Win (k : nat).

(** curseSplitOutput.hh:17 (outerWin, innerWin of each subWindow), bottomLine,
    screen_fd (whether it is not nullptr); [hnext]: windows asked for so far. *)
Record held : Type := mkHeld { hsubs : list (ptr * ptr); hbottom : ptr; hfile : bool; hnext : nat }.

(** A call that is given the pointer, as in curseSplitOutput.cpp:413-421; curses does
    nothing to nullptr (ERR). *)
Definition on (p : ptr) : list call := match p with Unset => [Stray] | Null => [] | Win k => [OnWin k] end.
(** delwin: curseSplitOutput.cpp:815, 820 and 851 *)
Definition del (p : ptr) : list call := match p with Unset => [Stray] | Null => [] | Win k => [Delwin k] end.

Section Handles.
  (** Whether newwin finds memory for the window asked for (nullptr otherwise). *)
  Variable made : nat -> bool.

  (** newwin: curseSplitOutput.cpp:50, 62 and 63; its value and the call *)
  Definition newwin (next : nat) : ptr := if made next then Win next else Null.
  (** curseSplitOutput.cpp:50, 62 and 63 *)
  Definition newwin_call (next : nat) : list call := OnScreen :: (if made next then [Newwin next] else []).

  (** curseSplitOutput.cpp:26-31 and curseOutput.cpp:287-339.  [tty]: stdin or stdout is
      not a terminal (and /dev/tty can be opened).  bottomLine is not set. *)
  Definition constructor (tty : bool) : list call * held :=
    ((if tty then [Fopen; OnFile; OnFile] else []) ++ [Newterm; OnScreen], mkHeld [] Unset tty 0).

  (** curseSplitOutput.cpp:807-824: the frame is wiped before its window is deleted,
      and both pointers are set to nullptr. *)
  Definition destroyAllSubWin (h : held) : list call * held :=
    (flat_map (fun w => on (fst w) ++ on (fst w) ++ del (fst w) ++ del (snd w)) (hsubs h),
     mkHeld (map (fun _ => (Null, Null)) (hsubs h)) (hbottom h) (hfile h) (hnext h)).

  (** curseSplitOutput.cpp:53-68, one round of the loop *)
  Definition open_one (h : held) : list call * held :=
    let o := newwin (hnext h) in
    let i := newwin (S (hnext h)) in
    (newwin_call (hnext h) ++ newwin_call (S (hnext h)) ++ on o ++ on o ++ on o, mkHeld (hsubs h ++ [(o, i)]) (hbottom h) (hfile h) (S (S (hnext h)))).
  (** curseSplitOutput.cpp:52-68 for [n] inputs *)
  Fixpoint open_all (n : nat) (h : held) : list call * held :=
    match n with
    | O => ([], h)
    | S n => let '(l, h) := open_one h in let '(l', h) := open_all n h in (l ++ l', h)
    end.

  (** curseSplitOutput.cpp:43-68 *)
  Definition open_run (n : nat) (h : held) : list call * held :=
    let '(l, h) := destroyAllSubWin h in
    let h := mkHeld [] (newwin (hnext h)) (hfile h) (S (hnext h)) in
    let '(l', h') := open_all n h in
    (l ++ [OnScreen] ++ newwin_call (pred (hnext h)) ++ l', h').

  (** What happens until the loop ends, in any order.  [Draw ws]: redraw() (426-518),
      which writes to the inner windows of [ws] in turn; [Read]: wgetch (71);
      [Ask k]: the prompt of a search with [k] keys (curseOutput.cpp:204-243); [Say]: a
      message (curseOutput.cpp:158-165); [Resize]: SIGWINCH (curseOutput.cpp:63-69). *)
  Inductive act : Type := Draw (ws : list nat) | Read | Ask (k : nat) | Say | Resize (ws : list nat).

  (** subWindows.at(0).outerWin (curseSplitOutput.cpp:71 and 201) *)
  Definition first_outer (h : held) : ptr := match hsubs h with w :: _ => fst w | [] => Null end.
  (** subWindows.at(workingWin).innerWin (curseSplitOutput.cpp:717, 777, 790 and 830) *)
  Definition inner (h : held) (i : nat) : ptr := match nth_error (hsubs h) i with Some w => snd w | None => Null end.

  (** curseSplitOutput.cpp:426-518 *)
  Definition draw (h : held) (ws : list nat) : list call :=
    flat_map (fun w => on (fst w) ++ on (fst w) ++ on (snd w) ++ on (snd w)) (hsubs h)
      ++ flat_map (fun i => on (inner h i)) ws ++ flat_map (fun w => on (snd w)) (hsubs h).
  (** curseSplitOutput.cpp:552-580: in bottomLine, and the size of stdscr *)
  Definition bottom (h : held) : list call := OnScreen :: on (hbottom h).
  (** curseOutput.cpp:64-67 and curseSplitOutput.cpp:406-424; the size is asked of
      /dev/tty if it is open, of stdout otherwise. *)
  Definition resize (h : held) : list call :=
    (if hfile h then [OnFile] else []) ++ [ResizeTerm; OnScreen] ++ on (hbottom h) ++ on (hbottom h)
      ++ flat_map (fun w => on (fst w) ++ on (snd w) ++ on (fst w) ++ on (snd w) ++ on (fst w) ++ on (fst w)) (hsubs h).
  (** The calls of each; the lines as for [act]: curseOutput.cpp:63-69, 158-165 and
      204-243, inputSequence.cpp:20 *)
  Definition acts1 (h : held) (a : act) : list call :=
    match a with
    | Draw ws => draw h ws
    | Read => on (first_outer h)
    | Ask k => OnScreen :: on (first_outer h) ++ flat_map (fun _ => bottom h ++ on (first_outer h)) (seq 0 k) ++ on (first_outer h) ++ [OnScreen]
    | Say => bottom h
    | Resize ws => resize h ++ draw h ws
    end.
  (** curseOutput.cpp:39-49: the loop *)
  Definition acts (h : held) (l : list act) : list call := flat_map (acts1 h) l.

  (** curseSplitOutput.cpp:848-860, statement by statement.  bottomLine keeps its value. *)
  Definition statement (j : nat) (h : held) : list call * held :=
    match j with
    | 0 => destroyAllSubWin h
    | 1 => (del (hbottom h), h)
    | 2 => ([Endwin], h)
    | 3 => ([Delscreen], h)
    | _ => (if hfile h then [Fclose] else [], mkHeld (hsubs h) (hbottom h) false (hnext h))
    end.
  (** Some of them in turn: curseSplitOutput.cpp:848-860 *)
  Fixpoint statements (js : list nat) (h : held) : list call * held :=
    match js with
    | [] => ([], h)
    | j :: js => let '(l, h) := statement j h in let '(l', h) := statements js h in (l ++ l', h)
    end.

  (** curseSplitOutput.cpp:33-41 and curseOutput.cpp:30-37: after shutdown() the size is
      asked of stdout, as screen_fd is nullptr. *)
  Definition destructor (h : held) : list call := fst (statements (seq 0 5) h) ++ [ResizeTerm].
  (** The same when the handler of SIGWINCH runs after [j] statements of shutdown();
      the object is still [runningInst]. *)
  Definition destructor_signal (j : nat) (ws : list nat) (h : held) : list call :=
    let '(l, h) := statements (seq 0 j) h in l ++ acts1 h (Resize ws) ++ fst (statements (seq j (5 - j)) h) ++ [ResizeTerm].

  (** main.cpp:158-160 with [n] inputs; an exception nobody catches ends it before the
      destructor. *)
  Definition opened (tty : bool) (n : nat) : list call * held :=
    let '(l, h) := constructor tty in let '(l', h) := open_run n h in (l ++ l', h).
  (** main.cpp:158-160 *)
  Definition comparison (tty : bool) (n : nat) (l : list act) : list call :=
    let '(c, h) := opened tty n in c ++ acts h l ++ destructor h.
  (** main.cpp:158-160 with the signal *)
  Definition comparison_signal (tty : bool) (n : nat) (l : list act) (j : nat) (ws : list nat) : list call :=
    let '(c, h) := opened tty n in c ++ acts h l ++ destructor_signal j ws h.
End Handles.

(** The viewer of one document after another (main.cpp:190-205) draws on stdscr only:
    curseSimpleOutput.cpp:17-33, 35-76 and 526-536, curseOutput.cpp:63-69, 245-285. *)
Definition viewer1 (tty : bool) (a : act) : list call :=
  match a with
  | Draw _ => [OnScreen; Refresh]
  | Read => [OnScreen]
  | Ask k => OnScreen :: flat_map (fun _ => [OnScreen; Refresh; OnScreen]) (seq 0 k) ++ [OnScreen]
  | Say => [OnScreen; Refresh]
  | Resize _ => (if tty then [OnFile] else []) ++ [ResizeTerm; OnScreen; Refresh]
  end.
(** curseSimpleOutput.cpp:526-536, statement by statement *)
Definition viewer_shutdown (tty : bool) : list (list call) := [[Endwin]; [Delscreen]; if tty then [Fclose] else []].
(** main.cpp:193-202 *)
Definition viewer_shows (tty : bool) (l : list act) : list call := fst (constructor tty) ++ flat_map (viewer1 tty) l.
(** main.cpp:193-205; curseOutput.cpp:30-37 *)
Definition viewer (tty : bool) (l : list act) : list call := viewer_shows tty l ++ concat (viewer_shutdown tty) ++ [ResizeTerm].
(** The same when the handler of SIGWINCH (curseOutput.cpp:63-69) runs after [j]
    statements of shutdown() (curseSimpleOutput.cpp:526-536). *)
Definition viewer_signal (tty : bool) (l : list act) (j : nat) : list call :=
  viewer_shows tty l ++ concat (firstn j (viewer_shutdown tty)) ++ viewer1 (tty && (j <? 3))%bool (Resize []) ++ concat (skipn j (viewer_shutdown tty)) ++ [ResizeTerm].

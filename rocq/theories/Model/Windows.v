(** Where the windows of the comparison are on the terminal:
    src/curseSplitOutput.cpp. *)
From Coq Require Export ZArith List.
Export ListNotations.
Open Scope Z_scope.

(** A curses window: first line, first column, lines, columns (the arguments of
    newwin, curseSplitOutput.cpp:51, 62-63). *)
Record rect : Type := mkRect { rtop : Z; rleft : Z; rlines : Z; rcols : Z }.

(** unsigned int *)
Definition u32 (x : Z) : Z := x mod 2 ^ 32.

(** curseSplitOutput.cpp:842-846 (getScreenSize); [w] and [h] are the size of the
    terminal, [n] is nbInputs (an unsigned short).  [None]: division by zero. *)
Definition getScreenSize (n w h : Z) : option (Z * Z) :=
  if n =? 0 then None else Some (w / n, u32 (h - 2)).

(** curseOutput.cpp:306, called by the constructor (curseSplitOutput.cpp:26-30)
    before run assigns nbInputs (45): [junk] is what the member holds by chance. *)
Definition constructed (junk w h : Z) : option (Z * Z) := getScreenSize (junk mod 2 ^ 16) w h.

(** curseSplitOutput.cpp:62-63 and 417-420: outerWin and innerWin of input [i]
    (a size_t; [ss] is screenSize). *)
Definition outerWin (ss : Z * Z) (i : Z) : rect := mkRect 0 (i * u32 (fst ss - 1)) (u32 (snd ss + 2)) (fst ss).
Definition innerWin (ss : Z * Z) (i : Z) : rect := mkRect 1 (i * u32 (fst ss - 1) + 1) (snd ss) (u32 (fst ss - 2)).
(** curseSplitOutput.cpp:51 and 411-412 *)
Definition bottomWin (w h : Z) : rect := mkRect (u32 (h - 1)) 0 1 w.

(** curseSplitOutput.cpp:43-70 (run): nbInputs is [n]. *)
Definition windows (n w h : Z) : option (list (rect * rect) * rect) :=
  match getScreenSize n w h with
  | None => None
  | Some ss => Some (map (fun i => (outerWin ss (Z.of_nat i), innerWin ss (Z.of_nat i))) (seq 0 (Z.to_nat n)), bottomWin w h)
  end.

(** curseOutput.cpp:63-68 and curseSplitOutput.cpp:406-424 (onResizeHandler): the
    windows there are get the places of the new size. *)
Definition resized (n w h : Z) (l : list (rect * rect)) : option (list (rect * rect) * rect) :=
  match getScreenSize n w h with
  | None => None
  | Some ss =>
      Some ((fix go (i : Z) (l : list (rect * rect)) :=
               match l with
               | [] => []
               | _ :: t => (outerWin ss i, innerWin ss i) :: go (i + 1) t
               end) 0 l, bottomWin w h)
  end.

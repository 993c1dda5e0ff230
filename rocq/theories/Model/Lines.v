(** The line at the top with the name of the document and the line at the bottom
    with messages and the search prompt. *)
From Verif Require Export Model.SimpleView Model.SplitView.
Open Scope Z_scope.

(** * What is printed *)

(** [screenSize.first - bufsize]: an unsigned int less a size_t is a size_t; the
    [*] of the format reads an int, its low 32 bits (curseOutput.cpp:254, 266,
    280; curseSplitOutput.cpp:559, 573, 837). *)
Definition int_arg (x : Z) : Z := (x + 2 ^ 31) mod 2 ^ 32 - 2 ^ 31.
(** What "%*c" prints for a blank: at least one character; a negative width puts
    the padding behind the character (C standard, fprintf; used at the same
    lines). *)
Definition star_c (w : Z) : bytes := repeat " "%char (Z.to_nat (Z.max 1 (Z.abs w))).

(** curseOutput.cpp:247-257 (writeTopLine); [w] is screenSize.first. *)
Definition top_text (w : Z) (name : bytes) : bytes :=
  let s := firstn (Z.to_nat w) name in
  s ++ star_c (int_arg (w - Z.of_nat (length s))).
(** curseSplitOutput.cpp:826-840 (writeTopLine), for 2 <= [w]. *)
Definition split_top_text (w : Z) (name : bytes) : bytes :=
  let s := firstn (Z.to_nat (w - 2)) name in
  if Z.of_nat (length s) =? w - 2 then s
  else s ++ star_c (int_arg (w - Z.of_nat (length s) - 2)).
(** curseOutput.cpp:259-285 and curseSplitOutput.cpp:552-578 (writeBottomLine, for
    a string and for a wide string); [w] is the width of the terminal. *)
Definition bottom_text (w : Z) (text : bytes) : bytes :=
  text ++ star_c (int_arg (w - Z.of_nat (length text))).

(** mvprintw and mvwprintw (curseOutput.cpp:254, 266, 280; curseSplitOutput.cpp:559,
    573, 834, 837) in a window of [w] columns and [h] lines, from column 0 of line
    [y]: the text goes on at the next line and is lost below the last one.
    Simplification: every character takes one column, none is a control
    character. *)
Definition cells : Type := Z -> Z -> ascii.
Definition mvprint (w h y : Z) (text : bytes) (g : cells) : cells :=
  fun line col =>
    if (y <=? line) && (line <? h) && (0 <=? col) && (col <? w)
    then nth (Z.to_nat ((line - y) * w + col)) text (g line col)
    else g line col.

(** curseOutput.cpp:247-257 and 259-285: the window is the terminal; [w] and [h]
    are its size. *)
Definition writeTopLine (w h : Z) (name : bytes) : cells -> cells := mvprint w h 0 (top_text w name).
Definition writeBottomLine (w h : Z) (text : bytes) : cells -> cells := mvprint w h (h - 1) (bottom_text w text).
(** curseSplitOutput.cpp:826-840: the window is innerWin, screenSize.second lines
    of screenSize.first - 2 columns (63, 417). *)
Definition split_writeTopLine (w h : Z) (name : bytes) : cells -> cells := mvprint (w - 2) h 0 (split_top_text w name).
(** curseSplitOutput.cpp:552-578: the window is bottomLine, one line (51, 412). *)
Definition split_writeBottomLine (w : Z) (text : bytes) : cells -> cells := mvprint w 1 0 (bottom_text w text).

(** * What the bottom line says *)

(** Nothing; a message; or '/' and what was typed at the prompt
    (curseOutput.cpp:217). *)
Inductive bottom : Type := Blank | Says (t : bytes) | Typed.
(** curseSimpleOutput.cpp:181, curseSplitOutput.cpp:217 *)
Definition not_found : bytes := str "Pattern not found".
(** curseSimpleOutput.cpp:496, curseSplitOutput.cpp:354 *)
Definition hit_bottom : bytes := str "Search hit BOTTOM, continuing at TOP".

Section Simple.
  Variable (rx : bytes -> bool -> bytes -> bool) (root : node).

  (** curseSimpleOutput.cpp:178-185 (nextResult), 487-501 (jumpToNextSearch),
      curseOutput.cpp:158-164 (redraw with a message). *)
  Definition next_line (v : view) (b : bottom) : bottom :=
    match vres v with
    | [] => Says not_found
    | _ => match snd (jump (vres v) (vsel v) root false) with Some _ => b | None => Says hit_bottom end
    end.
  (** curseSimpleOutput.cpp:165-176 (initSearch), curseOutput.cpp:204-245
      (inputSearch). *)
  Definition search_line (prompt : option spat) (v : view) : bottom :=
    match prompt with
    | None => Typed
    | Some p =>
        if isEmpty p then Typed
        else next_line (set_res v (search (elems root) (fun e => match_ rx p (etext e) (ekind e)) root)) Typed
    end.
  (** curseOutput.cpp:117-156 (evalKey): the keys that write there. *)
  Definition key_line (key : bytes) (prompt : option spat) (v : view) (b : bottom) : bottom :=
    if beqb key (str "/") then search_line prompt v
    else if beqb key (str "N") then next_line v b
    else b.

  (** curseOutput.cpp:39-49 (loop): as [wait], with the bottom line; each redraw
      clears it (curseSimpleOutput.cpp:45). *)
  Fixpoint wait_line (sc : screen) (v : view) (stop : bool) (b : bottom) (evs : list event) : final * bottom :=
    match evs with
    | [] => (Waiting sc v stop, b)
    | EvStop :: t => wait_line sc v true b t
    | EvSize w hh :: t =>
        let sc := mkScreen w hh (slen sc) in
        match redraw_loop root (fuel_of root) sc v with
        | None => (Undefined, b)
        | Some v => wait_line sc v stop Blank t
        end
    | EvKey k p :: t =>
        let b := key_line k p v b in
        match evalKey root rx sc k p v with
        | None => (Undefined, b)
        | Some (Quit, v) => (Ended sc v t, b)
        | Some (NextInput, v) => if stop then (Ended sc v t, b) else wait_line sc v stop b t
        | Some (_, v) =>
            match redraw_loop root (fuel_of root) sc v with
            | None => (Undefined, b)
            | Some v => if stop then (Ended sc v t, Blank) else wait_line sc v stop Blank t
            end
        end
    end.

  (** curseSimpleOutput.cpp:27-33 (run) *)
  Definition run_line (sc : screen) (v : view) (evs : list event) : final * bottom :=
    let v := mkView (Some (nid root)) 0 (vcoll v) (vres v) (vup v) (vdown v) (vlast v) (vlines v) in
    match redraw_loop root (fuel_of root) sc v with
    | None => (Undefined, Blank)
    | Some v => wait_line sc v false Blank evs
    end.
End Simple.

Section Split.
  Variable (h : list elem) (dm : mat) (rx : bytes -> bool -> bytes -> bool).

  (** curseSplitOutput.cpp:214-221 (nextResult), 345-360 (jumpToNextSearch). *)
  Definition split_next_line (p : split) (b : bottom) : out bottom :=
    w <~ at_ p (pact p) ;
    match wres w with
    | [] => Done (Says not_found)
    | _ => match snd (jump2 (wres w) (wsel w) (wlast w) (wroot w) false) with
           | Some _ => Done b
           | None => Done (Says hit_bottom)
           end
    end.
  (** curseSplitOutput.cpp:199-212 (initSearch) *)
  Definition split_search_line (prompt : option spat) (p : split) : out bottom :=
    match prompt with
    | None => Done Typed
    | Some q =>
        let ws := map (fun w => set_wres w []) (pwins p) in
        if isEmpty q then Done Typed
        else
          w <~ at_ (mkSplit ws (pact p) (pcoll p)) (pact p) ;
          let found := flat_map (fun w => search h (fun e => match_ rx q (etext e) (ekind e)) (wroot w)) ws in
          split_next_line (mkSplit (set_win ws (pact p) (set_wres w found)) (pact p) (pcoll p)) Typed
    end.
  (** curseOutput.cpp:117-156 (evalKey) *)
  Definition split_key_line (key : bytes) (prompt : option spat) (p : split) (b : bottom) : out bottom :=
    if beqb key (str "/") then split_search_line prompt p
    else if beqb key (str "N") then split_next_line p b
    else Done b.

  (** curseOutput.cpp:39-49 (loop): as [split_wait].  redraw draws the frames
      (curseSplitOutput.cpp:438-439), whose last line is the bottom line: what it said
      is hidden.  Simplification: its last columns, one or two, are not
      (Model/Windows.v, C80). *)
  Fixpoint split_wait_line (fuel : nat) (sc : screen) (p : split) (stop : bool) (b : bottom) (evs : list event) : out (ending * bottom) :=
    match evs with
    | [] => Done (Waits sc p, b)
    | EvStop :: t => split_wait_line fuel sc p true b t
    | EvSize w hh :: t =>
        let sc := split_screen w hh p sc in
        p <~ redraws h dm fuel sc p ; split_wait_line fuel sc p stop Blank t
    | EvKey k q :: t =>
        b <~ split_key_line k q p b ;
        r <~ split_key h dm rx sc k q p ;
        match r with
        | (Quit, p) => Done (Ends sc p, b)
        | (NextInput, p) => if stop then Done (Ends sc p, b) else split_wait_line fuel sc p stop b t
        | (_, p) => p <~ redraws h dm fuel sc p ; if stop then Done (Ends sc p, Blank) else split_wait_line fuel sc p stop Blank t
        end
    end.
End Split.

(** curseSplitOutput.cpp:43-86 (run) *)
Definition split_run_line (rx : bytes -> bool -> bytes -> bool) (fuel : nat) (len : elem -> Z) (w hh : Z) (a b : node) (evs : list event)
  : out (ending * bottom) :=
  match build a b with
  | inr _ => Bad Undef
  | inl dm =>
      let h := split_memory a b in
      let p := setSelection dm (mkSplit [new_win a; new_win b] 0 []) (Some (nid a)) in
      let sc := split_screen w hh p (mkScreen 0 0 len) in
      p <~ redraws h dm fuel sc p ;
      split_wait_line h dm rx fuel sc p false Blank evs
  end.

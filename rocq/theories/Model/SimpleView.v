(** The interactive view of one document: src/curseSimpleOutput.cpp, and the
    parts of src/curseOutput.cpp it uses. *)
From Verif Require Export Model.Navigation Model.NbLines.
Open Scope Z_scope.

(** Window size (screenSize), and what lazystrlen() answers for an element. *)
Record screen : Type := mkScreen { sw : Z; sh : Z; slen : elem -> Z }.

(** Unsigned subtraction on 32 bits. *)
Definition usub (a b : Z) : Z := (a - b) mod 2 ^ 32.

(** curseOutput.cpp:179-182 (hasReachedBottom). *)
Definition hasReachedBottom (pos top height : Z) : bool :=
  (top <=? pos) && (usub height 1 <? pos - top).

(** What drawing changes: cursor.second, scrollTop, select_up, select_down,
    selectFound, and what was put on screen: (element, screen line, shown as
    selected), the latest first.  cursor.second and scrollTop are unbounded
    (unsigned int in the code: documents of less than 2^32 lines). *)
Record dst : Type := mkD {
  dy : Z; dscroll : Z; dup : option Z; ddown : option Z; dfound : bool; dlines : list (Z * Z * bool) }.

(** config.h:17-19 *)
Definition INDENT_LEVEL : Z := 4.

Section Draw.
  (** The document in memory, the window, the set [collapsed]. *)
  Variable (h : list elem) (sc : screen) (coll : list Z).

  Definition at_bottom (s : dst) : bool := hasReachedBottom (dy s) (dscroll s) (sh sc).

  (** curseSimpleOutput.cpp:503-524 (checkSelection).  [sel] is the member
      selection. *)
  Definition checkSelection (sel : option Z) (e : elem) (s : dst) : dst :=
    if negb (dfound s) then
      if sel_is sel (eid e) then
        mkD (dy s) (if dy s <=? dscroll s then (if dy s =? 0 then 0 else dy s - 1) else dscroll s)
            (dup s) (ddown s) true (dlines s)
      else if negb (parent_is_entry h e)
      then mkD (dy s) (dscroll s) (Some (eid e)) (ddown s) false (dlines s)
      else s
    else
      match ddown s with
      | Some _ => s
      | None =>
          let is_cont := match e with ENode n => is_container n | _ => false end in
          let item :=
            match epar e with
            | Some p => if negb is_cont && negb (sel_is sel p) && is_entry h p then p else eid e
            | None => eid e
            end in
          if negb (parent_is_entry h e)
          then mkD (dy s) (dscroll s) (dup s) (Some item) (dfound s) (dlines s)
          else s
      end.

  (** curseSimpleOutput.cpp:353-383 (both write functions with coordinates; the
      text of [i], [len] wide, at column [x] and the current line) followed by
      [cursor.second += ]; lines above the window count for one.  [w] is
      maxWidth.  [None]: getNbLines converts a value that does not fit. *)
  Definition write (sel : option Z) (i x len w : Z) (s : dst) : option dst :=
    if dy s <=? dscroll s
    then Some (mkD (dy s + 1) (dscroll s) (dup s) (ddown s) (dfound s) (dlines s))
    else obind (getNbLines (len + x) w) (fun k =>
      Some (mkD (dy s + k) (dscroll s) (dup s) (ddown s) (dfound s)
                ((i, dy s - dscroll s, sel_is sel i) :: dlines s))).

  (** curseSimpleOutput.cpp:314-328 (writeKey of a key alone; extraLen is 0). *)
  Definition writeKey (sel : option Z) (e : elem) (x : Z) (s : dst) : option (bool * dst) :=
    if dy s <=? dscroll s
    then Some (true, mkD (dy s + 1) (dscroll s) (dup s) (ddown s) (dfound s) (dlines s))
    else obind (write sel (eid e) x (slen sc e) (usub (sw sc) 2) s) (fun s => Some (negb (at_bottom s), s)).

  (** curseSimpleOutput.cpp:330-351 (writeKey of a key and what follows it). *)
  Definition writeKeyAfter (sel : option Z) (e : elem) (x len : Z) (s : dst) : option (bool * dst) :=
    if dy s <=? dscroll s
    then Some (true, mkD (dy s + 1) (dscroll s) (dup s) (ddown s) (dfound s) (dlines s))
    else obind (write sel (eid e) x (slen sc e + 2 + len) (sw sc) s) (fun s => Some (negb (at_bottom s), s)).

  (** curseSimpleOutput.cpp:210-235 (writeContainer); [content] stands for
      writeContent. *)
  Definition writeContainer (sel : option Z) (i x : Z) (content : dst -> option (bool * dst)) (s : dst)
    : option (bool * dst) :=
    if mem i coll
    then obind (write sel i x 7 (sw sc) s) (fun s => Some (negb (at_bottom s), s))
    else
      obind (write sel i x 1 (sw sc) s) (fun s =>
        if at_bottom s then Some (false, s)
        else obind (content s) (fun '(b, s) =>
          if b then obind (write sel i x 1 (sw sc) s) (fun s => Some (negb (at_bottom s), s))
          else Some (false, s))).

  (** curseSimpleOutput.cpp:249-300: one entry of an object; [inner] is
      [redraw(cursor, ** ent)] with the given selection. *)
  Definition writeEntry (sel : option Z) (x : Z) (m : meta) (k : bytes) (v : node)
    (inner : option Z -> dst -> option (bool * dst)) (s : dst) : option (bool * dst) :=
    let e := EEntry m k v in
    let s := checkSelection sel e s in
    let inline len :=
      obind (writeKeyAfter sel e x len s) (fun '(b, s) =>
        Some (b && negb (at_bottom s), s)) in
    if is_container v && mem (nid v) coll then inline 7
    else if negb (is_container v) then inline (slen sc (ENode v))
    else match children v with
         | [] => inline 3
         | _ =>
             obind (writeKey sel e x s) (fun '(b, s) =>
               if b then inner (if sel_is sel (mid m) then Some (nid v) else sel) s
               else Some (false, s))
         end.

  (** curseSimpleOutput.cpp:193-208 (redraw of an element) and 237-312
      (writeContent).  cursor.first is an argument: whenever drawing goes on, the
      code has restored it (lines 295-299, 309).  So is [selection], which the
      code replaces during the drawing of an entry's value (288-298). *)
  Fixpoint draw (x : Z) (sel : option Z) (n : node) (s : dst) : option (bool * dst) :=
    let s := checkSelection sel (ENode n) s in
    match n with
    | NPrim m _ =>
        obind (write sel (mid m) x (slen sc (ENode n)) (sw sc) s) (fun s => Some (negb (at_bottom s), s))
    | NArr m l =>
        writeContainer sel (mid m) x
          (fun s =>
             (fix go (l : list node) (s : dst) : option (bool * dst) :=
                match l with
                | [] => Some (true, s)
                | c :: t =>
                    obind (draw (x + INDENT_LEVEL) sel c s) (fun '(b, s) =>
                      if b then go t s else Some (false, s))
                end) l s) s
    | NObj m l =>
        writeContainer sel (mid m) x
          (fun s =>
             (fix go (l : list (meta * bytes * node)) (s : dst) : option (bool * dst) :=
                match l with
                | [] => Some (true, s)
                | c :: t =>
                    obind (writeEntry sel (x + INDENT_LEVEL) (fst (fst c)) (snd (fst c)) (snd c)
                             (fun sel s => draw (x + INDENT_LEVEL + INDENT_LEVEL / 2) sel (snd c) s) s)
                      (fun '(b, s) => if b then go t s else Some (false, s))
                end) l s) s
    end.
End Draw.

(** Members of the view: selection, scrollTop, collapsed, search_result,
    select_up, select_down, selectIsLast; and the lines on screen.  [data] is a
    separate argument of the functions. *)
Record view : Type := mkView {
  vsel : option Z; vscroll : Z; vcoll : list Z; vres : list Z;
  vup : option Z; vdown : option Z; vlast : bool; vlines : list (Z * Z * bool) }.

Definition set_sel (v : view) (s : option Z) : view :=
  mkView s (vscroll v) (vcoll v) (vres v) (vup v) (vdown v) (vlast v) (vlines v).
Definition set_coll (v : view) (c : list Z) : view :=
  mkView (vsel v) (vscroll v) c (vres v) (vup v) (vdown v) (vlast v) (vlines v).
Definition set_res (v : view) (r : list Z) : view :=
  mkView (vsel v) (vscroll v) (vcoll v) r (vup v) (vdown v) (vlast v) (vlines v).
Definition set_scroll (v : view) (t : Z) : view :=
  mkView (vsel v) t (vcoll v) (vres v) (vup v) (vdown v) (vlast v) (vlines v).

(** curseOutput.hh:25-31 (inputResult). *)
Inductive inputResult : Type := Redraw | RedrawAll | Quit | NextInput.

Section View.
  Variable root : node.
  Definition mem_of : list elem := elems root.
  (** Enough for every chain of parents. *)
  Definition deep : nat := S (length mem_of).

  (** curseSimpleOutput.cpp:35-76 (redraw).  [None]: undefined behaviour.
      (SelectionOutOfRange is never thrown.) *)
  Definition redraw (sc : screen) (v : view) : option (bool * view) :=
    obind (draw mem_of sc (vcoll v) 0 (vsel v) root (mkD 1 (vscroll v) None None false [])) (fun '(result, s) =>
      if negb result && negb (dfound s)
      then Some (false, mkView (vsel v) (dscroll s + 1) (vcoll v) (vres v) (dup s) (ddown s) false (dlines s))
      else
        let last := negb result && match ddown s with None => true | Some _ => false end in
        obind (match ddown s with
               | Some d => Some (Some d)
               | None =>
                   match vsel v with
                   | None => None
                   | Some i =>
                       obind (lookup mem_of i) (fun e =>
                         match match e with ENode n => if mem (nid n) (vcoll v) then [] else children n | _ => [] end with
                         | c :: _ => Some (Some (eid c))
                         | [] => obind (findNext deep mem_of i) (fun next =>
                                   Some (match next with Some r => Some r | None => Some i end))
                         end)
                   end
               end) (fun down =>
          let up := match dup s with Some u => Some u | None => vsel v end in
          Some (true, mkView (vsel v) (dscroll s) (vcoll v) (vres v) up down last (dlines s)))).

  (** curseOutput.cpp:46 and 69: [while (!redraw());] *)
  Fixpoint redraw_loop (fuel : nat) (sc : screen) (v : view) : option view :=
    match fuel with
    | O => None
    | S f => obind (redraw sc v) (fun '(b, v) => if b then Some v else redraw_loop f sc v)
    end.

  (** curseSimpleOutput.cpp:78-82 *)
  Definition selectUp (v : view) : option (inputResult * view) := Some (Redraw, set_sel v (vup v)).

  Definition opt_eqb (a b : option Z) : bool :=
    match a, b with Some x, Some y => x =? y | None, None => true | _, _ => false end.

  (** curseSimpleOutput.cpp:84-93 *)
  Definition selectDown (v : view) : option (inputResult * view) :=
    if vlast v then Some (Redraw, set_scroll v (vscroll v + 2))
    else if negb (opt_eqb (vsel v) (vdown v)) then Some (Redraw, set_sel v (vdown v))
    else Some (NextInput, v).

  (** dynamic_cast<const JSonContainer*>(p) of a live pointer. *)
  Definition container_at (p : Z) : option (option node) :=
    obind (lookup mem_of p) (fun e =>
      Some (match e with ENode n => if is_container n then Some n else None | _ => None end)).

  (** The parent of the element at [i], then the entry it is the value of, if any
      (curseSimpleOutput.cpp:105-107 and 156-158). *)
  Definition row_of (p : Z) : option Z :=
    obind (lookup mem_of p) (fun e =>
      Some (match epar e with Some q => if is_entry mem_of q then q else p | None => p end)).

  (** curseSimpleOutput.cpp:95-115 *)
  Definition selectPUp (v : view) : option (inputResult * view) :=
    obind (vsel v) (fun i =>
      obind (findPrev mem_of i) (fun prev =>
        match prev with
        | Some b => Some (Redraw, set_sel v (Some b))
        | None =>
            obind (lookup mem_of i) (fun e =>
              match epar e with
              | None => Some (NextInput, v)
              | Some p =>
                  obind (container_at p) (fun c =>
                    match c with
                    | Some _ => obind (row_of p) (fun r => Some (Redraw, set_sel v (Some r)))
                    | None => Some (NextInput, v)
                    end)
              end)
        end)).

  (** curseSimpleOutput.cpp:117-127 *)
  Definition selectPDown (v : view) : option (inputResult * view) :=
    obind (vsel v) (fun i =>
      obind (findNext deep mem_of i) (fun next =>
        match next with
        | Some r => Some (Redraw, set_sel v (Some r))
        | None => Some (NextInput, v)
        end)).

  (** curseSimpleOutput.cpp:129-144 *)
  Definition expandSelection (v : view) : option (inputResult * view) :=
    match vsel v with
    | None => Some (NextInput, v)
    | Some i =>
        obind (lookup mem_of i) (fun e =>
          let n := value_of e in
          if negb (is_container n) then Some (NextInput, v)
          else if mem (nid n) (vcoll v) then Some (Redraw, set_coll v (remove (nid n) (vcoll v)))
          else match children n with
               | [] => Some (NextInput, v)
               | _ => Some (Redraw, set_sel v (vdown v))
               end)
    end.

  (** curseSimpleOutput.cpp:146-163 *)
  Definition collapseSelection (v : view) : option (inputResult * view) :=
    obind (vsel v) (fun i =>
      obind (lookup mem_of i) (fun e =>
        let n := value_of e in
        let stuck := negb (is_container n) || mem (nid n) (vcoll v) || match children n with [] => true | _ => false end in
        if match mpar (node_meta n) with Some _ => true | None => false end && stuck
        then obind (epar e) (fun p => obind (row_of p) (fun r => Some (Redraw, set_sel v (Some r))))
        else Some (Redraw, set_coll v (insert (nid n) (vcoll v))))).

  (** curseSimpleOutput.cpp:487-501 (jumpToNextSearch without argument) and
      178-185 (nextResult).  The redraws of 181 and 496 happen once, their result
      is dropped. *)
  Definition nextResult (sc : screen) (v : view) : option (inputResult * view) :=
    match vres v with
    | [] => obind (redraw sc v) (fun '(_, v) => Some (NextInput, v))
    | first :: _ =>
        match snd (jump (vres v) (vsel v) root false) with
        | Some r => obind (unfold deep mem_of (vcoll v) r) (fun c => Some (Redraw, set_sel (set_coll v c) (Some r)))
        | None =>
            obind (unfold deep mem_of (vcoll v) first) (fun c =>
              obind (redraw sc (set_sel (set_coll v c) (Some first))) (fun '(_, v) => Some (NextInput, v)))
        end
    end.

  (** curseSimpleOutput.cpp:165-176.  [prompt] is the answer of inputSearch;
      [regex_search] is std::regex_search. *)
  Definition initSearch (rx : bytes -> bool -> bytes -> bool) (prompt : option spat) (sc : screen) (v : view)
    : option (inputResult * view) :=
    match prompt with
    | None => Some (Redraw, v)
    | Some p =>
        if isEmpty p then Some (Redraw, set_res v [])
        else nextResult sc (set_res v (search mem_of (fun e => match_ rx p (etext e) (ekind e)) root))
    end.

  (** curseOutput.cpp:117-156 (evalKey); curseSimpleOutput.cpp:187-191: changeWindow
      does nothing. *)
  Definition evalKey (rx : bytes -> bool -> bytes -> bool) (sc : screen) (key : bytes) (prompt : option spat) (v : view)
    : option (inputResult * view) :=
    if beqb key (str "Q") then Some (Quit, v)
    else if beqb key (str "K") || beqb key (str "KEY_UP") then selectUp v
    else if beqb key (str "J") || beqb key (str "KEY_DOWN") then selectDown v
    else if beqb key (str "KEY_PPAGE") then selectPUp v
    else if beqb key (str "KEY_NPAGE") then selectPDown v
    else if beqb key (str "L") || beqb key (str "KEY_RIGHT") then expandSelection v
    else if beqb key (str "H") || beqb key (str "KEY_LEFT") then collapseSelection v
    else if beqb key (str "/") then initSearch rx prompt sc v
    else if beqb key (str "N") then nextResult sc v
    else Some (NextInput, v).
End View.

(** What happens to the viewer: a key sequence (with the pattern typed when it
    opens the search prompt), a change of the window size (SIGWINCH), SIGINT or
    SIGTERM. *)
Inductive event : Type :=
| EvKey (key : bytes) (prompt : option spat)
| EvSize (w h : Z)
| EvStop.

(** How a sequence of events leaves the viewer: waiting for more, out of its
    loop with the events not yet consumed, or undefined. *)
Inductive final : Type :=
| Waiting (sc : screen) (v : view) (stop : bool)
| Ended (sc : screen) (v : view) (rest : list event)
| Undefined.

Section Loop.
  Variable (rx : bytes -> bool -> bytes -> bool) (root : node).

  (** Enough redraws: see C37. *)
  Definition fuel_of (root : node) : nat := 3 + 2 * length (elems root).

  (** curseOutput.cpp:39-49 (loop), 56-89 (onsig) and 106-115 (readInput), after
      the first [while (!redraw());].  [stop] is breakLoop.  Simplification: a
      signal is handled between two keys, never inside a redraw; the window size
      is what the event says. *)
  Fixpoint wait (sc : screen) (v : view) (stop : bool) (evs : list event) : final :=
    match evs with
    | [] => Waiting sc v stop
    | EvStop :: t => wait sc v true t
    | EvSize w hh :: t =>
        let sc := mkScreen w hh (slen sc) in
        match redraw_loop root (fuel_of root) sc v with
        | None => Undefined
        | Some v => wait sc v stop t
        end
    | EvKey k p :: t =>
        match evalKey root rx sc k p v with
        | None => Undefined
        | Some (Quit, v) => Ended sc v t
        | Some (NextInput, v) => if stop then Ended sc v t else wait sc v stop t
        | Some (_, v) =>
            match redraw_loop root (fuel_of root) sc v with
            | None => Undefined
            | Some v => if stop then Ended sc v t else wait sc v stop t
            end
        end
    end.

  (** curseSimpleOutput.cpp:27-33 (run): only scrollTop, selection and data are
      set; what the other members hold is left by the previous document. *)
  Definition run (sc : screen) (v : view) (evs : list event) : final :=
    let v := mkView (Some (nid root)) 0 (vcoll v) (vres v) (vup v) (vdown v) (vlast v) (vlines v) in
    match redraw_loop root (fuel_of root) sc v with
    | None => Undefined
    | Some v => wait sc v false evs
    end.
End Loop.

(** curseSimpleOutput.cpp:17-20: the view before the first document. *)
Definition view0 : view := mkView None 0 [] [] None None false [].

(** main.cpp:190-211 (run): the documents are shown one after the other by the
    same object; each is deleted when its view ends. *)
Fixpoint session (rx : bytes -> bool -> bytes -> bool) (docs : list node) (sc : screen) (v : view) (evs : list event)
  : final :=
  match docs with
  | [] => Ended sc v evs
  | d :: t =>
      match run rx d sc v evs with
      | Ended sc v rest => session rx t sc v rest
      | r => r
      end
  end.

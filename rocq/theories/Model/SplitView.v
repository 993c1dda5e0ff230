(** The interactive comparison of two documents: src/curseSplitOutput.cpp, and
    the parts of src/curseOutput.cpp it uses.  With three documents computeDiff
    throws (Model.Main); the windows are a list, as in the code. *)
From Verif Require Export Model.SimpleView.
From Verif Require Import Model.SimpleText.
Open Scope Z_scope.

(** One call of writeKey or of write with coordinates: the element whose flags
    (getFlag) it is written with, line and column in the window, the texts and the
    type of each (outputFlag.hh).  Colours: Model/SplitText.v. *)
Record writing : Type := mkWriting { celem : elem; cellx : Z; celly : Z; ctexts : list (Z * bytes) }.

(** curseSplitOutput.hh:12-24 (t_subWindow), without file name and curses
    windows.  selectIsLast is written and never read.  Three members are added:
    [wlog] records what was drawn in the current redraw, (element, is it the
    closing bracket, cursor.second), the latest first: it is on screen, on line
    cursor.second - scrollTop, when that is positive; [wmarks] are the marks put in
    the margin, (line, mark), the latest first; [wcells] is what was printed in the
    window, the latest first. *)
Record win : Type := mkWin {
  wroot : node;
  wsel : option Z; wlast : option Z; wup : option Z; wdown : option Z;
  wres : list Z; wscroll : Z; wx : Z; wy : Z; wstack : list (Z * node); wfound : bool;
  wlog : list (Z * bool * Z); wmarks : list (Z * op); wcells : list writing }.

Definition set_wsel (w : win) (s l : option Z) : win :=
  mkWin (wroot w) s l (wup w) (wdown w) (wres w) (wscroll w) (wx w) (wy w) (wstack w) (wfound w) (wlog w) (wmarks w) (wcells w).
Definition set_wres (w : win) (r : list Z) : win :=
  mkWin (wroot w) (wsel w) (wlast w) (wup w) (wdown w) r (wscroll w) (wx w) (wy w) (wstack w) (wfound w) (wlog w) (wmarks w) (wcells w).
Definition set_wscroll (w : win) (t : Z) : win :=
  mkWin (wroot w) (wsel w) (wlast w) (wup w) (wdown w) (wres w) t (wx w) (wy w) (wstack w) (wfound w) (wlog w) (wmarks w) (wcells w).
Definition set_wx (w : win) (x : Z) : win :=
  mkWin (wroot w) (wsel w) (wlast w) (wup w) (wdown w) (wres w) (wscroll w) x (wy w) (wstack w) (wfound w) (wlog w) (wmarks w) (wcells w).
Definition set_wy (w : win) (y : Z) : win :=
  mkWin (wroot w) (wsel w) (wlast w) (wup w) (wdown w) (wres w) (wscroll w) (wx w) y (wstack w) (wfound w) (wlog w) (wmarks w) (wcells w).
Definition set_wstack (w : win) (l : list (Z * node)) : win :=
  mkWin (wroot w) (wsel w) (wlast w) (wup w) (wdown w) (wres w) (wscroll w) (wx w) (wy w) l (wfound w) (wlog w) (wmarks w) (wcells w).
Definition set_wfound (w : win) (b : bool) : win :=
  mkWin (wroot w) (wsel w) (wlast w) (wup w) (wdown w) (wres w) (wscroll w) (wx w) (wy w) (wstack w) b (wlog w) (wmarks w) (wcells w).
Definition set_wup (w : win) (u : option Z) : win :=
  mkWin (wroot w) (wsel w) (wlast w) u (wdown w) (wres w) (wscroll w) (wx w) (wy w) (wstack w) (wfound w) (wlog w) (wmarks w) (wcells w).
Definition set_wdown (w : win) (d : option Z) : win :=
  mkWin (wroot w) (wsel w) (wlast w) (wup w) d (wres w) (wscroll w) (wx w) (wy w) (wstack w) (wfound w) (wlog w) (wmarks w) (wcells w).
Definition add_log (w : win) (r : Z * bool * Z) : win :=
  mkWin (wroot w) (wsel w) (wlast w) (wup w) (wdown w) (wres w) (wscroll w) (wx w) (wy w) (wstack w) (wfound w) (r :: wlog w) (wmarks w) (wcells w).
Definition add_mark (w : win) (r : Z * op) : win :=
  mkWin (wroot w) (wsel w) (wlast w) (wup w) (wdown w) (wres w) (wscroll w) (wx w) (wy w) (wstack w) (wfound w) (wlog w) (r :: wmarks w) (wcells w).
(** What is printed with the cursor where it is: nothing when that is above the
    window (curseSplitOutput.cpp:582-586, 598-602, 720-721, 779-780). *)
Definition prints (e : elem) (texts : list (Z * bytes)) (w : win) : win :=
  mkWin (wroot w) (wsel w) (wlast w) (wup w) (wdown w) (wres w) (wscroll w) (wx w) (wy w) (wstack w) (wfound w) (wlog w) (wmarks w)
    (if wy w <=? wscroll w then wcells w else mkWriting e (wx w) (wy w - wscroll w) texts :: wcells w).

(** What can go wrong: undefined behaviour (a null or dead pointer dereferenced,
    a number that does not fit), std::out_of_range thrown by deque::at, or the
    model's fuel used up. *)
Inductive fault : Type := Undef | Range | Fuel.
Inductive out (A : Type) : Type := Done (a : A) | Bad (f : fault).
Arguments Done {A} a.
Arguments Bad {A} f.
Definition bind {A B} (x : out A) (f : A -> out B) : out B :=
  match x with Done a => f a | Bad e => Bad e end.
(** An operation of Model.Navigation: [None] is undefined behaviour. *)
Definition lift {A} (x : option A) : out A := match x with Some a => Done a | None => Bad Undef end.
Notation "x <~ m ; k" := (bind m (fun x => k)) (at level 100, m at next level, right associativity).

Section Split.
  (** The memory (both documents), the window size (screenSize: the width is that
      of one window), the set [collapsed], the comparison. *)
  Variable (h : list elem) (sc : screen) (coll : list Z) (dm : mat).

  (** screenSize.first - 2 in unsigned int. *)
  Definition inner : Z := usub (sw sc) 2.

  Definition bottom (w : win) : bool := hasReachedBottom (wy w) (wscroll w) (sh sc).

  (** curseSplitOutput.cpp:741-772 (displayDiffOp). *)
  Definition displayDiffOp (line : Z) (o : op) (w : win) : win :=
    match o with OEqu => w | _ => add_mark w (line, o) end.

  (** curseSplitOutput.cpp:250-276 (checkSelection). *)
  Definition check (e : elem) (w : win) : win :=
    if negb (wfound w) then
      if sel_is (wlast w) (eid e) then
        set_wfound (if wy w <=? wscroll w then set_wscroll w (if wy w =? 0 then 0 else wy w - 1) else w) true
      else if negb (parent_is_entry h e) then set_wup w (Some (eid e)) else w
    else
      match wdown w with
      | Some _ => w
      | None =>
          let is_cont := match e with ENode n => is_container n | _ => false end in
          let item :=
            match epar e with
            | Some p => if negb is_cont && negb (sel_is (wlast w) p) && is_entry h p then p else eid e
            | None => eid e
            end in
          match lookup h item with
          | Some e' => if negb (parent_is_entry h e') then set_wdown w (Some item) else w
          | None => w   (* not reached: item is [e] or its parent *)
          end
      end.

  (** curseSplitOutput.cpp:714-739 (write of a character, [shifted]: the mark goes
      to the line written) and 774-785 (write of a string: the mark goes to line
      [y]), followed by [cursor.second += ].  The element is [i]. *)
  Definition put (shifted : bool) (i : Z) (closing : bool) (len maxw : Z) (w : win) : out win :=
    let w' := add_log w (i, closing, wy w) in
    if wy w <=? wscroll w then Done (set_wy w' (wy w + 1))
    else
      k <~ lift (getNbLines (len + wx w) maxw) ;
      Done (set_wy (displayDiffOp (if shifted then wy w - wscroll w else wy w) (shown_op dm i) w') (wy w + k)).

  (** curseSplitOutput.cpp:519-550 (writeContainer). *)
  Definition close_container (n : node) (w : win) : out (bool * win) :=
    w <~ put true (nid n) true 1 inner (prints (ENode n) [(node_type n, closing n)] (set_wx w (wx w - INDENT_LEVEL))) ;
    Done (negb (bottom w), w).
  Definition open_container (n : node) (w : win) : out (bool * win) :=
    if mem (nid n) coll
    then w <~ put false (nid n) false 7 inner (prints (ENode n) [(node_type n, folded n)] w) ; Done (negb (bottom w), w)
    else
      w <~ put true (nid n) false 1 inner (prints (ENode n) [(node_type n, opening n)] w) ;
      if bottom w then Done (false, w)
      else Done (true, set_wx (set_wstack w ((-1, n) :: wstack w)) (wx w + INDENT_LEVEL)).

  (** The key and ": ", with [types] 589-592 and 605-607.  Strings are printed with
      %s (curseSplitOutput.cpp:800). *)
  Definition key_texts (e : elem) : list (Z * bytes) :=
    [(OUT_OBJKEY, c_str match e with EEntry _ k _ => k | _ => [] end); (OUT_OBJ, str ": ")].
  (** curseSplitOutput.cpp:580-594 (writeKey of a key alone). *)
  Definition key_alone (e : elem) (w : win) : out (bool * win) :=
    if wy w <=? wscroll w then Done (true, set_wy (add_log w (eid e, false, wy w)) (wy w + 1))
    else w <~ put false (eid e) false (slen sc e) (usub (usub (sw sc) 2) 2) (prints e (key_texts e) w) ; Done (negb (bottom w), w).
  (** curseSplitOutput.cpp:596-617 (writeKey of a key and what follows it). *)
  Definition key_after (e : elem) (after : bytes) (len : Z) (w : win) : out (bool * win) :=
    if wy w <=? wscroll w then Done (true, set_wy (add_log w (eid e, false, wy w)) (wy w + 1))
    else w <~ put false (eid e) false (slen sc e + 2 + len) inner (prints e (key_texts e ++ [(node_type (value_of e), c_str after)]) w) ; Done (negb (bottom w), w).

  (** curseSplitOutput.cpp:670-712 (writeObjectEntry). *)
  Definition draw_entry (m : meta) (k : bytes) (v : node) (w : win) : out (bool * win) :=
    let e := EEntry m k v in
    let inline after len := r <~ key_after e after len w ; let '(b, w) := r in Done (b && negb (bottom w), w) in
    if is_container v && mem (nid v) coll then inline (folded v) 7
    else if negb (is_container v) then inline (prim_text v) (slen sc (ENode v))
    else match children v with
         | [] => inline (hollow v) 3
         | _ =>
             r <~ key_alone e w ;
             let '(b, w) := r in
             if b then r <~ open_container v w ; Done (negb (bottom (snd r)), snd r)
             else Done (false, w)
         end.

  (** curseSplitOutput.cpp:649-668 (redraw of an element). *)
  Definition draw_elem (e : elem) (w : win) : out (bool * win) :=
    let w := check e w in
    match e with
    | EEntry m k v => draw_entry m k v w
    | ENode n =>
        if is_container n then open_container n w
        else w <~ put false (nid n) false (slen sc e) inner (prints e [(node_type n, c_str (prim_text n))] w) ; Done (negb (bottom w), w)
    end.

  (** curseSplitOutput.cpp:635-647 (redraw of the next child of a container or of
      its end) and 366-370: the next item of the window.  Simplification: line 643
      reads the pair just popped from the stack, which still holds its value. *)
  Definition draw_next (w : win) : out (bool * win) :=
    match wstack w with
    | [] => draw_elem (ENode (wroot w)) w
    | (i, c) :: t =>
        if i + 1 =? Z.of_nat (length (children c))
        then close_container c (set_wstack w t)
        else match nth_error (children c) (Z.to_nat (i + 1)) with
             | Some e => draw_elem e (set_wstack w ((i + 1, c) :: t))
             | None => Bad Undef
             end
    end.

  (** curseSplitOutput.cpp:362-404 (redrawOneItemToWorkingWin): [None] when
      absent. *)
  Definition one_item (w : win) : out (option bool * win) :=
    r <~ draw_next w ;
    let '(result, w) := r in
    if negb result || match wstack w with [] => true | _ => false end then
      if negb result && negb (wfound w) then Done (None, set_wscroll w (wscroll w + 1))
      else
        down <~ match wdown w with
                | Some d => Done (Some d)
                | None =>
                    first <~ match wsel w with
                             | None => Done []
                             | Some i =>
                                 e <~ lift (lookup h i) ;
                                 Done (match e with ENode n => if mem (nid n) coll then [] else children n | _ => [] end)
                             end ;
                    match first with
                    | c :: _ => Done (Some (eid c))
                    | [] =>
                        i <~ lift (wlast w) ;
                        next <~ lift (findNext (S (length h)) h i) ;
                        Done (Some (match next with Some r => r | None => i end))
                    end
                end ;
        Done (Some true, set_wup (set_wdown w down) (match wup w with Some u => Some u | None => wlast w end))
    else Done (Some false, w).

  (** curseSplitOutput.cpp:619-633 (isAdded), of what the window draws next. *)
  Definition isAdded (i : Z) : bool := match getEquivalence dm i with None => true | Some _ => false end.
  Definition next_added (w : win) : out bool :=
    match wstack w with
    | [] => Done (isAdded (nid (wroot w)))
    | (i, c) :: _ =>
        if Z.of_nat (length (children c)) <=? i + 1 then Done (isAdded (nid c))
        else match nth_error (children c) (Z.to_nat (i + 1)) with
             | Some e => Done (isAdded (eid e))
             | None => Bad Undef
             end
    end.

  (** curseSplitOutput.cpp:461-472: the items of one window that the other does
      not have; [None] when absent, else whether the window is finished. *)
  Fixpoint added_items (fuel : nat) (w : win) : out (option bool * win) :=
    match fuel with
    | O => Bad Fuel
    | S f =>
        r <~ one_item w ;
        match r with
        | (None, w) => Done (None, w)
        | (Some true, w) => Done (Some true, w)
        | (Some false, w) => a <~ next_added w ; if a : bool then added_items f w else Done (Some false, w)
        end
    end.

  (** A window and its bit of writingDone. *)
  Definition part : Type := (win * bool)%type.

  (** curseSplitOutput.cpp:477-480: [k] lines without counterpart.  The mark is
      not shifted by scrollTop. *)
  Fixpoint gap_lines (k : nat) (w : win) : win :=
    match k with
    | O => w
    | S k => gap_lines k (set_wy (displayDiffOp (wy w) ORem w) (wy w + 1))
    end.

  (** curseSplitOutput.cpp:452-486: the first window that is still drawing and
      whose next item has no counterpart.  [None]: there is none; [Some (b, ps)]:
      the windows afterwards, [b] false when redraw() returns false. *)
  Fixpoint display_gap (fuel : nat) (before after : list part) : out (option (bool * list part)) :=
    match after with
    | [] => Done None
    | (w, busy) :: t =>
        a <~ (if busy : bool then next_added w else Done false) ;
        if a : bool then
          r <~ added_items fuel w ;
          match r with
          | (None, w') => Done (Some (false, before ++ (w', busy) :: t))
          | (Some fin, w') =>
              let k := Z.to_nat (usub (wy w') (wy w)) in
              let others := map (fun p => (gap_lines k (fst p), snd p)) in
              Done (Some (true, others before ++ (w', negb fin) :: others t))
          end
        else display_gap fuel (before ++ [(w, busy)]) t
    end.

  (** curseSplitOutput.cpp:490-507: one item of every window still drawing, and
      maxLines.  Windows come with cursorInit. *)
  Fixpoint display (ps : list part) (mx : Z) : out (bool * list (part * Z) * Z) :=
    match ps with
    | [] => Done (true, [], mx)
    | (w, busy) :: t =>
        if busy : bool then
          r <~ one_item w ;
          match r with
          | (None, w') => Done (false, ((w', busy), wy w) :: map (fun p => (p, wy (fst p))) t, mx)
          | (Some fin, w') =>
              r <~ display t (Z.max mx (usub (wy w') (wy w))) ;
              let '(b, l, mx) := r in Done (b, ((w', negb fin), wy w) :: l, mx)
          end
        else r <~ display t mx ; let '(b, l, mx) := r in Done (b, ((w, busy), wy w) :: l, mx)
    end.

  (** curseSplitOutput.cpp:446-513: the loop of redraw(). *)
  Fixpoint redraw_items (fuel : nat) (ps : list part) : out (bool * list win) :=
    match fuel with
    | O => Bad Fuel
    | S f =>
        if existsb snd ps then
          g <~ display_gap (S f) [] ps ;
          match g with
          | Some (false, ps) => Done (false, map fst ps)
          | Some (true, ps) => redraw_items f ps
          | None =>
              r <~ display ps 0 ;
              let '(b, l, mx) := r in
              if b : bool then redraw_items f (map (fun p => (set_wy (fst (fst p)) (snd p + mx), snd (fst p))) l)
              else Done (false, map (fun p => fst (fst p)) l)
          end
        else Done (true, map fst ps)
    end.

  (** curseSplitOutput.cpp:431-445: what redraw() resets. *)
  Definition start (w : win) : win :=
    mkWin (wroot w) (wsel w) (wlast w) None None (wres w) (wscroll w) 2 1 [] false [] [] [].

  (** Every step draws an item: there are at most two per element. *)
  Definition items_fuel : nat := S (S (2 * length h)).

  (** curseSplitOutput.cpp:426-517 (redraw). *)
  Definition redraw_all (ws : list win) : out (bool * list win) :=
    redraw_items items_fuel (map (fun w => (start w, true)) ws).
End Split.

(** The members of CurseSplitOutput: the windows, selectedWin, collapsed. *)
Record split : Type := mkSplit { pwins : list win; pact : Z; pcoll : list Z }.

Section Keys.
  (** Both documents in memory, and their comparison. *)
  Variable (h : list elem) (dm : mat).
  Definition far : nat := S (length h).

  (** subWindows.at(i) *)
  Definition at_ (p : split) (i : Z) : out win :=
    if i <? 0 then Bad Range
    else match nth_error (pwins p) (Z.to_nat i) with Some w => Done w | None => Bad Range end.

  (** diffMatrice->getEquivalence of a possibly null pointer. *)
  Definition equivalent (i : option Z) : option Z :=
    match i with Some i => getEquivalence dm i | None => None end.

  (** curseSplitOutput.cpp:100-116 (setSelection). *)
  Definition setSelection (p : split) (s : option Z) : split :=
    mkSplit
      ((fix go (i : Z) (ws : list win) : list win :=
          match ws with
          | [] => []
          | w :: t =>
              (if i =? pact p then set_wsel w s s
               else set_wsel w (equivalent s) (match equivalent s with Some x => Some x | None => wlast w end)) :: go (i + 1) t
          end) 0 (pwins p)) (pact p) (pcoll p).

  (** curseOutput.cpp:46 and 69: [while (!redraw());] *)
  Fixpoint redraws (fuel : nat) (sc : screen) (p : split) : out split :=
    match fuel with
    | O => Bad Fuel
    | S f =>
        r <~ redraw_all h sc (pcoll p) dm (pwins p) ;
        let '(b, ws) := r in
        let p := mkSplit ws (pact p) (pcoll p) in
        if b then Done p else redraws f sc p
    end.

  (** curseSplitOutput.cpp:88-98 *)
  Definition split_up (p : split) : out (inputResult * split) :=
    w <~ at_ p (pact p) ; Done (Redraw, setSelection p (wup w)).
  Definition split_down (p : split) : out (inputResult * split) :=
    w <~ at_ p (pact p) ; Done (Redraw, setSelection p (wdown w)).

  (** dynamic_cast<const JSonContainer*>(p) of a live pointer. *)
  Definition is_cont_at (i : Z) : out bool :=
    e <~ lift (lookup h i) ; Done (match e with ENode n => is_container n | _ => false end).
  (** [i], or the entry it is the value of (curseSplitOutput.cpp:128-131 and 183-187). *)
  Definition row_at (i : Z) : out Z :=
    e <~ lift (lookup h i) ;
    Done (match epar e with Some q => if is_entry h q then q else i | None => i end).

  (** curseSplitOutput.cpp:118-138 *)
  Definition split_pup (p : split) : out (inputResult * split) :=
    w <~ at_ p (pact p) ;
    i <~ lift (wsel w) ;
    prev <~ lift (findPrev h i) ;
    match prev with
    | Some b => Done (Redraw, setSelection p (Some b))
    | None =>
        e <~ lift (lookup h i) ;
        match epar e with
        | None => Done (NextInput, p)
        | Some q =>
            c <~ is_cont_at q ;
            if c : bool then r <~ row_at q ; Done (Redraw, setSelection p (Some r))
            else Done (NextInput, p)
        end
    end.

  (** curseSplitOutput.cpp:140-150 *)
  Definition split_pdown (p : split) : out (inputResult * split) :=
    w <~ at_ p (pact p) ;
    i <~ lift (wsel w) ;
    next <~ lift (findNext far h i) ;
    match next with
    | Some r => Done (Redraw, setSelection p (Some r))
    | None => Done (NextInput, p)
    end.

  Definition erase_opt (i : option Z) (l : list Z) : list Z := match i with Some i => remove i l | None => l end.
  Definition insert_opt (i : option Z) (l : list Z) : list Z := match i with Some i => insert i l | None => l end.

  (** curseSplitOutput.cpp:152-171 *)
  Definition split_expand (p : split) : out (inputResult * split) :=
    w <~ at_ p (pact p) ;
    match wsel w with
    | None => Done (NextInput, p)
    | Some i =>
        e <~ lift (lookup h i) ;
        let n := value_of e in
        if negb (is_container n) then Done (NextInput, p)
        else if mem (nid n) (pcoll p)
        then Done (Redraw, mkSplit (pwins p) (pact p) (erase_opt (equivalent (Some (nid n))) (remove (nid n) (pcoll p))))
        else match children n with
             | [] => Done (NextInput, p)
             | _ => split_down p
             end
    end.

  (** curseSplitOutput.cpp:173-197 *)
  Definition split_collapse (p : split) : out (inputResult * split) :=
    w <~ at_ p (pact p) ;
    i <~ lift (wsel w) ;
    e <~ lift (lookup h i) ;
    let n := value_of e in
    let stuck := negb (is_container n) || mem (nid n) (pcoll p) || match children n with [] => true | _ => false end in
    if match mpar (node_meta n) with Some _ => true | None => false end && stuck
    then q <~ lift (epar e) ; r <~ row_at q ; Done (Redraw, setSelection p (Some r))
    else Done (Redraw, mkSplit (pwins p) (pact p)
                 (insert_opt (equivalent (Some (nid n))) (insert (nid n) (pcoll p)))).

  (** curseSplitOutput.cpp:278-309 (jumpToNextSearch with two arguments): the new
      selectFound, and the element when it returns true. *)
  Section Jump2.
    Variable (res : list Z) (sel last : option Z).
    Definition jump2_here (i : Z) (found : bool) : bool * option Z :=
      let found := sel_is last i || found in
      (found, if mem i res && negb (sel_is sel i) && found then Some i else None).
    Fixpoint jump2 (n : node) (found : bool) : bool * option Z :=
      match n with
      | NPrim m _ => jump2_here (mid m) found
      | NArr m l =>
          (fix go (l : list node) (found : bool) : bool * option Z :=
             match l with
             | [] => (found, None)
             | x :: t =>
                 match jump2 x found with
                 | (found, Some r) => (found, Some r)
                 | (found, None) => go t found
                 end
             end) l (sel_is last (mid m) || found)
      | NObj m l =>
          (fix go (l : list (meta * bytes * node)) (found : bool) : bool * option Z :=
             match l with
             | [] => (found, None)
             | x :: t =>
                 match jump2_here (mid (fst (fst x))) found with
                 | (found, Some r) => (found, Some r)
                 | (found, None) =>
                     match jump2 (snd x) found with
                     | (found, Some r) => (found, Some r)
                     | (found, None) => go t found
                     end
                 end
             end) l (sel_is last (mid m) || found)
      end.
  End Jump2.

  (** [CurseOutput::redraw(message)], result dropped (curseOutput.cpp:158-164). *)
  Definition redraw_once (sc : screen) (p : split) : out split :=
    r <~ redraw_all h sc (pcoll p) dm (pwins p) ;
    Done (mkSplit (snd r) (pact p) (pcoll p)).

  (** curseSplitOutput.cpp:214-221 (nextResult) and 346-360 (jumpToNextSearch). *)
  Definition split_next (sc : screen) (p : split) : out (inputResult * split) :=
    w <~ at_ p (pact p) ;
    match wres w with
    | [] => p <~ redraw_once sc p ; Done (NextInput, p)
    | first :: _ =>
        match snd (jump2 (wres w) (wsel w) (wlast w) (wroot w) false) with
        | Some r =>
            c <~ lift (unfold far h (pcoll p) r) ;
            let p := setSelection p (Some r) in
            Done (Redraw, mkSplit (pwins p) (pact p) c)
        | None =>
            c <~ lift (unfold far h (pcoll p) first) ;
            let p := setSelection p (Some first) in
            p <~ redraw_once sc (mkSplit (pwins p) (pact p) c) ;
            Done (NextInput, p)
        end
    end.

  (** Replaces window [i]. *)
  Definition set_win (ws : list win) (i : Z) (w : win) : list win :=
    firstn (Z.to_nat i) ws ++ match skipn (Z.to_nat i) ws with [] => [] | _ :: t => w :: t end.

  (** curseSplitOutput.cpp:199-212 (initSearch) and 311-344 (search): every
      document is searched, all results go to the active window. *)
  Definition split_search (rx : bytes -> bool -> bytes -> bool) (prompt : option spat) (sc : screen) (p : split)
    : out (inputResult * split) :=
    match prompt with
    | None => Done (Redraw, p)
    | Some q =>
        let ws := map (fun w => set_wres w []) (pwins p) in
        if isEmpty q then Done (Redraw, mkSplit ws (pact p) (pcoll p))
        else
          w <~ at_ (mkSplit ws (pact p) (pcoll p)) (pact p) ;
          let found := flat_map (fun w => search h (fun e => match_ rx q (etext e) (ekind e)) (wroot w)) ws in
          split_next sc (mkSplit (set_win ws (pact p) (set_wres w found)) (pact p) (pcoll p))
    end.

  (** curseSplitOutput.cpp:223-248 (changeWindow).  int arithmetic, then
      conversion to unsigned short. *)
  Definition changeWindow (d : Z) (c : bool) (p : split) : out (inputResult * split) :=
    let nb := Z.of_nat (length (pwins p)) in
    if ((pact p + d <? 0) || (nb <=? pact p + d)) && negb c then Done (NextInput, p)
    else if nb =? 0 then Bad Undef
    else
      let p := mkSplit (pwins p) ((Z.rem (pact p + d) nb) mod 2 ^ 16) (pcoll p) in
      w <~ at_ p (pact p) ;
      Done (RedrawAll, match wsel w with Some _ => p | None => setSelection p (wlast w) end).

  (** curseOutput.cpp:117-156 (evalKey). *)
  Definition split_key (rx : bytes -> bool -> bytes -> bool) (sc : screen) (key : bytes) (prompt : option spat) (p : split)
    : out (inputResult * split) :=
    if beqb key (str "Q") then Done (Quit, p)
    else if beqb key (str "K") || beqb key (str "KEY_UP") then split_up p
    else if beqb key (str "J") || beqb key (str "KEY_DOWN") then split_down p
    else if beqb key (str "KEY_PPAGE") then split_pup p
    else if beqb key (str "KEY_NPAGE") then split_pdown p
    else if beqb key (str "L") || beqb key (str "KEY_RIGHT") then split_expand p
    else if beqb key (str "H") || beqb key (str "KEY_LEFT") then split_collapse p
    else if beqb key (str "/") then split_search rx prompt sc p
    else if beqb key (str "N") then split_next sc p
    else if beqb key (str "^W-W") then changeWindow 1 true p
    else if beqb key (str "^W-KEY_RIGHT") || beqb key (str "^W-L") then changeWindow 1 false p
    else if beqb key (str "^W-KEY_LEFT") || beqb key (str "^W-H") then changeWindow (-1) false p
    else Done (NextInput, p).

  (** How a sequence of events leaves the view: waiting for more, or out of its
      loop. *)
  Inductive ending : Type :=
  | Waits (sc : screen) (p : split)
  | Ends (sc : screen) (p : split).

  (** curseOutput.cpp:39-49 (loop), 56-89 (onsig), 106-115 (readInput): as
      SimpleView.wait; [fuel] bounds the number of redraws after each event.
      EvSize gives the terminal's size (curseSplitOutput.cpp:842-846). *)
  Definition split_screen (w hh : Z) (p : split) (sc : screen) : screen :=
    mkScreen (w / Z.of_nat (length (pwins p))) (usub hh 2) (slen sc).
  Fixpoint split_wait (rx : bytes -> bool -> bytes -> bool) (fuel : nat) (sc : screen) (p : split) (stop : bool) (evs : list event)
    : out ending :=
    match evs with
    | [] => Done (Waits sc p)
    | EvStop :: t => split_wait rx fuel sc p true t
    | EvSize w hh :: t =>
        let sc := split_screen w hh p sc in
        p <~ redraws fuel sc p ; split_wait rx fuel sc p stop t
    | EvKey k q :: t =>
        r <~ split_key rx sc k q p ;
        match r with
        | (Quit, p) => Done (Ends sc p)
        | (NextInput, p) => if stop then Done (Ends sc p) else split_wait rx fuel sc p stop t
        | (_, p) => p <~ redraws fuel sc p ; if stop then Done (Ends sc p) else split_wait rx fuel sc p stop t
        end
    end.
End Keys.

(** curseSplitOutput.cpp:51-67: a new window. *)
Definition new_win (root : node) : win :=
  mkWin root None (Some (nid root)) None None [] 0 0 0 [] false [] [] [].

(** curseSplitOutput.cpp:43-86 (run) for two documents; [w] and [hh] are the
    terminal's size, [len] is lazystrlen. *)
Definition split_memory (a b : node) : list elem := elems a ++ elems b.
Definition split_run (rx : bytes -> bool -> bytes -> bool) (fuel : nat) (len : elem -> Z) (w hh : Z) (a b : node) (evs : list event)
  : out ending :=
  match build a b with
  | inr _ => Bad Undef
  | inl dm =>
      let h := split_memory a b in
      let p := setSelection dm (mkSplit [new_win a; new_win b] 0 []) (Some (nid a)) in
      let sc := split_screen w hh p (mkScreen 0 0 len) in
      p <~ redraws h dm fuel sc p ;
      split_wait h dm rx fuel sc p false evs
  end.

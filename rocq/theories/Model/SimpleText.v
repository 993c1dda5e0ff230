(** The texts and colours the view of one document puts on screen: the drawing of
    Model/SimpleView.v (draw) with what each write prints.  How the terminal
    shows it (wrapping, control characters, width of characters) is not modelled. *)
From Verif Require Export Model.SimpleView.
Open Scope Z_scope.

(** outputFlag.cpp:9-26: TYPE_STRING to TYPE_NULL and SPECIAL_SEARCH. *)
Definition OUT_STRING : Z := 1.
Definition OUT_NUMBER : Z := 2.
Definition OUT_BOOL : Z := 3.
Definition OUT_OBJ : Z := 4.
Definition OUT_OBJKEY : Z := 5.
Definition OUT_ARR : Z := 6.
Definition OUT_NULL : Z := 7.
Definition OUT_SEARCH : Z := 51.

(** outputFlag.hh:47-55 (the members mode, by bits, and _type). *)
Record flags : Type := mkFlags { flag_selected : bool; flag_searched : bool; flag_type : Z }.
(** outputFlag.cpp:61-62 (type). *)
Definition retype (f : flags) (t : Z) : flags := mkFlags (flag_selected f) (flag_searched f) t.

(** What is printed: text, in reverse and bold, colour pair. *)
Record piece : Type := mkPiece { ptext : bytes; preverse : bool; ppair : option Z }.
(** One call of writeKey or of write with coordinates: screen line, column, the
    texts printed one after the other. *)
Record printed : Type := mkPrinted { cline : Z; ccol : Z; cpieces : list piece }.

(** What a C string holds of a std::string (c_str() printed with %s). *)
Fixpoint c_str (s : bytes) : bytes :=
  match s with
  | [] => []
  | c :: t => if (nat_of_ascii c =? 0)%nat then [] else c :: c_str t
  end.

(** curseOutput.cpp:325-329: the set [colors], empty without colours. *)
Definition colors (enabled : bool) : list Z :=
  if enabled then [OUT_NUMBER; OUT_BOOL; OUT_STRING; OUT_OBJKEY; OUT_NULL] else [].

(** curseSimpleOutput.cpp:355-372 and 385-401: attributes and colour of a text. *)
Definition print_as (enabled : bool) (f : flags) (text : bytes) : piece :=
  mkPiece text (flag_selected f)
    (if flag_searched f then Some OUT_SEARCH else if mem (flag_type f) (colors enabled) then Some (flag_type f) else None).

(** curseSimpleOutput.cpp:436-456 (getFlag). *)
Definition node_type (n : node) : Z :=
  match n with
  | NPrim _ (PStr _) => OUT_STRING
  | NPrim _ (PBool _) => OUT_BOOL
  | NPrim _ PNull => OUT_NULL
  | NPrim _ _ => OUT_NUMBER
  | NObj _ _ => OUT_OBJ
  | NArr _ _ => OUT_ARR
  end.
Definition getFlag (res : list Z) (sel : option Z) (e : elem) : flags :=
  mkFlags (sel_is sel (eid e)) (mem (eid e) res) (node_type match e with ENode n => n | EEntry _ _ v => v end).

(** stringify: jsonObjectEntry.cpp:42-45, jsonPrimitive.hh:68-70 (containers are
    not printed this way). *)
Definition prim_text (n : node) : bytes := match n with NPrim _ p => prim_string p | _ => [] end.

(** The brackets: curseSimpleOutput.cpp:212-222; 255-280. *)
Definition opening (n : node) : bytes := match n with NObj _ _ => str "{" | _ => str "[" end.
Definition closing (n : node) : bytes := match n with NObj _ _ => str "}" | _ => str "]" end.
Definition folded (n : node) : bytes := opening n ++ str " ... " ++ closing n.
Definition hollow (n : node) : bytes := opening n ++ str " " ++ closing n.

Section Paint.
  (** As for [draw]; [res] is search_result, [enabled] is params.colorEnabled(). *)
  Variable (h : list elem) (sc : screen) (coll res : list Z) (enabled : bool).

  (** Drawing state and what is on screen, the latest first. *)
  Record pst : Type := mkP { pd : dst; pcells : list printed }.

  Definition checking (sel : option Z) (e : elem) (p : pst) : pst := mkP (checkSelection h sel e (pd p)) (pcells p).
  Definition bottom (p : pst) : bool := at_bottom sc (pd p).

  (** A write of [SimpleView.draw] ([k]) that prints [pieces]: only below scrollTop
      (curseSimpleOutput.cpp:316-320, 332-336, 357-358, 378-379). *)
  Definition printing (x : Z) (pieces : list piece) (s s' : dst) (c : list printed) : pst :=
    mkP s' (if dy s <=? dscroll s then c else mkPrinted (dy s - dscroll s) x pieces :: c).

  (** curseSimpleOutput.cpp:353-383. *)
  Definition put (sel : option Z) (e : elem) (x len : Z) (text : bytes) (p : pst) : option pst :=
    obind (write sel (eid e) x len (sw sc) (pd p)) (fun s =>
      Some (printing x [print_as enabled (getFlag res sel e) text] (pd p) s (pcells p))).

  (** curseSimpleOutput.cpp:314-328: the key, then ": ". *)
  Definition putKey (sel : option Z) (e : elem) (x : Z) (key : bytes) (p : pst) : option (bool * pst) :=
    let f := getFlag res sel e in
    obind (writeKey sc sel e x (pd p)) (fun '(b, s) =>
      Some (b, printing x [print_as enabled (retype f OUT_OBJKEY) (c_str key);
                           print_as enabled (retype f OUT_OBJ) (str ": ")] (pd p) s (pcells p))).

  (** curseSimpleOutput.cpp:330-351: the key, ": ", and [after]. *)
  Definition putKeyAfter (sel : option Z) (e : elem) (x : Z) (key after : bytes) (len : Z) (p : pst) : option (bool * pst) :=
    let f := getFlag res sel e in
    obind (writeKeyAfter sc sel e x len (pd p)) (fun '(b, s) =>
      Some (b, printing x [print_as enabled (retype f OUT_OBJKEY) (c_str key);
                           print_as enabled (retype f OUT_OBJ) (str ": ");
                           print_as enabled f (c_str after)] (pd p) s (pcells p))).

  (** curseSimpleOutput.cpp:210-235 (writeContainer). *)
  Definition putContainer (sel : option Z) (n : node) (x : Z) (content : pst -> option (bool * pst)) (p : pst)
    : option (bool * pst) :=
    if mem (nid n) coll
    then obind (put sel (ENode n) x 7 (folded n) p) (fun p => Some (negb (bottom p), p))
    else
      obind (put sel (ENode n) x 1 (opening n) p) (fun p =>
        if bottom p then Some (false, p)
        else obind (content p) (fun '(b, p) =>
          if b then obind (put sel (ENode n) x 1 (closing n) p) (fun p => Some (negb (bottom p), p))
          else Some (false, p))).

  (** curseSimpleOutput.cpp:249-300: one entry of an object. *)
  Definition putEntry (sel : option Z) (x : Z) (m : meta) (k : bytes) (v : node)
    (inner : option Z -> pst -> option (bool * pst)) (p : pst) : option (bool * pst) :=
    let e := EEntry m k v in
    let p := checking sel e p in
    let inline after len :=
      obind (putKeyAfter sel e x k after len p) (fun '(b, p) => Some (b && negb (bottom p), p)) in
    if is_container v && mem (nid v) coll then inline (folded v) 7
    else if negb (is_container v) then inline (prim_text v) (slen sc (ENode v))
    else match children v with
         | [] => inline (hollow v) 3
         | _ =>
             obind (putKey sel e x k p) (fun '(b, p) =>
               if b then inner (if sel_is sel (mid m) then Some (nid v) else sel) p
               else Some (false, p))
         end.

  (** curseSimpleOutput.cpp:193-208 (redraw of an element) and 237-312
      (writeContent). *)
  Fixpoint paint (x : Z) (sel : option Z) (n : node) (p : pst) : option (bool * pst) :=
    let p := checking sel (ENode n) p in
    match n with
    | NPrim _ _ =>
        obind (put sel (ENode n) x (slen sc (ENode n)) (c_str (prim_text n)) p) (fun p => Some (negb (bottom p), p))
    | NArr _ l =>
        putContainer sel n x
          (fun p =>
             (fix go (l : list node) (p : pst) : option (bool * pst) :=
                match l with
                | [] => Some (true, p)
                | c :: t =>
                    obind (paint (x + INDENT_LEVEL) sel c p) (fun '(b, p) =>
                      if b then go t p else Some (false, p))
                end) l p) p
    | NObj _ l =>
        putContainer sel n x
          (fun p =>
             (fix go (l : list (meta * bytes * node)) (p : pst) : option (bool * pst) :=
                match l with
                | [] => Some (true, p)
                | c :: t =>
                    obind (putEntry sel (x + INDENT_LEVEL) (fst (fst c)) (snd (fst c)) (snd c)
                             (fun sel p => paint (x + INDENT_LEVEL + INDENT_LEVEL / 2) sel (snd c) p) p)
                      (fun '(b, p) => if b then go t p else Some (false, p))
                end) l p) p
    end.
End Paint.

(** curseSimpleOutput.cpp:35-76: what is on screen after [redraw sc v] (below the
    line of writeTopLine), from top to bottom. *)
Definition painted (root : node) (enabled : bool) (sc : screen) (v : view) : option (list printed) :=
  option_map (fun r => rev (pcells (snd r)))
    (paint (mem_of root) sc (vcoll v) (vres v) enabled 0 (vsel v) root (mkP (mkD 1 (vscroll v) None None false []) [])).

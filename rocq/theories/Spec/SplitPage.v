(** What a document looks like in one of two windows. *)
From Verif Require Export Spec.PageSpec Spec.SplitSpec Model.SplitText.
Open Scope Z_scope.

Section Page.
  (** Width of the text of an element; containers not to be shown. *)
  Variable (len : elem -> Z) (coll : list Z).

  (** The strips of [n] at column [x], shown by row [r].  As [page], except that the
      value of an entry is below its name, not to the right of that. *)
  Fixpoint half_page (r x : Z) (n : node) : list strip :=
    let one t w := [mkStrip (nid n) r x [t] w 0] in
    match n with
    | NPrim _ p => one (scalar_text p) (len (ENode n))
    | NArr _ l =>
        if hidden coll n then one (mark "[ ... ]") 7
        else one (mark "[") 1 ++ flat_map (fun c => half_page (nid c) (x + 4) c) l ++ one (mark "]") 1
    | NObj _ l =>
        if hidden coll n then one (mark "{ ... }") 7
        else one (mark "{") 1 ++
             flat_map (fun c =>
               let e := mid (fst (fst c)) in let k := snd (fst c) in let v := snd c in
               let name := len (EEntry (fst (fst c)) k v) in
               let strip t w margin := mkStrip e e (x + 4) ([(Name, before_nul k); mark ": "] ++ t) w margin in
               match v with
               | NPrim _ p => [strip [scalar_text p] (name + 2 + len (ENode v)) 0]
               | NArr _ inner =>
                   if hidden coll v then [strip [mark "[ ... ]"] (name + 2 + 7) 0]
                   else match inner with
                        | [] => [strip [mark "[ ]"] (name + 2 + 3) 0]
                        | _ => strip [] name 2 :: half_page e (x + 4) v
                        end
               | NObj _ inner =>
                   if hidden coll v then [strip [mark "{ ... }"] (name + 2 + 7) 0]
                   else match inner with
                        | [] => [strip [mark "{ }"] (name + 2 + 3) 0]
                        | _ => strip [] name 2 :: half_page e (x + 4) v
                        end
               end) l ++ one (mark "}") 1
    end.
End Page.

(** Strips with the line each begins on, from line [y] on: none begins before the
    one above it ends.  Those above the window take one line. *)
Definition ends_at (w top : Z) (p : Z * strip) : Z := fst p + (if fst p <=? top then 1 else lines_of w (snd p)).
Fixpoint spaced (w top y : Z) (l : list (Z * strip)) : Prop :=
  match l with [] => True | p :: t => y <= fst p /\ spaced w top (ends_at w top p) t end.

(** The window [w] of [width] columns and [height] lines, the first of which holds
    the name of the file, shows the beginning of its document from line [wscroll w]
    on: to the end of the document or to the first strip that reaches the end of the
    window. *)
Definition window_shows (h : list elem) (len : elem -> Z) (coll res : list Z) (colours : bool) (width height : Z) (w : win) : Prop :=
  exists drawn rest,
    half_page len coll (nid (wroot w)) 2 (wroot w) = map snd drawn ++ rest /\
    spaced width (wscroll w) 1 drawn /\
    cells_of h res colours w = map (fun p => shown_as colours (wsel w) res (fst p - wscroll w, snd p)) (filter (fun p => wscroll w <? fst p) drawn) /\
    map (fun x => (fst (fst x), snd x)) (rev (wlog w)) = map (fun p => (holder (snd p), fst p)) drawn /\
    (rest = [] /\ Forall (fun p => ends_at width (wscroll w) p - wscroll w < height) drawn \/
     exists before p, drawn = before ++ [p] /\ Forall (fun p => ends_at width (wscroll w) p - wscroll w < height) before /\
       height <= ends_at width (wscroll w) p - wscroll w).

(** Everything printed is on a line of the window, below the name of the file. *)
Definition inside_window (height : Z) (l : list printed) : Prop := Forall (fun c => 1 <= cline c < height) l.

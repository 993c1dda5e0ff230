(** Strips of a document and marks of the comparison on the cells of a window. *)
From Verif Require Export Model.WindowCells Spec.CellSpec Spec.SplitPage.
Open Scope Z_scope.

(** The two cells of a mark on line [y] of a window of [h] lines of [w] columns. *)
Definition marks_cell (w h : Z) (m : Z * op) (q : Z) : Prop := 0 <= fst m < h /\ fst m * w <= q < fst m * w + 2.
Definition mark_letter (o : op) : ascii :=
  match o with OAdd => "+" | OMod => "!" | ORem => "-" | OEqu => " " end%char.

(** The name on the top line, the strips on their lines and the marks in the first two
    columns, nothing else.  What is in a cell where there are both is left open, as is
    the last cell of the window if a strip goes beyond it. *)
Definition window_displays (w h : Z) (name : bytes) (l : list (Z * strip)) (marks : list (Z * op)) (cell : Z -> ascii) : Prop :=
  (forall q, 0 <= q < w -> cell q = nth (Z.to_nat q) name " "%char) /\
  (forall p q, In p l -> covers w p q -> q < w * h -> (forall m, In m marks -> ~ marks_cell w h m q) ->
     q <> w * h - 1 \/ first_cell w p + Z.of_nat (length (letters (snd p))) <= w * h ->
     cell q = nth (Z.to_nat (q - first_cell w p)) (letters (snd p)) " "%char) /\
  (forall m q, In m marks -> marks_cell w h m q -> (forall p, In p l -> ~ covers w p q) -> (forall m', In m' marks -> fst m' = fst m -> snd m' = snd m) ->
     cell q = mark_letter (snd m)) /\
  (forall q, w <= q < w * h -> (forall p, In p l -> ~ covers w p q) -> (forall m, In m marks -> ~ marks_cell w h m q) -> cell q = " "%char).

(** The strips of a window that begin below its title, where it is scrolled to [top]. *)
Definition in_view (top : Z) (drawn : list (Z * strip)) : list (Z * strip) :=
  map (fun p => (fst p - top, snd p)) (filter (fun p => top <? fst p) drawn).

(** A window of [width] columns and [height] lines after [inks] were printed: it shows
    the beginning of the document, as far as the window goes. *)
Definition window_right (len : elem -> Z) (coll : list Z) (width height : Z) (name : bytes) (w : win) (inks : list ink) : Prop :=
  exists drawn rest,
    half_page len coll (nid (wroot w)) 2 (wroot w) = map snd drawn ++ rest /\
    spaced width (wscroll w) 1 drawn /\
    (rest = [] \/ exists before p, drawn = before ++ [p] /\ height <= ends_at width (wscroll w) p - wscroll w) /\
    window_displays width height name (in_view (wscroll w) drawn) (wmarks w) (tcell (window_cells name width height inks)).

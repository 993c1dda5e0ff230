(** Strips of the page on the cells of a screen. *)
From Verif Require Export Model.Terminal Spec.PageSpec.
Open Scope Z_scope.

(** The characters of a strip. *)
Definition letters (s : strip) : bytes := flat_map snd (texts s).
(** Printable ASCII: one column per byte. *)
Definition printable (s : bytes) : Prop := Forall (fun c => 32 <= uchar c < 127) s.
(** The texts of a document are printable, and their widths known. *)
Definition readable (root : node) (sc : screen) : Prop :=
  forall e, In e (elems root) -> printable (etext e) /\ slen sc e = Z.of_nat (length (etext e)).

(** Strip [s] on line [y]: where its characters are in reading order. *)
Definition first_cell (w : Z) (p : Z * strip) : Z := fst p * w + column (snd p).
Definition covers (w : Z) (p : Z * strip) (q : Z) : Prop := first_cell w p <= q < first_cell w p + Z.of_nat (length (letters (snd p))).

(** The name on the top line, the strips on their lines, as many of their characters
    as there is room for, nothing else.  The last cell of the screen is left out if
    a strip goes beyond it. *)
Definition displays (w h : Z) (name : bytes) (l : list (Z * strip)) (cell : Z -> ascii) : Prop :=
  (forall q, 0 <= q < w -> cell q = nth (Z.to_nat q) name " "%char) /\
  (forall p q, In p l -> covers w p q -> q < w * h ->
     q <> w * h - 1 \/ first_cell w p + Z.of_nat (length (letters (snd p))) <= w * h ->
     cell q = nth (Z.to_nat (q - first_cell w p)) (letters (snd p)) " "%char) /\
  (forall q, w <= q < w * h -> (forall p, In p l -> ~ covers w p q) -> cell q = " "%char).
(** The last cell of the screen. *)
Definition last_cell_right (w h : Z) (l : list (Z * strip)) (cell : Z -> ascii) : Prop :=
  forall p, In p l -> covers w p (w * h - 1) ->
    cell (w * h - 1) = nth (Z.to_nat (w * h - 1 - first_cell w p)) (letters (snd p)) " "%char.

(** A redraw that led to [v] and printed [ps] shows the page from the strip on that
    is scrolled to, down to the end of the page or of the screen. *)
Definition screen_right (root : node) (sc : screen) (name : bytes) (v : view) (ps : list printed) (also : list (Z * strip) -> (Z -> ascii) -> Prop) : Prop :=
  exists above shown below,
    page (slen sc) (vcoll v) (nid root) 0 root = above ++ shown ++ below /\
    Z.of_nat (length above) = vscroll v /\
    (below = [] \/ sh sc - 1 <= total_lines (sw sc) shown) /\
    let cell := tcell (terminal name (sw sc) (sh sc) ps) in
    displays (sw sc) (sh sc) name (stacked (sw sc) 1 shown) cell /\ also (stacked (sw sc) 1 shown) cell.

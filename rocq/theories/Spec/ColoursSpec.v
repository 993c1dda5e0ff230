(** What can be told from the colours on the terminal. *)
From Verif Require Export Model.Colours Spec.PageSpec.
Open Scope Z_scope.

(** The look of what was found: white on blue. *)
Definition marked_found (s : seen) : Prop := seen_colours s = Some (White, Blue).

(** The colours of what was not: green numbers, red truth values and null, cyan
    strings and names, brackets as the terminal writes. *)
Definition plain_colours (k : kind) : option (colour * colour) :=
  match k with Number => Some (Green, Black) | Truth | Nothing => Some (Red, Black) | Text | Name => Some (Cyan, Black) | Mark => None end.

(** A strip and its look: where it is, its texts in order and each of them marked
    if, and only if, the strip is of an element of [res]; in reverse if, and only if,
    its row is selected. *)
Definition looks_right (sel : option Z) (res : list Z) (p : Z * strip) (c : Z * Z * list seen) : Prop :=
  fst (fst c) = fst p /\ snd (fst c) = column (snd p) /\
  Forall2 (fun t s => seen_text s = snd t /\
                      (seen_reverse s = true <-> sel = Some (row (snd p))) /\
                      (marked_found s <-> In (holder (snd p)) res) /\
                      (~ In (holder (snd p)) res -> seen_colours s = plain_colours (fst t)))
          (texts (snd p)) (snd c).

(** Text and background differ. *)
Definition legible (s : seen) : Prop := match seen_colours s with Some (t, b) => t <> b | None => True end.

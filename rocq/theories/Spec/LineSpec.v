(** One line of text on a screen. *)
From Verif Require Import Spec.ViewSpec.
From Verif Require Export Model.Lines.
Open Scope Z_scope.

(** Line [y] of [w] columns shows the beginning of [text], then blanks; every
    other line is as before. *)
Definition line_shows (w y : Z) (text : bytes) (before after : Z -> Z -> ascii) : Prop :=
  (forall col, 0 <= col < w -> after y col = nth (Z.to_nat col) text " "%char) /\
  (forall line col, line <> y -> after line col = before line col).

(** What the bottom line says is so: no result, or the first result is selected. *)
Definition truthful (v : view) (b : bottom) : Prop :=
  match b with
  | Blank => True
  | Says t => t = not_found /\ vres v = [] \/ t = hit_bottom /\ exists r l, vres v = r :: l /\ vsel v = Some r
  | Typed => False
  end.

(** The line when the next of the results [res] is looked for among the rows
    [after] the selected one. *)
Definition says_of (res after : list Z) (b : bottom) : Prop :=
  match res with
  | [] => b = Says (str "Pattern not found")
  | _ =>
      ((exists r, In r res /\ In r after) -> b = Blank) /\
      ((forall r, In r res -> ~ In r after) -> b = Says (str "Search hit BOTTOM, continuing at TOP"))
  end.

(** The rows of the names and scalars of a document that match. *)
Definition matching (rx : bytes -> bool -> bytes -> bool) (q : spat) (n : node) : list Z :=
  map fst (filter (fun x => match snd x with
                            | Scalar a => match_ rx q (tree_string (TPrim a)) (EPrim a)
                            | Key k => match_ rx q k SearchPattern.EEntry
                            end) (items (nid n) n)).

(** In the comparison: what a message says is so. *)
Definition truthful_now (p : split) (b : bottom) : Prop :=
  exists w, nth_error (pwins p) (Z.to_nat (pact p)) = Some w /\
    match b with
    | Says t => t = not_found /\ wres w = [] \/ t = hit_bottom /\ exists r l, wres w = r :: l /\ wsel w = Some r
    | _ => False
    end.

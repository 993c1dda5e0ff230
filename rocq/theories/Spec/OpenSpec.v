(** What the terminal shows when a file has been opened. *)
From Verif Require Export Spec.PageSpec Spec.JsonGrammar Spec.TreeSpec.
Open Scope Z_scope.

(** A document drawn from column [x] on: for each line whether it is in reverse
    ([sel]: those of the document itself are), its column and its texts. *)
Fixpoint sketch (sel : bool) (x : Z) (t : tree) : list (bool * Z * list (kind * bytes)) :=
  match t with
  | TPrim p => [(sel, x, [scalar_text p])]
  | TArr l => (sel, x, [mark "["]) :: flat_map (sketch false (x + 4)) l ++ [(sel, x, [mark "]"])]
  | TObj l =>
      (sel, x, [mark "{"]) ::
      flat_map (fun c =>
        let line t := (false, x + 4, [(Name, before_nul (fst c)); mark ": "] ++ t) in
        match snd c with
        | TPrim p => [line [scalar_text p]]
        | TArr inner => match inner with [] => [line [mark "[ ]"]] | _ => line [] :: sketch false (x + 4 + 2) (snd c) end
        | TObj inner => match inner with [] => [line [mark "{ }"]] | _ => line [] :: sketch false (x + 4 + 2) (snd c) end
        end) l ++ [(sel, x, [mark "}"])]
  end.

(** One below the other from line [y] on, with colours or without. *)
Fixpoint one_per_line {A} (y : Z) (l : list A) : list (Z * A) :=
  match l with [] => [] | s :: t => (y, s) :: one_per_line (y + 1) t end.
Definition drawn_as (colours : bool) (p : Z * (bool * Z * list (kind * bytes))) : printed :=
  let '(y, (sel, x, ts)) := p in mkPrinted y x (map (fun t => mkPiece (snd t) sel (pair_of colours false (fst t))) ts).

(** Each line of the document is no longer than [w]. *)
Definition line_length (s : bool * Z * list (kind * bytes)) : Z :=
  snd (fst s) + fold_right (fun t n => Z.of_nat (length (snd t)) + n) 0 (snd s).
Definition narrow (w : Z) (t : tree) : Prop := Forall (fun s => line_length s <= w) (sketch true 0 t).
(** Levels. *)
Fixpoint depth (t : tree) : nat :=
  match t with
  | TPrim _ => 1
  | TArr l => S (fold_right (fun x d => Nat.max (depth x) d) 0 l)
  | TObj l => S (fold_right (fun x d => Nat.max (depth (snd x)) d) 0 l)
  end%nat.

(** Texts that fit on a line are measured in bytes, as those of ASCII are (C54). *)
Definition measures (sc : screen) : Prop :=
  (forall e, 0 <= slen sc e < 2 ^ 30) /\
  forall e, Z.of_nat (length (before_nul (etext e))) <= sw sc -> slen sc e = Z.of_nat (length (before_nul (etext e))).

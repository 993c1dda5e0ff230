(** The options a text mentions. *)
From Verif Require Export Model.Usage.

(** Words end at blanks, commas and brackets. *)
Definition ends_word (c : ascii) : bool := existsb (Ascii.eqb c) [" "; ","; "["; "]"]%char.
Fixpoint words (s : bytes) (w : bytes) : list bytes :=
  match s with
  | [] => [w]
  | c :: t => if ends_word c then w :: words t [] else words t (w ++ [c])
  end.
(** Those that begin with a dash (tabs and ends of lines are pieces of their own). *)
Definition options_in (l : list piece) : list bytes :=
  filter (fun w => match w with c :: _ => Ascii.eqb c "-" | [] => false end) (flat_map (fun x => match x with Lit s => words (str s) [] | _ => [] end) l).

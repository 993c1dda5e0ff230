(** What two windows show when two files have been opened. *)
From Verif Require Export Spec.OpenSpec Spec.SplitPage.
Open Scope Z_scope.

(** A document in one of two windows, drawn from column [x] on: for each line
    whether it is in reverse ([sel]: those of the document itself are), its column
    and its texts.  As [sketch], except that the value of an entry is below its
    name. *)
Fixpoint half_sketch (sel : bool) (x : Z) (t : tree) : list (bool * Z * list (kind * bytes)) :=
  match t with
  | TPrim p => [(sel, x, [scalar_text p])]
  | TArr l => (sel, x, [mark "["]) :: flat_map (half_sketch false (x + 4)) l ++ [(sel, x, [mark "]"])]
  | TObj l =>
      (sel, x, [mark "{"]) ::
      flat_map (fun c =>
        let line t := (false, x + 4, [(Name, before_nul (fst c)); mark ": "] ++ t) in
        match snd c with
        | TPrim p => [line [scalar_text p]]
        | TArr inner => match inner with [] => [line [mark "[ ]"]] | _ => line [] :: half_sketch false (x + 4) (snd c) end
        | TObj inner => match inner with [] => [line [mark "{ }"]] | _ => line [] :: half_sketch false (x + 4) (snd c) end
        end) l ++ [(sel, x, [mark "}"])]
  end.

(** On lines further and further down, the first not above line [y]. *)
Fixpoint descends (y : Z) (l : list printed) : Prop :=
  match l with [] => True | p :: t => y <= cline p /\ descends (cline p + 1) t end.

(** Lines no longer than [w], and texts no longer than that measured in bytes, as
    those of ASCII are (C54). *)
Definition half_narrow (w : Z) (t : tree) : Prop := Forall (fun s => line_length s <= w) (half_sketch true 2 t).
Definition measured (len : elem -> Z) (w : Z) : Prop :=
  forall e, Z.of_nat (length (before_nul (etext e))) <= w -> len e = Z.of_nat (length (before_nul (etext e))).

(** The texts [ps] of a window of [width] columns and [height] lines are the first
    of the document [t], in reverse or not, at the columns and in the colours they
    should have, one below the other; only the last may be below the window.  When
    the lines are no longer than the window, all of them are there or the window is
    full. *)
Definition opens_as (len : elem -> Z) (colours sel : bool) (width height : Z) (t : tree) (ps : list printed) : Prop :=
  ps <> [] /\ descends 1 ps /\
  map (fun q => (ccol q, cpieces q)) ps =
    firstn (length ps) (map (fun s => (ccol (drawn_as colours (0, s)), cpieces (drawn_as colours (0, s)))) (half_sketch sel 2 t)) /\
  Forall (fun q => cline q < height - 1) (removelast ps) /\
  (half_narrow width t -> measured len width ->
   length ps = length (half_sketch sel 2 t) \/ exists before q, ps = before ++ [q] /\ height - 1 <= cline q).

(** The first text is on the first line below the name. *)
Definition on_top (ps : list printed) : Prop := exists c l, ps = c :: l /\ cline c = 1.

(** What a document looks like on screen: the whole page, and the part of it in
    the window. *)
From Verif Require Export Model.SimpleText Spec.ViewerSpec.
Open Scope Z_scope.

(** What a text is. *)
Inductive kind : Type := Name | Mark | Text | Number | Truth | Nothing.

(** A text written in one go: the element it belongs to and the row that shows it,
    column, texts, width; [margin] columns of the window are not used. *)
Record strip : Type := mkStrip { holder : Z; row : Z; column : Z; texts : list (kind * bytes); extent : Z; margin : Z }.

(** Texts end at a NUL byte. *)
Fixpoint before_nul (s : bytes) : bytes :=
  match s with [] => [] | c :: t => if Ascii.eqb c Ascii.zero then [] else c :: before_nul t end.

Definition scalar_text (p : prim) : kind * bytes :=
  (match p with PStr _ => Text | PBool _ => Truth | PNull => Nothing | _ => Number end, before_nul (tree_string (TPrim p))).
Definition mark (s : string) : kind * bytes := (Mark, str s).

Section Page.
  (** Width of the text of an element; containers not to be shown. *)
  Variable (len : elem -> Z) (coll : list Z).
  Definition hidden (n : node) : bool := existsb (Z.eqb (nid n)) coll.

  (** The strips of [n] at column [x], shown by row [r]: a scalar; or "{ ... }" for
      what is folded; or "{", what is inside four columns further and "}".  An
      entry is its name, ": " and, in the same strip, a scalar, "{ ... }" or "{ }";
      other containers follow, two more columns to the right. *)
  Fixpoint page (r x : Z) (n : node) : list strip :=
    let one t w := [mkStrip (nid n) r x [t] w 0] in
    match n with
    | NPrim _ p => one (scalar_text p) (len (ENode n))
    | NArr _ l =>
        if hidden n then one (mark "[ ... ]") 7
        else one (mark "[") 1 ++ flat_map (fun c => page (nid c) (x + 4) c) l ++ one (mark "]") 1
    | NObj _ l =>
        if hidden n then one (mark "{ ... }") 7
        else one (mark "{") 1 ++
             flat_map (fun c =>
               let e := mid (fst (fst c)) in let k := snd (fst c) in let v := snd c in
               let name := len (EEntry (fst (fst c)) k v) in
               let strip t w margin := mkStrip e e (x + 4) ([(Name, before_nul k); mark ": "] ++ t) w margin in
               match v with
               | NPrim _ p => [strip [scalar_text p] (name + 2 + len (ENode v)) 0]
               | NArr _ inner =>
                   if hidden v then [strip [mark "[ ... ]"] (name + 2 + 7) 0]
                   else match inner with
                        | [] => [strip [mark "[ ]"] (name + 2 + 3) 0]
                        | _ => strip [] name 2 :: page e (x + 4 + 2) v
                        end
               | NObj _ inner =>
                   if hidden v then [strip [mark "{ ... }"] (name + 2 + 7) 0]
                   else match inner with
                        | [] => [strip [mark "{ }"] (name + 2 + 3) 0]
                        | _ => strip [] name 2 :: page e (x + 4 + 2) v
                        end
               end) l ++ one (mark "}") 1
    end.
End Page.

(** Lines a strip takes in a window of [w] columns: enough for what is left of it
    and its own width.  Strips one below the other from line [y] on. *)
Definition lines_of (w : Z) (s : strip) : Z := (column s + extent s + (w - margin s) - 1) / (w - margin s).
Fixpoint stacked (w y : Z) (l : list strip) : list (Z * strip) :=
  match l with [] => [] | s :: t => (y, s) :: stacked w (y + lines_of w s) t end.
Definition total_lines (w : Z) (l : list strip) : Z := fold_right (fun s n => lines_of w s + n) 0 l.

(** Colour pairs: search results have one, names and scalars others if colours
    are used. *)
Definition pair_of (colours searched : bool) (k : kind) : option Z :=
  if searched then Some 51
  else if colours
  then match k with Text => Some 1 | Number => Some 2 | Truth => Some 3 | Name => Some 5 | Nothing => Some 7 | Mark => None end
  else None.

(** A strip on screen: in reverse when its row is selected; and as an entry of the
    list of lines (vlines). *)
Definition is_selected (sel : option Z) (s : strip) : bool := match sel with Some i => i =? row s | None => false end.
Definition shown_as (colours : bool) (sel : option Z) (res : list Z) (p : Z * strip) : printed :=
  mkPrinted (fst p) (column (snd p))
    (map (fun t => mkPiece (snd t) (is_selected sel (snd p))
                     (pair_of colours (existsb (Z.eqb (holder (snd p))) res) (fst t))) (texts (snd p))).
Definition listed_as (sel : option Z) (p : Z * strip) : Z * Z * bool := (holder (snd p), fst p, is_selected sel (snd p)).

(** Where the strips are and what they say. *)
Definition looks (s : strip) : Z * list (kind * bytes) := (column s, texts s).
(** Same documents up to what different numbers may have in common: their text. *)
Inductive alike : tree -> tree -> Prop :=
| AL_prim p q : scalar_text p = scalar_text q -> alike (TPrim p) (TPrim q)
| AL_arr l l' : Forall2 alike l l' -> alike (TArr l) (TArr l')
| AL_obj l l' : Forall2 (fun a b => before_nul (fst a) = before_nul (fst b) /\ alike (snd a) (snd b)) l l' -> alike (TObj l) (TObj l').

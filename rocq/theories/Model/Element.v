(** src/jsonElement.cpp: getLevel. *)
From Verif Require Export Model.Json.
Open Scope Z_scope.

(** The memory holding the elements of a document: their metas. *)
Fixpoint heap (n : node) : list meta :=
  match n with
  | NPrim m _ => [m]
  | NArr m l => m :: flat_map heap l
  | NObj m l => m :: flat_map (fun x => fst (fst x) :: heap (snd x)) l
  end.

(** Dereference a pointer. *)
Definition find_meta (h : list meta) (i : Z) : option meta :=
  find (fun m => mid m =? i) h.

(** jsonElement.cpp:48-54 (getLevel): follows [parent] and counts.  [None]:
    dangling pointer, or the chain has more than [fuel] elements.
    ([unsigned int] overflow is not modelled: it needs 2^32 nested elements.) *)
Fixpoint getLevel (fuel : nat) (h : list meta) (p : option Z) : option nat :=
  match p with
  | None => Some O
  | Some i =>
      match fuel with
      | O => None
      | S f =>
          match find_meta h i with
          | None => None
          | Some m => option_map S (getLevel f h (mpar m))
          end
      end
  end.

(** Moving in a document: src/jsonElement.cpp:66-104, and the traversals of
    src/curseSimpleOutput.cpp:403-485 and src/curseOutput.cpp:195-202. *)
From Verif Require Export Model.SearchPattern Model.Diff.
Open Scope Z_scope.

(** The memory holding a document: every JSonElement reachable from its root. *)
Fixpoint elems (n : node) : list elem :=
  ENode n ::
  match n with
  | NPrim _ _ => []
  | NArr _ l => flat_map elems l
  | NObj _ l => flat_map (fun x => EEntry (fst (fst x)) (snd (fst x)) (snd x) :: elems (snd x)) l
  end.

(** Dereference a pointer; [None] when nothing live is there. *)
Definition lookup (h : list elem) (i : Z) : option elem := find (fun e => eid e =? i) h.

(** jsonElement.hh:62-66 (the member parent). *)
Definition epar (e : elem) : option Z :=
  match e with ENode n => mpar (node_meta n) | EEntry m _ _ => mpar m end.

(** The element itself, or the value of the entry (curseSimpleOutput.cpp:133-134,
    150-151). *)
Definition value_of (e : elem) : node := match e with ENode n => n | EEntry _ _ n => n end.

(** dynamic_cast<const JSonObjectEntry*>(p) on a pointer into the document. *)
Definition is_entry (h : list elem) (p : Z) : bool :=
  match lookup h p with Some (EEntry _ _ _) => true | _ => false end.
(** [item->getParent() && dynamic_cast<const JSonObjectEntry*>(item->getParent())]. *)
Definition parent_is_entry (h : list elem) (e : elem) : bool :=
  match epar e with Some p => is_entry h p | None => false end.

Definition mem (i : Z) (l : list Z) : bool := existsb (Z.eqb i) l.
(** std::set::erase *)
Definition remove (i : Z) (l : list Z) : list Z := filter (fun j => negb (j =? i)) l.
(** std::set::insert *)
Definition insert (i : Z) (l : list Z) : list Z := if mem i l then l else i :: l.

Definition obind {A B} (x : option A) (f : A -> option B) : option B :=
  match x with Some a => f a | None => None end.

(** jsonElement.cpp:92-102: the sibling after the first occurrence of the
    element in the list; [None] when it is last or absent. *)
Fixpoint after (i : Z) (l : list Z) : option Z :=
  match l with
  | [] => None
  | x :: t => if x =? i then match t with [] => None | y :: _ => Some y end else after i t
  end.

(** jsonElement.cpp:85-104 (findNext) of the element at [i].  [None]: a pointer
    that is not live was dereferenced, or [fuel] is too small; [Some None]: the
    answer is nullptr. *)
Fixpoint findNext (fuel : nat) (h : list elem) (i : Z) : option (option Z) :=
  match fuel with
  | O => None
  | S f =>
      obind (lookup h i) (fun e =>
        match epar e with
        | None => Some None
        | Some p =>
            obind (lookup h p) (fun q =>
              match q with
              | ENode c =>
                  if is_container c
                  then match after i (map eid (children c)) with
                       | Some r => Some (Some r)
                       | None => findNext f h p
                       end
                  else Some None
              | EEntry _ _ _ => Some None
              end)
        end)
  end.

(** jsonElement.cpp:76-82: [prev] is prevElem. *)
Fixpoint before (i prev : Z) (l : list Z) : option Z :=
  match l with
  | [] => None
  | x :: t => if x =? i then Some prev else before i x t
  end.

(** jsonElement.cpp:66-83 (findPrev).  Line 73 dereferences begin() of the list:
    undefined when it is empty. *)
Definition findPrev (h : list elem) (i : Z) : option (option Z) :=
  obind (lookup h i) (fun e =>
    match epar e with
    | None => Some None
    | Some p =>
        obind (lookup h p) (fun q =>
          match q with
          | ENode c =>
              if is_container c
              then match map eid (children c) with
                   | [] => None
                   | x :: t => if x =? i then Some None else Some (before i x t)
                   end
              else Some None
          | EEntry _ _ _ => Some None
          end)
    end).

(** curseOutput.cpp:195-202 (unfold): removes every ancestor of [i] from the
    collapsed set. *)
Fixpoint unfold (fuel : nat) (h : list elem) (coll : list Z) (i : Z) : option (list Z) :=
  match fuel with
  | O => None
  | S f =>
      obind (lookup h i) (fun e =>
        match epar e with
        | None => Some coll
        | Some p => unfold f h (remove p coll) p
        end)
  end.

(** What SearchPattern::match gets: the text and the dynamic type of the element
    (jsonElement.cpp:106-109, jsonObjectEntry.cpp:32-35). *)
Definition etext (e : elem) : bytes :=
  match e with ENode n => tree_string (erase n) | EEntry _ k _ => k end.
Definition ekind (e : elem) : etype :=
  match e with
  | ENode (NPrim _ p) => EPrim p
  | ENode _ => EContainer
  | EEntry _ _ _ => SearchPattern.EEntry
  end.

Section Search.
  (** The document, and current->match(search_pattern). *)
  Variable (h : list elem) (mt : elem -> bool).

  (** curseSimpleOutput.cpp:472-479: what is pushed for one element that is no
      container. *)
  Definition hits (e : elem) : list Z :=
    if mt e
    then match epar e with
         | Some p => if is_entry h p then [p] else [eid e]
         | None => [eid e]
         end
    else [].

  (** curseSimpleOutput.cpp:458-485 (search): what it appends to search_result. *)
  Fixpoint search (n : node) : list Z :=
    match n with
    | NPrim _ _ => hits (ENode n)
    | NArr _ l => flat_map search l
    | NObj _ l => flat_map (fun x => hits (EEntry (fst (fst x)) (snd (fst x)) (snd x)) ++ search (snd x)) l
    end.
End Search.

(** [selection == current] for a possibly null selection. *)
Definition sel_is (sel : option Z) (i : Z) : bool :=
  match sel with Some s => s =? i | None => false end.

Section Jump.
  (** search_result and selection. *)
  Variable (res : list Z) (sel : option Z).

  (** curseSimpleOutput.cpp:403-429 (jumpToNextSearch with two arguments): the
      new selectFound, and the element selected when it returns true. *)
  Definition jump_here (i : Z) (found : bool) : bool * option Z :=
    let found := sel_is sel i || found in
    (found, if mem i res && negb (sel_is sel i) && found then Some i else None).

  Fixpoint jump (n : node) (found : bool) : bool * option Z :=
    match n with
    | NPrim m _ => jump_here (mid m) found
    | NArr m l =>
        (fix go (l : list node) (found : bool) : bool * option Z :=
           match l with
           | [] => (found, None)
           | x :: t =>
               match jump x found with
               | (found, Some r) => (found, Some r)
               | (found, None) => go t found
               end
           end) l (sel_is sel (mid m) || found)
    | NObj m l =>
        (fix go (l : list (meta * bytes * node)) (found : bool) : bool * option Z :=
           match l with
           | [] => (found, None)
           | x :: t =>
               match jump_here (mid (fst (fst x))) found with
               | (found, Some r) => (found, Some r)
               | (found, None) =>
                   match jump (snd x) found with
                   | (found, Some r) => (found, Some r)
                   | (found, None) => go t found
                   end
               end
           end) l (sel_is sel (mid m) || found)
    end.
End Jump.

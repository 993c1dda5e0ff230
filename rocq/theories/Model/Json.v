(** The element tree: src/jsonElement.cpp, jsonContainer.cpp, jsonArray.cpp,
    jsonObject.cpp, jsonObjectEntry.cpp, jsonPrimitive.cpp. *)
From Verif Require Export Model.Numbers.
Open Scope Z_scope.

(** include/jsonPrimitive.hh:11-58, the six instances of JSonPrimitive<T>. *)
Inductive prim : Type :=
| PStr (s : bytes)
| PNull
| PBool (b : bool)
| PInt (z : Z)
| PLong (z : Z)
| PDbl (d : spec_float).

(** Identity of an element (its address) and its [parent] field
    (include/jsonElement.hh).  Addresses are numbered in allocation order. *)
Record meta : Type := mkMeta { mid : Z; mpar : option Z }.

(** An element with identities.  [NObj] stands for JSonObject and
    JSonSortedObject; its children are JSonObjectEntry, here (entry meta, key,
    value). *)
Inductive node : Type :=
| NPrim (m : meta) (p : prim)
| NArr (m : meta) (l : list node)
| NObj (m : meta) (l : list (meta * bytes * node)).

(** Plain document tree. *)
Inductive tree : Type :=
| TPrim (p : prim)
| TArr (l : list tree)
| TObj (l : list (bytes * tree)).

(** Forget identities. *)
Fixpoint erase (n : node) : tree :=
  match n with
  | NPrim _ p => TPrim p
  | NArr _ l => TArr (map erase l)
  | NObj _ l => TObj (map (fun e => (snd (fst e), erase (snd e))) l)
  end.

Definition node_meta (n : node) : meta :=
  match n with NPrim m _ => m | NArr m _ => m | NObj m _ => m end.

(** src/jsonElement.cpp:19-22 (setParent). *)
Definition set_parent (p : Z) (n : node) : node :=
  match n with
  | NPrim m x => NPrim (mkMeta (mid m) (Some p)) x
  | NArr m l => NArr (mkMeta (mid m) (Some p)) l
  | NObj m l => NObj (mkMeta (mid m) (Some p)) l
  end.

(** ** JSonObject operations, on the list of entries.  [V] is the type of what
    an entry holds besides its key. *)
Section Entries.
  Context {V : Type} (key : V -> bytes).

  (** jsonObject.cpp:35-45 and 57-60 (find, contains). *)
  Definition obj_contains (k : bytes) (l : list V) : bool :=
    existsb (fun e => beqb (key e) k) l.

  (** jsonObject.cpp:47-55 (erase): removes the first entry with that key. *)
  Fixpoint obj_erase (k : bytes) (l : list V) : list V :=
    match l with
    | [] => []
    | e :: t => if beqb (key e) k then t else e :: obj_erase k t
    end.

  (** jsonObject.cpp:62-68 (get). *)
  Definition obj_get (k : bytes) (l : list V) : option V :=
    find (fun e => beqb (key e) k) l.

  (** jsonObject.cpp:26-33 (JSonSortedObject::push) with
      jsonObjectEntry.cpp:47-57 (operator<): skip while [other.key < key]. *)
  Fixpoint obj_push_sorted (x : V) (l : list V) : list V :=
    match l with
    | [] => [x]
    | e :: t => if bltb (key e) (key x) then e :: obj_push_sorted x t else x :: l
    end.

  (** jsonObject.cpp:21-24 (JSonObject::push). *)
  Definition obj_push (sorted : bool) (x : V) (l : list V) : list V :=
    if sorted then obj_push_sorted x l else l ++ [x].
End Entries.

(** jsonPrimitive.cpp:25-47 (toString, which stringify returns). *)
Definition prim_string (p : prim) : bytes :=
  match p with
  | PStr s => s
  | PNull => str "null"
  | PBool b => if b then str "true" else str "false"
  | PInt z => dec_Z z
  | PLong z => dec_Z z
  | PDbl d => double_to_string d
  end.

(** jsonPrimitive.cpp:49-65 (getTypeStr) and 15-16 (sameType). *)
Definition prim_type (p : prim) : bytes :=
  match p with
  | PStr _ => str "str"
  | PNull => str "null"
  | PBool _ => str "bool"
  | PInt _ | PLong _ | PDbl _ => str "number"
  end.
Definition same_type (a b : prim) : bool := beqb (prim_type a) (prim_type b).

(** stringify of any element: jsonArray.cpp:32-35, jsonObject.cpp:86-89,
    jsonPrimitive.hh:68-70. *)
Definition tree_string (t : tree) : bytes :=
  match t with
  | TPrim p => prim_string p
  | TArr _ => str "[ ]"
  | TObj _ => str "{ }"
  end.

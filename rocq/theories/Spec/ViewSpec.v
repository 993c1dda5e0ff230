(** The rows of a document on display, and what may be hidden. *)
From Verif Require Export Model.Json Model.Diff Spec.TreeSpec.
Open Scope Z_scope.

(** Rows are the root, the elements of arrays and the entries of objects.  [inside
    coll n] lists the rows below [n] in document order, those of containers in
    [coll] being hidden. *)
Fixpoint inside (coll : list Z) (n : node) : list Z :=
  match n with
  | NPrim _ _ => []
  | NArr m l => if existsb (Z.eqb (mid m)) coll then [] else flat_map (fun x => nid x :: inside coll x) l
  | NObj m l => if existsb (Z.eqb (mid m)) coll then []
                else flat_map (fun x => mid (fst (fst x)) :: inside coll (snd x)) l
  end.
Definition rows (coll : list Z) (root : node) : list Z := nid root :: inside coll root.

(** A document held in memory: parents are right, addresses distinct. *)
Definition in_memory (root : node) : Prop := linked None root /\ NoDup (ids root).

(** Rows and the nodes they show ([r] being the row of [n]). *)
Fixpoint shown (r : Z) (n : node) : list (Z * node) :=
  (r, n) ::
  match n with
  | NPrim _ _ => []
  | NArr _ l => flat_map (fun x => shown (nid x) x) l
  | NObj _ l => flat_map (fun x => shown (mid (fst (fst x))) (snd x)) l
  end.

(** The rows below [n] outside the values of the entries below [n]; and these
    values. *)
Fixpoint level (n : node) : list (Z * node) :=
  match n with
  | NPrim _ _ => []
  | NArr _ l => flat_map (fun x => (nid x, x) :: level x) l
  | NObj _ l => map (fun x => (mid (fst (fst x)), snd x)) l
  end.
Fixpoint entry_values (n : node) : list node :=
  match n with
  | NPrim _ _ => []
  | NArr _ l => flat_map entry_values l
  | NObj _ l => flat_map (fun x => snd x :: entry_values (snd x)) l
  end.

(** What a search looks at: the scalars and the keys, in document order, each with
    the row that shows it ([r] for a scalar [n]). *)
Inductive item : Type := Scalar (p : prim) | Key (k : bytes).
Fixpoint items (r : Z) (n : node) : list (Z * item) :=
  match n with
  | NPrim _ p => [(r, Scalar p)]
  | NArr _ l => flat_map (fun x => items (nid x) x) l
  | NObj _ l => flat_map (fun x => (mid (fst (fst x)), Key (snd (fst x))) :: items (mid (fst (fst x))) (snd x)) l
  end.

(** The result selected after row [i]: the first one below it, else the first. *)
Fixpoint rows_after (i : Z) (l : list Z) : list Z :=
  match l with [] => [] | x :: t => if x =? i then t else rows_after i t end.
Definition next_result (l res : list Z) (i : Z) : option Z :=
  match find (fun x => existsb (Z.eqb x) res) (rows_after i l) with
  | Some r => Some r
  | None => hd_error res
  end.

(** Levels of containers. *)
Fixpoint nesting (n : node) : nat :=
  match n with
  | NPrim _ _ => 1
  | NArr _ l => S (fold_right (fun x d => Nat.max (nesting x) d) O l)
  | NObj _ l => S (fold_right (fun x d => Nat.max (nesting (snd x)) d) O l)
  end.

(** The document of a tree, elements numbered in document order from [i]; for
    examples. *)
Fixpoint number (t : tree) (par : option Z) (i : Z) : node * Z :=
  match t with
  | TPrim p => (NPrim (mkMeta i par) p, i + 1)
  | TArr l =>
      let '(l, j) :=
        (fix go (l : list tree) (j : Z) : list node * Z :=
           match l with
           | [] => ([], j)
           | t :: l => let '(n, j) := number t (Some i) j in let '(l, j) := go l j in (n :: l, j)
           end) l (i + 1) in
      (NArr (mkMeta i par) l, j)
  | TObj l =>
      let '(l, j) :=
        (fix go (l : list (bytes * tree)) (j : Z) : list (meta * bytes * node) * Z :=
           match l with
           | [] => ([], j)
           | (k, t) :: l => let '(n, j') := number t (Some j) (j + 1) in
               let '(l, j') := go l j' in ((mkMeta j (Some i), k, n) :: l, j')
           end) l (i + 1) in
      (NObj (mkMeta i par) l, j)
  end.
Definition document (i : Z) (t : tree) : node := fst (number t None i).

(** Comparison of two documents: include/levenshteinMatrice.hpp and
    src/levenshtein.cpp:43-211. *)
From Verif Require Export Model.Json Model.Levenshtein.
Open Scope Z_scope.

(** outputFlag.hh:9-15 (eLevenshteinOperator). *)
Inductive op : Type := OAdd | ORem | OMod | OEqu.

(** What the code sees as a JSonElement: a value, or an entry of an object with
    its key and value. *)
Inductive elem : Type :=
| ENode (n : node)
| EEntry (m : meta) (k : bytes) (v : node).

Definition nid (n : node) : Z := mid (node_meta n).
Definition eid (x : elem) : Z := match x with ENode n => nid n | EEntry m _ _ => mid m end.

(** The std::list<JSonElement*> a JSonContainer is (jsonContainer.hh:11). *)
Definition children (n : node) : list elem :=
  match n with
  | NPrim _ _ => []
  | NArr _ l => map ENode l
  | NObj _ l => map (fun e => EEntry (fst (fst e)) (snd (fst e)) (snd e)) l
  end.
Definition is_container (n : node) : bool := match n with NPrim _ _ => false | _ => true end.

(** std::map keyed by element addresses, as a list of bindings with distinct
    keys.  The order of the list stands for the order of the addresses: nothing
    proved depends on it. *)
Definition mget {B} (k : Z) (l : list (Z * B)) : option B :=
  option_map snd (find (fun p => fst p =? k) l).
Definition mset {B} (k : Z) (v : B) (l : list (Z * B)) : list (Z * B) :=
  (k, v) :: filter (fun p => negb (fst p =? k)) l.

(** The LevenshteinMatrice_base interface: path(), getEquivalences(), result(),
    areSimilar(). *)
Record mat : Type := mkMat {
  mops : list (Z * op);
  meqv : list (Z * Z);
  mresult : Z;
  msimilar : bool
}.

(** Undefined operations: integer division by zero (levenshteinMatrice.hpp:116),
    null [subMatrice] entry dereferenced (190-193). *)
Inductive crash : Type := DivByZero | NullMatrix.
Definition outcome (A : Type) : Type := (A + crash)%type.

Definition dbind {A B} (x : outcome A) (f : A -> outcome B) : outcome B :=
  match x with inl a => f a | inr c => inr c end.
Fixpoint seqd {A} (l : list (outcome A)) : outcome (list A) :=
  match l with
  | [] => inl []
  | x :: t => dbind x (fun a => dbind (seqd t) (fun t => inl (a :: t)))
  end.

(** levenshtein.cpp:75-78 and 82-85 (LevenshteinMatrice_manual): [c] is the
    container, [o] the other element. *)
Definition manual (c : node) (o : Z) : mat :=
  mkMat (mset o OAdd (mset (nid c) ORem [])) [] (Z.of_nat (length (children c)) + 1) false.

(** levenshtein.cpp:171-210 (LevenshteinMatriceWithScore): [r] is
    [s > 0.7f]. *)
Definition scored (r : bool) (a b : Z) (sameType : bool) : mat :=
  let o := if sameType then (if r then OEqu else OMod) else OAdd in
  mkMat (mset a o (mset b o [])) (if sameType then [(a, b)] else []) (if r then 0 else 1) r.

(** [0.f > 0.7f]. *)
Definition score0 : bool := score_similar (f32_of_Z 0).

(** levenshtein.cpp:64-69: number of values of the cell type T. *)
Definition width (n m : Z) : Z :=
  if (n <? 255) && (m <? 255) then 2 ^ 8
  else if (n <? 65535) && (m <? 65535) then 2 ^ 16
  else 2 ^ 32.

(** levenshteinMatrice.hpp:102-103 and 111, [x + 1]: computed in int for the two small
    types, in unsigned int for the large one. *)
Definition plus1 (W x : Z) : Z := if W =? 2 ^ 32 then (x + 1) mod 2 ^ 32 else x + 1.

(** A cell: its value, and the entry of [subMatrice] that goes with it. *)
Definition cell : Type := (Z * option mat)%type.

(** levenshteinMatrice.hpp:97-111. *)
Definition dp_cell (W : Z) (up left diag : Z) (sub : mat) : cell :=
  let chCost := (diag + (if msimilar sub then 0 else mresult sub)) mod W in
  if (chCost <=? plus1 W up) && (chCost <=? plus1 W left)
  then (chCost, Some sub)
  else ((Z.min up left + 1) mod W, None).

(** levenshteinMatrice.hpp:95-112: cells j = 1 .. of one row; [prev] is the row
    above from column j-1 on, [left] the value of the cell before. *)
Fixpoint dp_cells (W : Z) (subs : list mat) (prev : list cell) (left : Z) : list cell :=
  match subs, prev with
  | s :: subs', diag :: (up :: _) as prev' =>
      let c := dp_cell W (fst up) left (fst diag) s in
      c :: dp_cells W subs' prev' (fst c)
  | _, _ => []
  end.

(** levenshteinMatrice.hpp:92-113: rows i, i+1, ... *)
Fixpoint dp_rows (W : Z) (i : Z) (subs : list (list mat)) (prev : list cell) : list (list cell) :=
  match subs with
  | [] => []
  | r :: subs' =>
      let row := (i mod W, None) :: dp_cells W r prev (i mod W) in
      row :: dp_rows W (i + 1) subs' row
  end.

(** levenshteinMatrice.hpp:79-81: row 0. *)
Definition dp_row0 (W : Z) (m : nat) : list cell :=
  map (fun j => (Z.of_nat j mod W, None)) (seq 0 (S m)).
Definition dp_table (W : Z) (m : nat) (subs : list (list mat)) : list (list cell) :=
  dp_row0 W m :: dp_rows W 1 subs (dp_row0 W m).

Definition cell_at (t : list (list cell)) (i j : nat) : cell := nth j (nth i t []) (0, None).

(** levenshteinMatrice.hpp:164-213 (shortestPath), from cell (i, j): the
    operations and equivalences, added to [ops] and [eqs].  The iterators stand
    on the elements i-1 and j-1.  [fuel] is i + j.  (The last [--i] moves an
    iterator before begin(); not modelled as a fault.) *)
Fixpoint walk (t : list (list cell)) (la lb : list elem) (fuel : nat) (i j : nat)
  (ops : list (Z * op)) (eqs : list (Z * Z)) : outcome (list (Z * op) * list (Z * Z)) :=
  match fuel with
  | O => inl (ops, eqs)
  | S f =>
      let v := fst (cell_at t i j) in
      let ea := match i with O => 0 | S i' => eid (nth i' la (ENode (NPrim (mkMeta 0 None) PNull))) end in
      let eb := match j with O => 0 | S j' => eid (nth j' lb (ENode (NPrim (mkMeta 0 None) PNull))) end in
      match i, j with
      | O, O => inl (ops, eqs)
      | S i', O => walk t la lb f i' O (mset ea OAdd ops) eqs
      | O, S j' => walk t la lb f O j' (mset eb OAdd ops) eqs
      | S i', S j' =>
          if fst (cell_at t i' j) <? v then walk t la lb f i' j (mset ea OAdd ops) eqs
          else if fst (cell_at t i j') <? v then walk t la lb f i j' (mset eb OAdd ops) eqs
          else
            let o := if v =? fst (cell_at t i' j') then OEqu else OMod in
            match snd (cell_at t i j) with
            | None => inr NullMatrix
            | Some sub =>
                let ops := fold_left (fun l e => mset (fst e) (snd e) l) (mops sub) (mset ea o (mset eb o ops)) in
                let eqs := fold_left (fun l e => mset (fst e) (snd e) l) (meqv sub) eqs in
                walk t la lb f i' j' ops (mset ea eb eqs)
            end
      end
  end.

(** levenshteinMatrice.hpp:116: [1 - (d / max(n, m))] in size_t. *)
Definition rel_size (d mx : Z) : Z := (1 - d / mx) mod 2 ^ 64.

(** levenshteinMatrice.hpp:67-121 (build) then 141-154 (addRoot): [subs] are the
    matrices of the children, [a] and [b] the containers. *)
Definition container_mat (a b : node) (subs : list (list mat)) : outcome mat :=
  let la := children a in
  let lb := children b in
  let n := length la in
  let m := length lb in
  let W := width (Z.of_nat n) (Z.of_nat m) in
  let t := dp_table W m subs in
  let d := fst (cell_at t n m) in
  let mx := Z.max (Z.of_nat n) (Z.of_nat m) in
  if mx =? 0 then inr DivByZero
  else
    let rel := f32_of_Z (rel_size d mx) in
    dbind (if f_gt rel sensibility then walk t la lb (n + m) n m [] [] else inl ([], []))
      (fun oe =>
         let '(ops, eqs) := oe in
         if f_gt sensibility rel
         then inl (mkMat (mset (nid b) OAdd (mset (nid a) OAdd ops)) eqs d (f_gt rel sensibility))
         else
           let o := if f_gt f32_one rel then OMod else OEqu in
           inl (mkMat (mset (nid a) o (mset (nid b) o ops)) (mset (nid b) (nid a) (mset (nid a) (nid b) eqs))
                  d (f_gt rel sensibility))).

(** levenshtein.cpp:89-99, an entry and another element; [rec] compares the
    entry's value with a node. *)
Definition entry_with (rec : node -> outcome mat) (m : meta) (k : bytes) (y : elem) : outcome mat :=
  match y with
  | ENode n => if is_container n then inl (manual n (mid m)) else inl (scored score0 (mid m) (nid n) false)
  | EEntry m' k' v' => if beqb k k' then rec v' else inl (scored score0 (mid m) (mid m') true)
  end.
(** levenshtein.cpp:51-101, a value and another element; [rec] compares it with
    a node. *)
Definition node_with (rec : node -> outcome mat) (n : node) (y : elem) : outcome mat :=
  match y with
  | ENode n' => rec n'
  | EEntry m' _ _ => if is_container n then inl (manual n (mid m')) else inl (scored score0 (nid n) (mid m') false)
  end.

(** levenshtein.cpp:49-103 (Builder::build) of two values.  The matrices of all
    pairs of children are computed, as the loops of levenshteinMatrice.hpp:92-97
    do. *)
Fixpoint build (a b : node) {struct a} : outcome mat :=
  match a with
  | NPrim ma pa =>
      match b with
      | NPrim mb pb =>
          inl (scored (score_similar (levenshteinPercent (prim_string pa) (prim_string pb)))
                 (mid ma) (mid mb) (same_type pa pb))
      | _ => inl (manual b (mid ma))
      end
  | NArr ma la =>
      if is_container b
      then dbind (seqd (map (fun x => seqd (map (node_with (build x) x) (children b))) la)) (container_mat a b)
      else inl (manual a (nid b))
  | NObj ma la =>
      if is_container b
      then dbind (seqd (map (fun e => seqd (map (entry_with (build (snd e)) (fst (fst e)) (snd (fst e))) (children b))) la))
             (container_mat a b)
      else inl (manual a (nid b))
  end.

(** levenshtein.cpp:134-144 and 187-192 (getEquivalence). *)
Definition getEquivalence (m : mat) (e : Z) : option Z :=
  match find (fun p => (fst p =? e) || (snd p =? e)) (meqv m) with
  | Some (x, y) => Some (if x =? e then y else x)
  | None => None
  end.

(** curseSplitOutput.cpp:878-883: the operation shown, get() or add. *)
Definition shown_op (m : mat) (e : Z) : op := match mget e (mops m) with Some o => o | None => OAdd end.

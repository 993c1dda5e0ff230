(** The comparison of two documents with its memory: src/levenshtein.cpp:6-103 and
    include/levenshteinMatrice.hpp:62-213, loop by loop.  Model/Diff.v tells the same
    functions by their results. *)
From Verif Require Export Model.Heap.
Open Scope Z_scope.
Open Scope mem_scope.

(** size() of a text or list (levenshtein.cpp:10, 59-60). *)
Definition zlen {A} (l : list A) : Z := Z.of_nat (length l).
(** std::string::operator[] within the text (levenshtein.cpp:23). *)
Definition char_at (s : bytes) (i : Z) : M ascii := match at_ s i with Some c => mret c | None => mfail Outside end.

(** levenshtein.cpp:6-31 (levenshtein). *)
Definition levenshtein_mem (a b : bytes) : M Z :=
  if beqb a b then mret 0 else
  let! matrice := new_ptrs (zlen a + 1) (Some None) in
  (let! r := new_ints (zlen b + 1) (Some 0) in write_ptr matrice 0 (Some r)) >>>
  for_ (S (length b)) 0 (fun j _ => write2 matrice 0 j j) tt >>>
  for_ (length a) 1 (fun i _ =>
    (let! r := new_ints (zlen b + 1) (Some 0) in write_ptr matrice i (Some r)) >>>
    write2 matrice i 0 i >>>
    for_ (length b) 1 (fun j _ =>
      let! up := read2 matrice (i - 1) j in
      let! left := read2 matrice i (j - 1) in
      let! diag := read2 matrice (i - 1) (j - 1) in
      let! x := char_at a (i - 1) in
      let! y := char_at b (j - 1) in
      write2 matrice i j (Z.min (Z.min (up + 1) (left + 1)) (diag + (if Ascii.eqb x y then 0 else 1)))) tt) tt >>>
  let! result := read2 matrice (zlen a) (zlen b) in
  for_ (S (length a)) 0 (fun i _ => let! p := read_ptr matrice i in let! r := deref p in delete_array r) tt >>>
  delete_array matrice >>>
  mret result.

(** levenshtein.cpp:33-38 (levenshteinPercent). *)
Definition levenshteinPercent_mem (a b : bytes) : M spec_float :=
  match a, b with
  | [], [] => mret f32_one
  | _, _ => let! d := levenshtein_mem a b in mret (percent_of d (Z.max (zlen a) (zlen b)))
  end.

(** levenshtein.cpp:113-114 (path); 116-117, 146-147 and 194-200 (getEquivalences);
    125-126, 158-161 and 202-205 (result); 128-129, 163-166 and 207-210 (areSimilar). *)
Definition path (o : obj) : list (Z * op) := match o with Manual ops _ => ops | Score ops _ _ => ops | Matrice ops _ _ _ => ops end.
Definition equivalences (o : obj) : list (Z * Z) :=
  match o with
  | Manual _ _ => []
  | Score _ e _ => match e with Some p => [p] | None => [] end
  | Matrice _ e _ _ => e
  end.
Definition result (o : obj) : option Z :=
  match o with Manual _ r => r | Score _ _ r => Some (if r then 0 else 1) | Matrice _ _ d _ => d end.
Definition areSimilar (o : obj) : option bool :=
  match o with Manual _ _ => Some false | Score _ _ r => Some r | Matrice _ _ _ rel => option_map (fun r => f_gt r sensibility) rel end.
(** A member read (levenshteinMatrice.hpp:100). *)
Definition given {A} (v : option A) : M A := match v with Some a => mret a | None => mfail Uninitialised end.

(** operations[e] = o, equivalences[e] = f of a LevenshteinMatrice
    (levenshteinMatrice.hpp:145-152, 174-193; levenshtein.cpp:154). *)
Definition set_ops (f : list (Z * op) -> list (Z * op)) (o : obj) : obj :=
  match o with Manual ops r => Manual (f ops) r | Score ops e r => Score (f ops) e r | Matrice ops e d r => Matrice (f ops) e d r end.
Definition set_eqv (f : list (Z * Z) -> list (Z * Z)) (o : obj) : obj :=
  match o with Matrice ops e d r => Matrice ops (f e) d r | _ => o end.
Definition change (p : Z) (f : obj -> obj) : M unit := let! o := read_obj p in write_obj p (f o).

(** levenshteinMatrice.hpp:164-213 (shortestPath), one turn of the loop per unit of
    [fuel]; lines 200-211 are not reached. *)
Fixpoint shortestPath (res matrice subMatrice : Z) (la lb : list elem) (fuel : nat) (_i _j : Z) (i j : iter) : M unit :=
  match fuel with
  | O => if (_i =? 0) && (_j =? 0) then mret tt else mfail NoFuel
  | S fuel =>
      if (_i =? 0) && (_j =? 0) then mret tt else
      let! remove := (if _i =? 0 then mret false else if _j =? 0 then mret true else
                      let! v := read2 matrice _i _j in let! up := read2 matrice (_i - 1) _j in mret (up <? v)) in
      if remove : bool then
        let! x := star la i in
        change res (set_ops (mset (eid x) OAdd)) >>>
        let! i := dec i in
        shortestPath res matrice subMatrice la lb fuel (_i - 1) _j i j
      else
      let! insert := (if _j =? 0 then mret false else if _i =? 0 then mret true else
                      let! v := read2 matrice _i _j in let! left := read2 matrice _i (_j - 1) in mret (left <? v)) in
      if insert : bool then
        let! y := star lb j in
        change res (set_ops (mset (eid y) OAdd)) >>>
        let! j := dec j in
        shortestPath res matrice subMatrice la lb fuel _i (_j - 1) i j
      else
        let! v := read2 matrice _i _j in
        let! diag := read2 matrice (_i - 1) (_j - 1) in
        let o := if v =? diag then OEqu else OMod in
        let! x := star la i in
        let! y := star lb j in
        change res (set_ops (fun ops => mset (eid x) o (mset (eid y) o ops))) >>>
        let! p := read2p subMatrice (_i - 1) (_j - 1) in
        match p with
        | None => mdie NullMatrix
        | Some s =>
            let! sub := read_obj s in
            change res (set_ops (fold_left (fun l e => mset (fst e) (snd e) l) (path sub))) >>>
            change res (set_eqv (fold_left (fun l e => mset (fst e) (snd e) l) (equivalences sub))) >>>
            change res (set_eqv (mset (eid x) (eid y))) >>>
            let! i := dec i in
            let! j := dec j in
            shortestPath res matrice subMatrice la lb fuel (_i - 1) (_j - 1) i j
        end
  end.

(** levenshteinMatrice.hpp:123-139 (cleanMatrice). *)
Definition cleanMatrice (matrice subMatrice : Z) (n m : nat) : M unit :=
  for_ (S n) 0 (fun i _ =>
    (let! p := read_ptr matrice i in let! r := deref p in delete_array r) >>>
    if i =? Z.of_nat n then mret tt else
    for_ m 0 (fun j _ =>
      let! p := read2p subMatrice i j in
      match p with Some s => delete_obj s | None => mret tt end) tt >>>
    (let! p := read_ptr subMatrice i in let! r := deref p in delete_array r)) tt >>>
  delete_array matrice >>>
  delete_array subMatrice.

(** levenshteinMatrice.hpp:79-81: row 0 of the cells. *)
Definition first_row (W matrice : Z) (m : nat) : M unit :=
  (let! r := new_ints (Z.of_nat m + 1) None in write_ptr matrice 0 (Some r)) >>>
  for_ (S m) 0 (fun i _ => write2 matrice 0 i (i mod W)) tt.
(** levenshteinMatrice.hpp:83-90: the other rows, and the rows of matrices. *)
Definition other_rows (W matrice subMatrice : Z) (n m : nat) : M unit :=
  for_ n 1 (fun i _ =>
    (let! r := new_ints (Z.of_nat m + 1) None in write_ptr matrice i (Some r)) >>>
    write2 matrice i 0 (i mod W) >>>
    (let! r := new_ptrs (Z.of_nat m) None in write_ptr subMatrice (i - 1) (Some r)) >>>
    for_ m 0 (fun j _ => write2p subMatrice (i - 1) j None) tt) tt.

(** levenshteinMatrice.hpp:97-111: the cell [i], [j], with the iterators [a] and [b];
    [subs] are the calls of Builder::build for the elements of the two lists, made when
    the iterators are dereferenced. *)
Definition one_cell (W matrice subMatrice : Z) (subs : list (list (M Z))) (i : Z) (a : iter) (j : Z) (b : iter) : M iter :=
  let! row := star subs a in
  let! call := star row b in
  let! s := call in
  let! diag := read2 matrice (i - 1) (j - 1) in
  let! o := read_obj s in
  let! similar := given (areSimilar o) in
  let! cost := (if similar : bool then mret 0 else given (result o)) in
  let chCost := (diag + cost) mod W in
  let! up := read2 matrice (i - 1) j in
  let! worth := (if chCost <=? plus1 W up then
                   let! left := read2 matrice i (j - 1) in mret (chCost <=? plus1 W left)
                 else mret false) in
  (if worth : bool then
     write2 matrice i j chCost >>>
     write2p subMatrice (i - 1) (j - 1) (Some s)
   else
     delete_obj s >>>
     let! up := read2 matrice (i - 1) j in
     let! left := read2 matrice i (j - 1) in
     write2 matrice i j ((Z.min up left + 1) mod W)) >>>
  inc b.
(** levenshteinMatrice.hpp:92-113. *)
Definition all_cells (W matrice subMatrice : Z) (subs : list (list (M Z))) (n m : nat) : M (iter * iter) :=
  for_ n 1 (fun i ab =>
    let! b := for_ m 1 (one_cell W matrice subMatrice subs i (fst ab)) (Some 0) in
    let! a := inc (fst ab) in
    mret (a, b)) (Some 0, None).

(** levenshteinMatrice.hpp:67-121 (LevenshteinMatrice::build<T>), T having [W] values. *)
Definition build_matrice (W : Z) (la lb : list elem) (subs : list (list (M Z))) : M Z :=
  let n := length la in
  let m := length lb in
  let! res := new_ (BObj (Matrice [] [] None None)) in
  let! matrice := new_ptrs (Z.of_nat n + 1) (Some None) in
  let! subMatrice := new_ptrs (Z.of_nat n) (Some None) in
  first_row W matrice m >>>
  other_rows W matrice subMatrice n m >>>
  let! ab := all_cells W matrice subMatrice subs n m in
  let! dist := read2 matrice (Z.of_nat n) (Z.of_nat m) in
  let mx := Z.max (Z.of_nat n) (Z.of_nat m) in
  if mx =? 0 then mdie DivByZero else
  let rel := f32_of_Z (rel_size dist mx) in
  change res (fun o => match o with Matrice ops e _ _ => Matrice ops e (Some dist) (Some rel) | o => o end) >>>
  (if f_gt rel sensibility then
     let! a := dec (fst ab) in
     let! b := dec (snd ab) in
     shortestPath res matrice subMatrice la lb (n + m) (Z.of_nat n) (Z.of_nat m) a b
   else mret tt) >>>
  cleanMatrice matrice subMatrice n m >>>
  mret res.

(** levenshteinMatrice.hpp:141-154 (addRoot). *)
Definition addRoot (res a b : Z) : M unit :=
  let! o := read_obj res in
  match o with
  | Matrice _ _ _ rel =>
      let! rel := given rel in
      if f_gt sensibility rel then
        change res (set_ops (fun ops => mset b OAdd (mset a OAdd ops)))
      else
        let o := if f_gt f32_one rel then OMod else OEqu in
        change res (set_ops (fun ops => mset a o (mset b o ops))) >>>
        change res (set_eqv (mset a b)) >>>
        change res (set_eqv (mset b a))
  | _ => mfail WrongKind
  end.

(** levenshtein.cpp:57-72: two containers. *)
Definition containers_mem (a b : node) (subs : list (list (M Z))) : M Z :=
  let la := children a in
  let lb := children b in
  let! res := build_matrice (width (zlen la) (zlen lb)) la lb subs in
  addRoot res (nid a) (nid b) >>>
  mret res.

(** levenshtein.cpp:74-87 with 152-156 (add): [c] is the container, [o] the other
    element. *)
Definition manual_mem (c : node) (o : Z) : M Z :=
  let! res := new_ (BObj (Manual [] None)) in
  change res (fun x => match x with Manual ops _ => Manual ops (Some (Z.of_nat (length (children c)) + 1)) | x => x end) >>>
  change res (set_ops (mset (nid c) ORem)) >>>
  change res (set_ops (mset o OAdd)) >>>
  mret res.

(** levenshtein.cpp:171-185: [r] is [s > 0.7f]. *)
Definition scored_mem (r : bool) (a b : Z) (sameType : bool) : M Z :=
  let o := if sameType then (if r then OEqu else OMod) else OAdd in
  new_ (BObj (Score (mset a o (mset b o [])) (if sameType then Some (a, b) else None) r)).

(** levenshtein.cpp:89-99, as in Model/Diff.v. *)
Definition entry_with_mem (rec : node -> M Z) (m : meta) (k : bytes) (y : elem) : M Z :=
  match y with
  | ENode n => if is_container n then manual_mem n (mid m) else scored_mem score0 (mid m) (nid n) false
  | EEntry m' k' v' => if beqb k k' then rec v' else scored_mem score0 (mid m) (mid m') true
  end.
Definition node_with_mem (rec : node -> M Z) (n : node) (y : elem) : M Z :=
  match y with
  | ENode n' => rec n'
  | EEntry m' _ _ => if is_container n then manual_mem n (mid m') else scored_mem score0 (nid n) (mid m') false
  end.

(** levenshtein.cpp:49-103 (Builder::build) of two values: the matrix made. *)
Fixpoint build_mem (a b : node) {struct a} : M Z :=
  match a with
  | NPrim ma pa =>
      match b with
      | NPrim mb pb =>
          let! s := levenshteinPercent_mem (prim_string pa) (prim_string pb) in
          scored_mem (score_similar s) (mid ma) (mid mb) (same_type pa pb)
      | _ => manual_mem b (mid ma)
      end
  | NArr ma la =>
      if is_container b
      then containers_mem a b (map (fun x => map (node_with_mem (build_mem x) x) (children b)) la)
      else manual_mem a (nid b)
  | NObj ma la =>
      if is_container b
      then containers_mem a b (map (fun e => map (entry_with_mem (build_mem (snd e)) (fst (fst e)) (snd (fst e))) (children b)) la)
      else manual_mem a (nid b)
  end.

(** curseSplitOutput.cpp:74-87 (computeDiff) of two inputs: [old] is the member
    diffMatrice before, the result is it after. *)
Definition computeDiff (old : ptr) (a b : node) : M ptr :=
  match old with Some p => delete_obj p | None => mret tt end >>>
  let! p := build_mem a b in
  mret (Some p).
(** curseSplitOutput.cpp:27-31 (constructor), then the runs of 43-72 each computing the
    difference of two documents, then 33-41 (destructor). *)
Definition splitOutput_life (runs : list (node * node)) : M unit :=
  let! last := (fix go (d : ptr) (l : list (node * node)) : M ptr :=
    match l with
    | [] => mret d
    | (a, b) :: l => let! d := computeDiff d a b in go d l
    end) None runs in
  match last with Some p => delete_obj p | None => mret tt end.

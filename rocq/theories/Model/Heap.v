(** Memory as the comparison uses it (src/levenshtein.cpp and
    include/levenshteinMatrice.hpp): arrays made by new[] and matrices made by
    new, each a block of its own.  Not a translation of functions of the program;
    what the operators of C++ its functions use do. *)
From Verif Require Export Model.Diff.
Open Scope Z_scope.

(** The three classes of levenshteinMatrice.hpp:36-42 (LevenshteinMatrice_manual),
    44-60 (LevenshteinMatriceWithScore) and 62-224 (LevenshteinMatrice), with the
    members of levenshteinMatrice.hpp:33, 44, 59-60 and 218-220.  [None] is a
    number that was not given a value yet. *)
Inductive obj : Type :=
| Manual (ops : list (Z * op)) (res : option Z)
| Score (ops : list (Z * op)) (eqv : option (Z * Z)) (res : bool)
| Matrice (ops : list (Z * op)) (eqv : list (Z * Z)) (dist : option Z) (rel : option spec_float).

(** A block: numbers, pointers (to a block, or null), or a matrix.  An element
    [None] of an array was not given a value yet (new T[n], levenshteinMatrice.hpp:79). *)
Definition ptr : Type := option Z.
Inductive block : Type :=
| BInts (l : list (option Z))
| BPtrs (l : list (option ptr))
| BObj (o : obj).

(** The blocks that live, under numbers standing for their addresses; numbers from
    [nxt] on were never given out.  A block takes a number and one more for each of its
    elements, so that [nxt] tells how much was asked for.  (The program may be given an address again once
    it was deleted; nothing here compares addresses.) *)
Record heap : Type := mkHeap { nxt : Z; blk : Z -> option block }.

(** What the language leaves undefined: an index outside of an array, a block used
    or deleted after its deletion, a value read before it was given, an iterator
    dereferenced outside of its list or moved without one; [WrongKind] (a block of another
    type) and [NoFuel] (a loop of the model cut short) are not of the program. *)
Inductive fault : Type := Outside | Dangling | Uninitialised | BadIterator | WrongKind | NoFuel.

(** Programs over memory (all of levenshtein.cpp:6-103 and levenshteinMatrice.hpp:67-213
    is told in these terms).  [Died]: the undefined operations of Model/Diff.v. *)
Inductive mres (A : Type) : Type := Done (a : A) (h : heap) | Faulty (f : fault) | Died (c : crash).
Arguments Done {A} a h. Arguments Faulty {A} f. Arguments Died {A} c.
Definition M (A : Type) : Type := heap -> mres A.
Definition mret {A} (a : A) : M A := fun h => Done a h.
Definition mfail {A} (f : fault) : M A := fun _ => Faulty f.
Definition mdie {A} (c : crash) : M A := fun _ => Died c.
Definition mbind {A B} (m : M A) (k : A -> M B) : M B :=
  fun h => match m h with Done a h' => k a h' | Faulty f => Faulty f | Died c => Died c end.
Declare Scope mem_scope.
Delimit Scope mem_scope with mem.
Notation "'let!' x := m 'in' k" := (mbind m (fun x => k)) (at level 200, x name, m at level 100, k at level 200) : mem_scope.
Notation "m >>> k" := (mbind m (fun _ => k)) (at level 100, k at level 200, right associativity) : mem_scope.
Open Scope mem_scope.

(** new and new[] (levenshtein.cpp:10, 12 and 17; levenshteinMatrice.hpp:70, 76-79, 85 and 87). *)
Definition set_blk (p : Z) (b : option block) (f : Z -> option block) : Z -> option block :=
  fun q => if q =? p then b else f q.
Definition cells (b : block) : Z :=
  match b with BInts l => Z.of_nat (length l) | BPtrs l => Z.of_nat (length l) | BObj _ => 0 end.
Definition new_ (b : block) : M Z :=
  fun h => Done (nxt h) (mkHeap (nxt h + 1 + cells b) (set_blk (nxt h) (Some b) (blk h))).
Definition new_ints (n : Z) (v : option Z) : M Z := new_ (BInts (repeat v (Z.to_nat n))).
Definition new_ptrs (n : Z) (v : option ptr) : M Z := new_ (BPtrs (repeat v (Z.to_nat n))).

(** A live block; a block given another content: every *p and p-> of levenshtein.cpp:12-23
    and levenshteinMatrice.hpp:79-213. *)
Definition get (p : Z) : M block := fun h => match blk h p with Some b => Done b h | None => Faulty Dangling end.
Definition put (p : Z) (b : block) : M unit :=
  fun h => match blk h p with Some _ => Done tt (mkHeap (nxt h) (set_blk p (Some b) (blk h))) | None => Faulty Dangling end.
(** delete and delete[] (levenshtein.cpp:28-29; levenshteinMatrice.hpp:109, 128-138). *)
Definition free (p : Z) : M unit :=
  fun h => match blk h p with Some _ => Done tt (mkHeap (nxt h) (set_blk p None (blk h))) | None => Faulty Dangling end.
Definition delete_array (p : Z) : M unit :=
  let! b := get p in match b with BObj _ => mfail WrongKind | _ => free p end.
Definition delete_obj (p : Z) : M unit :=
  let! b := get p in match b with BObj _ => free p | _ => mfail WrongKind end.

(** Elements of arrays (levenshtein.cpp:14-23; levenshteinMatrice.hpp:81-111). *)
Definition at_ {A} (l : list A) (i : Z) : option A := if i <? 0 then None else nth_error l (Z.to_nat i).
Fixpoint set_nth {A} (i : nat) (x : A) (l : list A) : list A :=
  match l, i with
  | [], _ => []
  | _ :: l, O => x :: l
  | y :: l, S i => y :: set_nth i x l
  end.
Definition element {A} (l : list (option A)) (i : Z) : M A :=
  match at_ l i with None => mfail Outside | Some None => mfail Uninitialised | Some (Some a) => mret a end.
Definition read_int (p i : Z) : M Z :=
  let! b := get p in match b with BInts l => element l i | _ => mfail WrongKind end.
Definition read_ptr (p i : Z) : M ptr :=
  let! b := get p in match b with BPtrs l => element l i | _ => mfail WrongKind end.
Definition write_int (p i v : Z) : M unit :=
  let! b := get p in
  match b with
  | BInts l => match at_ l i with None => mfail Outside | Some _ => put p (BInts (set_nth (Z.to_nat i) (Some v) l)) end
  | _ => mfail WrongKind
  end.
Definition write_ptr (p i : Z) (v : ptr) : M unit :=
  let! b := get p in
  match b with
  | BPtrs l => match at_ l i with None => mfail Outside | Some _ => put p (BPtrs (set_nth (Z.to_nat i) (Some v) l)) end
  | _ => mfail WrongKind
  end.
(** A pointer used as one to an array or an object (levenshtein.cpp:14, levenshteinMatrice.hpp:97). *)
Definition deref (p : ptr) : M Z := match p with Some p => mret p | None => mfail Dangling end.

(** [x[i][j]] for an array [x] of arrays (levenshtein.cpp:20-23, levenshteinMatrice.hpp:100-111). *)
Definition read2 (x i j : Z) : M Z := let! p := read_ptr x i in let! r := deref p in read_int r j.
Definition write2 (x i j v : Z) : M unit := let! p := read_ptr x i in let! r := deref p in write_int r j v.
Definition read2p (x i j : Z) : M ptr := let! p := read_ptr x i in let! r := deref p in read_ptr r j.
Definition write2p (x i j : Z) (v : ptr) : M unit := let! p := read_ptr x i in let! r := deref p in write_ptr r j v.

(** Members of a matrix (levenshteinMatrice.hpp:33, 44, 59-60 and 218-220). *)
Definition read_obj (p : Z) : M obj := let! b := get p in match b with BObj o => mret o | _ => mfail WrongKind end.
Definition write_obj (p : Z) (o : obj) : M unit := let! _ := read_obj p in put p (BObj o).

(** [for (i = start; k times; ++i)] (levenshtein.cpp:13-27, levenshteinMatrice.hpp:80-134), with the variables [s] that the body changes. *)
Fixpoint for_ {S} (k : nat) (i : Z) (body : Z -> S -> M S) (s : S) : M S :=
  match k with
  | O => mret s
  | S k => let! s := body i s in for_ k (i + 1) body s
  end.

(** Iterators of std::list (levenshteinMatrice.hpp:73-74, 92-95, 118 and 174-196): the position, 0 for begin(); [None] for one not set to
    any list.  (Moving one before begin() or after end() is no fault here.) *)
Definition iter : Type := option Z.
Definition inc (x : iter) : M iter := match x with Some k => mret (Some (k + 1)) | None => mfail BadIterator end.
Definition dec (x : iter) : M iter := match x with Some k => mret (Some (k - 1)) | None => mfail BadIterator end.
Definition star {A} (l : list A) (x : iter) : M A :=
  match x with
  | Some k => match at_ l k with Some a => mret a | None => mfail BadIterator end
  | None => mfail BadIterator
  end.

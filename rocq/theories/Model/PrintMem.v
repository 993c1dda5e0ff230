(** src/simpleOutput.cpp again, with the strings it makes, reads and destroys.
    Simplification: the member indent is an argument, as in Model/SimpleOutput.v;
    strings are never changed once made; memory of [out] is not modelled. *)
From Verif Require Export Model.SimpleOutput.
Open Scope Z_scope.

(** A std::string of the program: which one, and what it was made with. *)
Record text : Type := mkText { tid : nat; held : bytes }.
(** What must not happen. *)
Inductive fault : Type := ReadsDestroyed (i : nat) | DestroysTwice (i : nat).
(** Strings made so far, those not destroyed, faults, what was written to [out]. *)
Record pmem : Type := mkPmem { made : nat; live : list nat; faults : list fault; wrote : bytes }.
Definition pm0 : pmem := mkPmem 0 [] [] [].

Definition M (A : Type) : Type := pmem -> A * pmem.
Definition ret {A} (a : A) : M A := fun m => (a, m).
Definition bind {A B} (p : M A) (f : A -> M B) : M B := fun m => let (a, m') := p m in f a m'.

Definition is_live (i : nat) (m : pmem) : bool := existsb (Nat.eqb i) (live m).
(** A constructor and a destructor of std::string. *)
Definition make (s : bytes) : M text := fun m => (mkText (made m) s, mkPmem (S (made m)) (made m :: live m) (faults m) (wrote m)).
Definition destroy (t : text) : M unit := fun m =>
  (tt, if is_live (tid t) m then mkPmem (made m) (filter (fun j => negb (Nat.eqb (tid t) j)) (live m)) (faults m) (wrote m)
       else mkPmem (made m) (live m) (DestroysTwice (tid t) :: faults m) (wrote m)).
(** out << "...", out << std::endl; nothing is made. *)
Definition literal (s : bytes) : M unit := fun m => (tt, mkPmem (made m) (live m) (faults m) (wrote m ++ s)).

Section Reads.
  (** What is found where string [i] was, once it is destroyed: by its number, what
      it held, and the index. *)
  Variable ghost : nat -> bytes -> nat -> ascii.
  (** params.compressed() *)
  Variable compressed : bool.

  (** The byte at an index of c_str(). *)
  Definition byte_of (t : text) (k : nat) : M ascii := fun m =>
    if is_live (tid t) m then (nth k (held t) NUL, m)
    else (ghost (tid t) (held t) k, mkPmem (made m) (live m) (ReadsDestroyed (tid t) :: faults m) (wrote m)).
  (** out << string *)
  Definition print (t : text) : M unit := fun m =>
    if is_live (tid t) m then literal (held t) m
    else (tt, mkPmem (made m) (live m) (ReadsDestroyed (tid t) :: faults m) (wrote m)).

  Notation "x <- p ;; q" := (bind p (fun x => q)) (at level 61, p at next level, right associativity).
  Notation "p ;;; q" := (bind p (fun _ => q)) (at level 61, right associativity).

  (** simpleOutput.cpp:31-41 (writePrimitive): the temporaries of line 33, of 36 or
      38. *)
  Definition writePrimitive (indent : Z) (prependComma : bool) (p : prim) : M unit :=
    i <- make (getIndent compressed indent) ;; print i ;;; literal (comma prependComma) ;;; destroy i ;;;
    s <- make (prim_string p) ;;
    match p with
    | PStr _ => literal (str """") ;;; print s ;;; literal (str """")
    | _ => print s
    end ;;; destroy s ;;; literal (eol compressed).

  (** simpleOutput.cpp:43-51: [_indent]; [brackets] points into the string that
      stringify() returns, destroyed at the end of line 46; line 49. *)
  Definition container_opens (indent : Z) (prependComma : bool) (t : tree) : M (text * text) :=
    i <- make (getIndent compressed indent) ;;
    brackets <- make (tree_string t) ;; destroy brackets ;;;
    c <- byte_of brackets 0 ;; s <- make [c] ;; print i ;;; literal (comma prependComma) ;;; print s ;;; destroy s ;;;
    literal (eol compressed) ;;; ret (i, brackets).
  (** simpleOutput.cpp:62-65. *)
  Definition container_closes (h : text * text) : M unit :=
    c <- byte_of (snd h) 2 ;; s <- make [c] ;; print (fst h) ;;; print s ;;; destroy s ;;; literal (eol compressed) ;;; destroy (fst h).

  (** simpleOutput.cpp:13-15: the key of an entry. *)
  Definition entry_key (indent : Z) (prependComma : bool) (k : bytes) : M unit :=
    i <- make (getIndent compressed indent) ;; s <- make k ;;
    print i ;;; literal (if prependComma then str ",""" else str """") ;;; print s ;;; literal (str """:") ;;; destroy s ;;; destroy i.
  (** simpleOutput.cpp:23-28: a value that is no container. *)
  Definition entry_value (x : tree) : M unit :=
    s <- make (tree_string x) ;; print s ;;; destroy s ;;; literal (eol compressed).

  (** simpleOutput.cpp:67-75 (write), with writeObjectEntry (13-29) and
      writeContainer (43-65). *)
  Fixpoint write_mem (indent : Z) (prependComma : bool) (t : tree) {struct t} : M unit :=
    match t with
    | TPrim p => writePrimitive indent prependComma p
    | TArr l =>
        h <- container_opens indent prependComma t ;;
        (fix items (first : bool) (l : list tree) : M unit :=
           match l with
           | [] => ret tt
           | x :: r => write_mem (incr indent) (negb first) x ;;; items false r
           end) true l ;;;
        container_closes h
    | TObj l =>
        h <- container_opens indent prependComma t ;;
        (fix entries (first : bool) (l : list (bytes * tree)) : M unit :=
           match l with
           | [] => ret tt
           | (k, x) :: r =>
               entry_key (incr indent) (negb first) k ;;;
               (if is_container x then literal (eol compressed) ;;; write_mem (incr indent) false x else entry_value x) ;;;
               entries false r
           end) true l ;;;
        container_closes h
    end.

  (** simpleOutput.cpp:84-88 (display). *)
  Definition display_mem (t : tree) : pmem := snd (write_mem 0 false t pm0).
End Reads.

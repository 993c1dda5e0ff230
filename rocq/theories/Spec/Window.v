(** Specification of the "last SIZE items" buffer: a plain list. *)
From Coq Require Import List ZArith Lia.
Import ListNotations.

(** The last [n] elements of [l], in order. *)
Definition lastn {A} (n : nat) (l : list A) : list A := skipn (length l - n) l.

(** The four operations of the buffer. *)
Inductive bufop (A : Type) : Type :=
| OpPut (x : A)
| OpPutMany (xs : list A)
| OpPop
| OpReset.
Arguments OpPut {A}.
Arguments OpPutMany {A}.
Arguments OpPop {A}.
Arguments OpReset {A}.

Definition window_step {A} (SIZE : nat) (l : list A) (op : bufop A) : list A :=
  match op with
  | OpPut x => lastn SIZE (l ++ [x])
  | OpPutMany xs => lastn SIZE (l ++ xs)
  | OpPop => removelast l
  | OpReset => []
  end.

Definition window_run {A} (SIZE : nat) (ops : list (bufop A)) : list A :=
  fold_left (window_step SIZE) ops [].

(** Every pop is directly preceded by a put of at least one item, and no batch
    is larger than the buffer. *)
Fixpoint disciplined_from {A} (SIZE : nat) (just_put : bool) (ops : list (bufop A)) : Prop :=
  match ops with
  | [] => True
  | OpPut _ :: t => disciplined_from SIZE true t
  | OpPutMany xs :: t =>
      (length xs <= SIZE)%nat /\ disciplined_from SIZE (negb (Nat.eqb (length xs) 0)) t
  | OpPop :: t => just_put = true /\ disciplined_from SIZE false t
  | OpReset :: t => disciplined_from SIZE true t
  end.
Definition disciplined {A} (SIZE : nat) (ops : list (bufop A)) : Prop :=
  disciplined_from SIZE true ops.

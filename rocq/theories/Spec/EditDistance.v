(** Edit distance: least number of single-byte edits. *)
From Verif Require Export Model.Bytes.
Open Scope Z_scope.

(** One insertion, deletion or substitution, anywhere. *)
Inductive edit1 : bytes -> bytes -> Prop :=
| E_ins p x s : edit1 (p ++ s) (p ++ x :: s)
| E_del p x s : edit1 (p ++ x :: s) (p ++ s)
| E_sub p x y s : edit1 (p ++ x :: s) (p ++ y :: s).

(** [n] edits one after the other. *)
Inductive edits : nat -> bytes -> bytes -> Prop :=
| Es_none a : edits 0 a a
| Es_more n a b c : edit1 a b -> edits n b c -> edits (S n) a c.

Definition edit_distance (a b : bytes) (n : nat) : Prop :=
  edits n a b /\ forall m, edits m a b -> (n <= m)%nat.

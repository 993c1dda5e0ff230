(** Histories of operations on the modelled ring buffer. *)
From Verif Require Import Model.WrappedBuffer Spec.Window.
Open Scope Z_scope.

(** One call of the public interface; [None]: out-of-bounds access. *)
Definition ring_step {A} (SIZE : nat) (r : option (ring A)) (op : bufop A) : option (ring A) :=
  match r with
  | None => None
  | Some r =>
      match op with
      | OpPut x => ring_put (Z.of_nat SIZE) r x
      | OpPutMany xs => ring_put_many (Z.of_nat SIZE) r xs (Z.of_nat (length xs))
      | OpPop => Some (ring_pop (Z.of_nat SIZE) r)
      | OpReset => Some (ring_reset r)
      end
  end.

Definition ring_run {A} (SIZE : nat) (ops : list (bufop A)) : option (ring A) :=
  fold_left (ring_step SIZE) ops (Some (ring_init SIZE)).

(** What is left in memory by a reading. *)
From Verif Require Export Model.Failed.
Open Scope Z_scope.

(** The number of elements made when reading has ended, in one way or the other. *)
Definition elements_made {A} (r : fin A) : Z := match r with Reads _ s _ => nextid s | Stops _ n _ => n end.
(** The bytes of [input] taken from the stream; of a failed reading, all of them. *)
Definition bytes_taken {A} (input : bytes) (r : fin A) : Z :=
  match r with Reads _ s _ => Z.of_nat (length input) - Z.of_nat (length (inp s)) | Stops _ _ _ => Z.of_nat (length input) end.
(** Every element made has been deleted. *)
Definition gives_back {A} (r : fin A) : Prop :=
  match r with Reads _ _ _ => True | Stops _ n freed => forall i, 0 <= i < n -> In i freed end.

(** Words for the lives of streams. *)
From Verif Require Export Model.Life Spec.SessionSpec.

(** The events of a session among those of its streams. *)
Definition session_of (l : list levent) : list tevent :=
  flat_map (fun x => match x with Tell t => [t] | _ => [] end) l.

(** The input number [k] of the command line is not read: its message is told and
    the run goes on without it. *)
Definition unread (e : env) (w : world) (opens : bytes -> bool) (args : list bytes) (k : nat) : Prop :=
  exists p i, Params_read opens args = PNext p /\ nth_error (getInputs p) k = Some i /\ snd (readOneFile e w p i) = Val None.

(** The last of the events shows a document, or makes it ready. *)
Definition in_view (l : list levent) : Prop :=
  exists b x, l = b ++ [x] /\ (x = Ready \/ exists ev, x = Tell (Did ev) /\ interactive ev).

(** The documents of the inputs [ks] are those [docs]. *)
Definition documents (e : env) (w : world) (p : params) : list nat -> list (bytes * tree) -> Prop :=
  Forall2 (fun k d => exists i root ws, nth_error (getInputs p) k = Some i /\ snd (readOneFile e w p i) = Val (Some (root, ws)) /\ d = (fst i, erase root)).

(** The event shows these documents, or writes them. *)
Definition displays (p : params) (x : event) (docs : list (bytes * tree)) : Prop :=
  match x with
  | EView f t => docs = [(f, t)]
  | ECompare l => docs = l
  | EOut o | ECreate _ o => exists f t, docs = [(f, t)] /\ o = display (p_compress p) t
  | _ => False
  end.
Definition display_event (x : event) : Prop :=
  match x with EView _ _ | ECompare _ | EOut _ | ECreate _ _ => True | _ => False end.

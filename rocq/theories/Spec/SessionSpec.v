(** The terminal is opened and closed; messages are for the terminal as it was. *)
From Verif Require Export Model.Session.

(** The mode the terminal is in after some events. *)
Inductive mode_after : list tevent -> bool -> Prop :=
| M_start : mode_after [] false
| M_opened : forall l b, mode_after l b -> mode_after (l ++ [Opened]) true
| M_closed : forall l b, mode_after l b -> mode_after (l ++ [Closed]) false
| M_did : forall l b e, mode_after l b -> mode_after (l ++ [Did e]) b.

(** Reports about an input, written to standard error. *)
Definition report (e : event) : Prop :=
  match e with EReport _ _ _ _ _ _ | EEof _ => True | _ => False end.
(** Something on the screen of a viewer. *)
Definition interactive (e : event) : Prop :=
  match e with EView _ _ | ECompare _ => True | _ => False end.

(** The events of Model/Main.v among those of a session. *)
Definition told (l : list tevent) : list event :=
  flat_map (fun x => match x with Did e => [e] | _ => [] end) l.

(** The arguments ask for the viewer of one document at a time, on a terminal, or
    for the comparison. *)
Definition viewing (w : world) (opens : bytes -> bool) (args : list bytes) (p : params) : Prop :=
  Params_read opens args = PNext p /\ p_cmd p = None /\ p_diff p = false /\ p_compress p = false /\ tty w = true.
Definition comparing (opens : bytes -> bool) (args : list bytes) (p : params) : Prop :=
  Params_read opens args = PNext p /\ p_cmd p = None /\ p_diff p = true.

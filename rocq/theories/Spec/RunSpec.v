(** Runs of the program. *)
From Verif Require Export Model.Main.
Open Scope Z_scope.

(** Files created in a run are removed later in it. *)
Definition removed (tr : list event) : Prop := forall pre name b post,
  tr = pre ++ ECreate name b :: post -> In (EUnlink name) post.

(** What a run printed. *)
Definition printed (tr : list event) : list bytes := flat_map (fun x => match x with EOut b => [b] | _ => [] end) tr.
(** Its error reports: file and message. *)
Definition reports (tr : list event) : list (bytes * bytes) :=
  flat_map (fun x => match x with EReport f m _ _ _ _ => [(f, m)] | _ => [] end) tr.
(** Its views. *)
Definition views (tr : list event) : list (bytes * tree) := flat_map (fun x => match x with EView f t => [(f, t)] | _ => [] end) tr.

Section Inputs.
  Variable e : env.
  Variable c : cfg.
  Variable text : bytes * src -> bytes.

  (** An input is the document [t] with warnings [ws]. *)
  Definition is_doc (i : bytes * src) (t : tree) (ws : list exn) : Prop := exists root s,
    read_doc e (Some c) (text i) = Ok (Some root, s) /\ t = erase root /\ ws = warns s.
  (** The documents before the first input that is none. *)
  Inductive docs_until : list (bytes * src) -> list (bytes * tree * list exn) -> option (bytes * src) -> Prop :=
  | DU_end : docs_until [] [] None
  | DU_stop i l : (forall t ws, ~ is_doc i t ws) -> docs_until (i :: l) [] (Some i)
  | DU_doc i l t ws r x : is_doc i t ws -> docs_until l r x -> docs_until (i :: l) ((fst i, t, ws) :: r) x.
End Inputs.

(** A report that can be made: there is a message and an excerpt. *)
Definition reportable (x : exn) : Prop := message (ekind_of x) <> None /\ hist_text (ehist x) <> [].

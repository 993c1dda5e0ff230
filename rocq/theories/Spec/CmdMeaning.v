(** What command lines mean, in terms of the members of Params. *)
From Verif Require Export Model.Params Spec.CmdLine.

(** What the options of a command line mean. *)
Record meaning (l : list item) (e : ending) (p : params) : Prop := {
  m_strict : p_strict p = true <-> ~ In (str "-W") (flags l);
  m_ascii : p_ascii p = true <-> In (str "--ascii") (flags l);
  m_color : colour (flags l) (p_color p);
  m_sorted : p_sorted p = true <-> ~ In (str "--keep-order") (flags l);
  m_compress : p_compress p = true <-> In (str "--compress") (flags l);
  m_diff : p_diff p = true <-> In (str "--diff") (flags l);
  m_cmd : option_map dc_argv (p_cmd p) = hd_error (cmds l ++ end_cmds e);
  m_text : p_text p = match e with EndText t => Some (joined t) | _ => None end;
  m_inputs : ~ In (str "ARGS") (files l) ->
    getInputs p = match map (fun f => (f, SFile f)) (files l) ++ (match e with EndText _ => [(str "ARGS", SArgs)] | _ => [] end) with
                  | [] => [(str "STDIN", SStdin)]
                  | i => i
                  end }.

(** Every command line is of one of three kinds. *)
Definition kinds (opens : bytes -> bool) (l : list item) (rest : list bytes) : Prop :=
  (exists e, ends rest e /\ (length (cmds l ++ end_cmds e) <= 1)%nat) \/
  (exists a t, rest = a :: t /\ In a stop_names) \/
  (exists a t, rest = a :: t /\ wrong opens l a).

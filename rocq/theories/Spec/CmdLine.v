(** Command lines. *)
From Verif Require Export Model.Bytes.

(** Options without argument. *)
Definition flag_names : list bytes :=
  map str ["-W"; "--ascii"; "--color"; "--color=always"; "--color=never"; "--diff"; "--compress"; "--keep-order"]%string.
Definition stop_names : list bytes := map str ["--help"; "-h"; "--version"; "-v"]%string.
Definition is_file (a : bytes) : Prop := forall t, a <> "-"%char :: t.

Inductive item : Type := IFlag (f : bytes) | ICmd (l : list bytes) | IFile (f : bytes).

(** Complete items. *)
Inductive items : list bytes -> list item -> Prop :=
| I_nil : items [] []
| I_flag f w l : In f flag_names -> items w l -> items (f :: w) (IFlag f :: l)
| I_file f w l : is_file f -> items w l -> items (f :: w) (IFile f :: l)
| I_cmd c w l : ~ In (str ";") c -> items w l -> items (str "--diff-cmd" :: c ++ str ";" :: w) (ICmd c :: l).

(** What follows the items: nothing, text after "--", or a command without its
    terminator. *)
Inductive ending : Type := EndNone | EndText (l : list bytes) | EndCmd (l : list bytes).
Inductive ends : list bytes -> ending -> Prop :=
| En_none : ends [] EndNone
| En_text l : ends (str "--" :: l) (EndText l)
| En_cmd l : ~ In (str ";") l -> ends (str "--diff-cmd" :: l) (EndCmd l).

Definition flags (l : list item) : list bytes := flat_map (fun i => match i with IFlag f => [f] | _ => [] end) l.
Definition files (l : list item) : list bytes := flat_map (fun i => match i with IFile f => [f] | _ => [] end) l.
Definition cmds (l : list item) : list (list bytes) := flat_map (fun i => match i with ICmd c => [c] | _ => [] end) l.
Definition end_cmds (e : ending) : list (list bytes) := match e with EndCmd l => [l] | _ => [] end.

(** The last colour option decides; the default is colours. *)
Inductive colour : list bytes -> bool -> Prop :=
| Co_none l : ~ In (str "--color") l -> ~ In (str "--color=always") l -> ~ In (str "--color=never") l -> colour l true
| Co_on a f b : f = str "--color" \/ f = str "--color=always" -> ~ In (str "--color=never") b -> colour (a ++ f :: b) true
| Co_off a b : ~ In (str "--color") b -> ~ In (str "--color=always") b -> colour (a ++ str "--color=never" :: b) false.

(** Arguments joined by single blanks. *)
Fixpoint joined (l : list bytes) : bytes :=
  match l with
  | [] => []
  | [x] => x
  | x :: t => x ++ " "%char :: joined t
  end.

(** Items that raise no error: readable and different files, one command. *)
Definition fine (opens : bytes -> bool) (l : list item) : Prop :=
  NoDup (files l) /\ (forall f, In f (files l) -> opens f = true) /\ (length (cmds l) <= 1)%nat.

(** An argument that is an error after the items [l]. *)
Inductive wrong (opens : bytes -> bool) (l : list item) : bytes -> Prop :=
| W_option a t : a = "-"%char :: t -> ~ In a flag_names -> ~ In a stop_names -> a <> str "--" -> a <> str "--diff-cmd" -> wrong opens l a
| W_unreadable a : is_file a -> opens a = false -> wrong opens l a
| W_repeated a : is_file a -> In a (files l) -> wrong opens l a
| W_command : cmds l <> [] -> wrong opens l (str "--diff-cmd").

(** Names of the inputs, text after "--" being named ARGS. *)
Inductive input_names (l : list item) : ending -> list bytes -> Prop :=
| IN_files e : (forall t, e <> EndText t) -> input_names l e (files l)
| IN_text t : ~ In (str "ARGS") (files l) -> input_names l (EndText t) (files l ++ [str "ARGS"])
| IN_same t : In (str "ARGS") (files l) -> input_names l (EndText t) (files l).

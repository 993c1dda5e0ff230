(** Typing at the search prompt. *)
From Verif Require Export Model.Prompt Model.SimpleView Spec.SearchSpec Spec.ViewSpec Spec.JsonGrammar.
Open Scope Z_scope.

Definition enter (k : Z) : Prop := k = 10 \/ k = 13.
Definition escape (k : Z) : Prop := k = 27.
Definition backspace (k : Z) : Prop := k = 8 \/ k = 127.
Definition character (k : Z) : Prop := ~ enter k /\ ~ escape k /\ ~ backspace k.
(** Keys of the text [s], byte by byte, as a terminal sends it. *)
Definition keys_of (s : bytes) : list Z := map uchar s.
Definition printable (s : bytes) : Prop := Forall (fun c => 32 <= uchar c <= 126) s.

(** [s] is the characters numbered [l], one after the other. *)
Definition encoded (l : list Z) (s : bytes) : Prop := exists parts, Forall2 utf8 parts l /\ s = concat parts.
(** What wgetch answers for a key (curses.h: KEY_MAX is 511), NUL aside. *)
Definition wkey (k : Z) : Prop := 1 <= k <= 511.

(** Text of an item of a document. *)
Definition item_text (x : item) : bytes := match x with Scalar p => tree_string (TPrim p) | Key k => k end.

(** A text that is its own pattern. *)
Definition plain_text (s : bytes) : Prop := printable s /\ s <> [] /\ no_blank_first s /\ ~ In "/"%char s /\ ~ In BSLASH s.

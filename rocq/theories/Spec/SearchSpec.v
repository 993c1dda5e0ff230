(** What a search pattern means. *)
From Verif Require Export Model.Bytes.
Open Scope Z_scope.

(** [q] occurs in [s]. *)
Definition occurs (q s : bytes) : Prop := exists a b, s = a ++ q ++ b.

(** A tab shows as a blank. *)
Definition untab (c : ascii) : ascii := if Ascii.eqb c TAB then " "%char else c.
(** Text seen by a search: tabs as blanks, letters folded if case is ignored. *)
Definition seen (icase : bool) (s : bytes) : bytes :=
  map (fun c => if icase then tolower (untab c) else untab c) s.
(** Bytes of non-ASCII characters. *)
Definition foreign (c : ascii) : Prop := 128 <= uchar c <= 254.
(** With case ignored, non-ASCII bytes of a pattern match nothing. *)
Definition matchable (icase : bool) (q : bytes) : Prop := icase = true -> Forall (fun c => ~ foreign c) q.
Definition fold (icase : bool) (s : bytes) : bytes := if icase then map tolower s else s.

(** [q] occurs in [s] as a word: delimited by blanks or the ends of [s]. *)
Definition word_in (q s : bytes) : Prop :=
  exists a b, s = a ++ q ++ b /\
    (a = [] \/ exists a', a = a' ++ [" "%char]) /\ (b = [] \/ exists b', b = " "%char :: b').

(** Spelling of a pattern text: '\/' is a slash, any other escaped byte keeps
    its backslash. *)
Inductive spells : bytes -> bytes -> Prop :=
| Sp_nil : spells [] []
| Sp_chr c i p : c <> BSLASH -> c <> "/"%char -> spells i p -> spells (c :: i) (c :: p)
| Sp_slash i p : spells i p -> spells (BSLASH :: "/"%char :: i) ("/"%char :: p)
| Sp_esc c i p : c <> "/"%char -> spells i p -> spells (BSLASH :: c :: i) (BSLASH :: c :: p).

Definition blank (c : ascii) : Prop := c = " "%char \/ c = TAB.
Definition no_blank_first (s : bytes) : Prop := forall c t, s = c :: t -> ~ blank c.

(** [typed input p fl]: blanks, a spelling of [p] and, after a slash, the flags
    [fl].  A lone backslash at the end counts for nothing. *)
Inductive typed : bytes -> bytes -> bytes -> Prop :=
| Ty_plain bl i p tail : Forall blank bl -> spells i p -> ~ In NUL i -> no_blank_first i ->
    tail = [] \/ tail = [BSLASH] -> typed (bl ++ i ++ tail) p []
| Ty_flags bl i p fl : Forall blank bl -> spells i p -> ~ In NUL i -> no_blank_first i ->
    ~ In NUL fl -> typed (bl ++ i ++ "/"%char :: fl) p fl.

(** The last type flag of a list of flags. *)
Inductive last_type : bytes -> option ascii -> Prop :=
| LT_none fl : (forall c, In c fl -> ~ In c ["b"; "n"; "s"; "o"]%char) -> last_type fl None
| LT_some a c b : In c ["b"; "n"; "s"; "o"]%char -> (forall d, In d b -> ~ In d ["b"; "n"; "s"; "o"]%char) ->
    last_type (a ++ c :: b) (Some c).

(** A \uXXXX escape stands at the beginning of the text: a backslash, a u and
    four more bytes. *)
Definition escape_first (s : bytes) : Prop :=
  exists h rest, length h = 4%nat /\ s = BSLASH :: "u"%char :: h ++ rest.

(** Printed documents. *)
From Verif Require Export Spec.JsonGrammar.
Open Scope Z_scope.

(** Strings printed between quotes that read back as themselves: no quote, no
    control character, backslashes only in escapes the reader keeps. *)
Definition self_spelled (ascii : bool) (s : bytes) : Prop :=
  jstring kept_ctrl (if ascii then kept_uni else rfc_uni) s s.

(** Doubles that six decimals determine. *)
Definition survives (d : spec_float) : Prop := exists neg l fr,
  double_to_string d = minus neg ++ l ++ "."%char :: fr /\ int_digits l /\ digits fr /\
  d = decimal_to_double neg (dec_value (l ++ fr)) (Z.of_nat (length fr)).

(** Documents that survive printing: strings are self-spelled and occur only in
    arrays or as the document itself. *)
Inductive printable (ascii : bool) : tree -> Prop :=
| P_null : printable ascii (TPrim PNull)
| P_bool b : printable ascii (TPrim (PBool b))
| P_int z p : int_prim z p -> printable ascii (TPrim p)
| P_dbl d : survives d -> printable ascii (TPrim (PDbl d))
| P_str s : self_spelled ascii s -> printable ascii (TPrim (PStr s))
| P_arr l : Forall (printable ascii) l -> printable ascii (TArr l)
| P_obj l : Forall (fun kv => self_spelled ascii (fst kv) /\ (forall s, snd kv <> TPrim (PStr s)) /\ printable ascii (snd kv)) l ->
    printable ascii (TObj l).

(** The lines of a printed document: depth and text.  [c] is what precedes the
    element on its line (a comma or nothing). *)
Definition scalar_text (p : prim) : bytes :=
  match p with PStr s => DQUOTE :: s ++ [DQUOTE] | _ => prim_string p end.
Inductive lines : Z -> bytes -> tree -> list (Z * bytes) -> Prop :=
| Ln_scalar d c p : lines d c (TPrim p) [(d, c ++ scalar_text p)]
| Ln_arr d c l ls : elem_lines (d + 1) [] l ls -> lines d c (TArr l) ((d, c ++ str "[") :: ls ++ [(d, str "]")])
| Ln_obj d c l ls : entry_lines (d + 1) [] l ls -> lines d c (TObj l) ((d, c ++ str "{") :: ls ++ [(d, str "}")])
with elem_lines : Z -> bytes -> list tree -> list (Z * bytes) -> Prop :=
| El_nil d c : elem_lines d c [] []
| El_cons d c v l ls ls' : lines d c v ls -> elem_lines d (str ",") l ls' -> elem_lines d c (v :: l) (ls ++ ls')
with entry_lines : Z -> bytes -> list (bytes * tree) -> list (Z * bytes) -> Prop :=
| En_nil d c : entry_lines d c [] []
| En_scalar d c k p l ls' : entry_lines d (str ",") l ls' ->
    entry_lines d c ((k, TPrim p) :: l) ((d, c ++ DQUOTE :: k ++ DQUOTE :: ":"%char :: prim_string p) :: ls')
| En_cont d c k v l ls ls' : (forall p, v <> TPrim p) -> lines d [] v ls -> entry_lines d (str ",") l ls' ->
    entry_lines d c ((k, v) :: l) ((d, c ++ DQUOTE :: k ++ str """:") :: ls ++ ls').

(** A printed text from its lines. *)
Definition spaces (n : Z) : bytes := repeat " "%char (Z.to_nat n).
Definition with_layout (ind : Z -> Z) (ls : list (Z * bytes)) : bytes :=
  flat_map (fun x => spaces (ind (fst x)) ++ snd x ++ [LF]) ls.
Definition without_layout (ls : list (Z * bytes)) : bytes := flat_map snd ls.

(** Opening and closing brackets alone on a line (after a comma perhaps). *)
Definition opening (t : bytes) : Prop := In t (map str ["["; ",["; "{"; ",{"]%string).
Definition closing (t : bytes) : Prop := In t (map str ["]"; "}"]%string).
(** [ls] begins at depth [d] and ends at depth [d'], each line being at the depth
    its brackets tell. *)
Inductive nested : Z -> list (Z * bytes) -> Z -> Prop :=
| Ne_nil d : nested d [] d
| Ne_open d t ls d' : opening t -> nested (d + 1) ls d' -> nested d ((d, t) :: ls) d'
| Ne_close d t ls d' : closing t -> nested (d - 1) ls d' -> nested d ((d - 1, t) :: ls) d'
| Ne_other d t ls d' : ~ opening t -> ~ closing t -> nested d ls d' -> nested d ((d, t) :: ls) d'.

(** An empty array inside [n] arrays. *)
Fixpoint nest (n : nat) : tree := match n with O => TArr [] | S n' => TArr [nest n'] end.

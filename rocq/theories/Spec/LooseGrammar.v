(** The structure of texts: nesting, separators, ends.  Words are described
    loosely (a string is anything between quotes, a number any digits), so that
    the texts of JSON are among those of [value comma brace]. *)
From Verif Require Export Model.Bytes.
Open Scope Z_scope.

(** What may stand between tokens: here every byte that is not a printable ASCII
    character. *)
Definition gap (l : bytes) : Prop := Forall (fun c => uchar c <= 32 \/ 127 <= uchar c) l.

(** A string: quotes around characters and pairs of a backslash and a character. *)
Inductive body : bytes -> Prop :=
| B_nil : body []
| B_plain c l : c <> DQUOTE -> c <> BSLASH -> body l -> body (c :: l)
| B_pair c l : body l -> body (BSLASH :: c :: l).
Definition quoted (l : bytes) : Prop := exists b, body b /\ l = DQUOTE :: b ++ [DQUOTE].

(** Another scalar: true, false or null in any case; a digit, '-' or '.' followed
    by digits and perhaps a '.' and digits. *)
Definition number_start (c : ascii) : Prop := 48 <= uchar c <= 57 \/ c = "."%char \/ c = "-"%char.
Definition all_digits (l : bytes) : Prop := Forall (fun c => 48 <= uchar c <= 57) l.
Inductive word : bytes -> Prop :=
| W_name l : In (map tolower l) [str "true"; str "false"; str "null"] -> word l
| W_int c l : number_start c -> all_digits l -> word (c :: l)
| W_dec c l l' : number_start c -> all_digits l -> all_digits l' -> word (c :: l ++ "."%char :: l').
Definition scalar (l : bytes) : Prop := quoted l \/ word l.

Section Structure.
  (** What separates two members of an object; what ends an object. *)
  Variable sep : ascii -> Prop.
  Variable fin : bytes -> Prop.

  (** A value; the rest of an array after '['; of an object after '{'. *)
  Inductive value : bytes -> Prop :=
  | V_scalar l : scalar l -> value l
  | V_arr0 g : gap g -> value ("["%char :: g ++ ["]"%char])
  | V_arr l : elements l -> value ("["%char :: l)
  | V_obj0 g : gap g -> value ("{"%char :: g ++ ["}"%char])
  | V_obj l : members l -> value ("{"%char :: l)
  with elements : bytes -> Prop :=
  | E_last g v g' : gap g -> value v -> gap g' -> elements (g ++ v ++ g' ++ ["]"%char])
  | E_more g v g' l : gap g -> value v -> gap g' -> elements l -> elements (g ++ v ++ g' ++ ","%char :: l)
  with members : bytes -> Prop :=
  | M_last m g f : member m -> gap g -> fin f -> members (m ++ g ++ f)
  | M_more m g c l : member m -> gap g -> sep c -> members l -> members (m ++ g ++ c :: l)
  with member : bytes -> Prop :=
  | M_member g k g' g'' v : gap g -> quoted k -> gap g' -> gap g'' -> value v ->
      member (g ++ k ++ g' ++ ":"%char :: g'' ++ v).
End Structure.

(** JSON; and what the reader takes: any token but a closing brace instead of the
    comma, any scalar instead of the closing brace. *)
Definition comma (c : ascii) : Prop := c = ","%char.
Definition brace (l : bytes) : Prop := l = ["}"%char].
Definition any_token (c : ascii) : Prop := In c ["{"; "["; "]"; ":"; ","]%char.
Definition brace_or_scalar (l : bytes) : Prop := brace l \/ scalar l.

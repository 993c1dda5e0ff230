(** Replacing \uXXXX escapes in a text. *)
From Verif Require Export Spec.SearchSpec Spec.JsonGrammar.
Open Scope Z_scope.

(** [r] is [s] with its escapes of code units in [enc] replaced by UTF-8; an
    escape also swallows the bytes in [skip]. *)
Inductive replaced (enc : Z -> Prop) (skip : bytes -> Prop) : bytes -> bytes -> Prop :=
| R_nil : replaced enc skip [] []
| R_chr c s r : ~ escape_first (c :: s) -> replaced enc skip s r -> replaced enc skip (c :: s) (c :: r)
| R_esc h u bs k s r : code_unit h u -> enc u -> utf8 bs u -> skip k -> replaced enc skip s r ->
    replaced enc skip (BSLASH :: "u"%char :: h ++ k ++ s) (bs ++ r).

Definition no_byte (k : bytes) : Prop := k = [].
Definition one_byte (k : bytes) : Prop := length k = 1%nat.

(** No escape anywhere in the text. *)
Definition no_escape (s : bytes) : Prop := forall a b, s = a ++ b -> ~ escape_first b.

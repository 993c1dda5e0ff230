(** Texts that hold nothing that can end the reader abnormally. *)
From Verif Require Export Spec.JsonGrammar.
Open Scope Z_scope.

(** Bytes that are skipped between tokens. *)
Definition ignorable (c : ascii) : Prop := uchar c <= 32 \/ 127 <= uchar c.

(** A closing quote follows; a backslash hides the byte after it. *)
Inductive terminated : bytes -> Prop :=
| T_end r : terminated (DQUOTE :: r)
| T_esc c r : terminated r -> terminated (BSLASH :: c :: r)
| T_chr c r : c <> DQUOTE -> c <> BSLASH -> terminated r -> terminated (c :: r).

(** The beginning of a value follows: the next significant byte is there and is
    not a separator or closing bracket; a string is closed; after n or N there
    are three bytes. *)
Definition value_follows (r : bytes) : Prop :=
  exists ign x r', r = ign ++ x :: r' /\ Forall ignorable ign /\ ~ ignorable x /\
    ~ In x [","; ":"; "]"; "}"]%char /\
    (x = DQUOTE -> terminated r') /\ (x = "n"%char \/ x = "N"%char -> (3 <= length r')%nat).

(** No dangerous construct begins here. *)
Record harmless_at (b : bytes) : Prop := {
  ha_colon : forall r, b = ":"%char :: r -> value_follows r;
  ha_minus : forall r, b = "-"%char :: r -> exists d r', r = d :: r' /\ dec_digit d;
  ha_dot : forall c r, b = c :: "."%char :: r -> dec_digit c;
  ha_dots : forall l r, b = "."%char :: l ++ "."%char :: r -> ~ Forall dec_digit l;
  ha_long : forall l r, b = l ++ r -> Forall dec_digit l -> (length l <= 18)%nat;
  ha_uni : forall r, b = BSLASH :: "u"%char :: r ->
    exists h r', r = h ++ r' /\ length h = 4%nat /\ ~ In LF h /\ forall u, code_unit h u -> ~ surrogate u;
  ha_null : forall c r, b = c :: r -> c = "n"%char \/ c = "N"%char -> ~ In LF (firstn 3 r)
}.

(** Nowhere in the text, and it does not begin with a dot. *)
Definition harmless (input : bytes) : Prop :=
  (forall a b, input = a ++ b -> harmless_at b) /\ (forall r, input <> "."%char :: r).

(** The JSON grammar (RFC 8259) with the tree a text denotes.  Objects denote
    the list of their members in text order. *)
From Verif Require Export Spec.TreeSpec.
Open Scope Z_scope.

(** White space. *)
Definition is_ws (c : ascii) : Prop := uchar c = 32 \/ uchar c = 9 \/ uchar c = 10 \/ uchar c = 13.
Definition ws (l : bytes) : Prop := Forall is_ws l.

(** Decimal digits and the number they spell. *)
Definition dec_digit (c : ascii) : Prop := 48 <= uchar c <= 57.
Definition digits (l : bytes) : Prop := l <> [] /\ Forall dec_digit l.
Definition dec_value (l : bytes) : Z := fold_left (fun a c => 10 * a + (uchar c - 48)) l 0.
(** RFC: no leading zero. *)
Definition int_digits (l : bytes) : Prop := digits l /\ (forall c r, l = c :: r -> uchar c = 48 -> r = []).
Definition minus (neg : bool) : bytes := if neg then str "-" else [].
Definition signed (neg : bool) (z : Z) : Z := if neg then - z else z.

(** The C++ type of an integer: int if it fits, else long. *)
Inductive int_prim : Z -> prim -> Prop :=
| IP_int z : - 2 ^ 31 <= z < 2 ^ 31 -> int_prim z (PInt z)
| IP_long z : ~ (- 2 ^ 31 <= z < 2 ^ 31) -> - 2 ^ 63 <= z < 2 ^ 63 -> int_prim z (PLong z).

(** Hexadecimal digits; code unit spelled by four of them. *)
Inductive hex_digit : ascii -> Z -> Prop :=
| HD_dec c v : 0 <= v <= 9 -> uchar c = 48 + v -> hex_digit c v
| HD_low c v : 10 <= v <= 15 -> uchar c = 97 + (v - 10) -> hex_digit c v
| HD_up c v : 10 <= v <= 15 -> uchar c = 65 + (v - 10) -> hex_digit c v.
Inductive code_unit : bytes -> Z -> Prop :=
| CU a b c d x y z t : hex_digit a x -> hex_digit b y -> hex_digit c z -> hex_digit d t ->
    code_unit [a; b; c; d] (4096 * x + 256 * y + 16 * z + t).

(** [bs] is the UTF-8 encoding of code point [u < 65536], told by decoding. *)
Definition cont (c : ascii) (v : Z) : Prop := 0 <= v < 64 /\ uchar c = 128 + v.
Inductive utf8 : bytes -> Z -> Prop :=
| U1 c : uchar c < 128 -> utf8 [c] (uchar c)
| U2 a b x y : 0 <= x < 32 -> uchar a = 192 + x -> cont b y -> 128 <= 64 * x + y -> utf8 [a; b] (64 * x + y)
| U3 a b c x y z : 0 <= x < 16 -> uchar a = 224 + x -> cont b y -> cont c z -> 2048 <= 4096 * x + 64 * y + z ->
    utf8 [a; b; c] (4096 * x + 64 * y + z).
Definition surrogate (u : Z) : Prop := 55296 <= u <= 57343.

(** Characters of a string: text (in RFC grammar) and value.  [ctrl] tells what
    the escapes of control characters stand for, [uni] what a unicode escape
    stands for. *)
Definition ctrl_escape (c : ascii) : Prop := In c ["b"; "f"; "n"; "r"; "t"]%char.
Inductive jchar (ctrl : ascii -> bytes -> Prop) (uni : bytes -> bytes -> Prop) : bytes -> bytes -> Prop :=
| JC_plain c : 32 <= uchar c -> c <> DQUOTE -> c <> BSLASH -> jchar ctrl uni [c] [c]
| JC_esc c : c = DQUOTE \/ c = BSLASH \/ c = "/"%char -> jchar ctrl uni [BSLASH; c] [c]
| JC_ctrl c v : ctrl_escape c -> ctrl c v -> jchar ctrl uni [BSLASH; c] v
| JC_uni h v : uni h v -> jchar ctrl uni (BSLASH :: "u"%char :: h) v.
Inductive jstring (ctrl : ascii -> bytes -> Prop) (uni : bytes -> bytes -> Prop) : bytes -> bytes -> Prop :=
| JS_nil : jstring ctrl uni [] []
| JS_cons t v t' v' : jchar ctrl uni t v -> jstring ctrl uni t' v' -> jstring ctrl uni (t ++ t') (v ++ v').

(** RFC meaning of control escapes. *)
Inductive rfc_ctrl : ascii -> bytes -> Prop :=
| RC_b : rfc_ctrl "b" [chr 8]
| RC_f : rfc_ctrl "f" [chr 12]
| RC_n : rfc_ctrl "n" [chr 10]
| RC_r : rfc_ctrl "r" [chr 13]
| RC_t : rfc_ctrl "t" [chr 9].
(** RFC meaning of a unicode escape outside surrogate pairs. *)
Definition rfc_uni (h v : bytes) : Prop := exists u, code_unit h u /\ ~ surrogate u /\ utf8 v u.
(** No control escape at all. *)
Definition no_ctrl (c : ascii) (v : bytes) : Prop := False.
(** Control escapes stay as they are spelled. *)
Definition kept_ctrl (c : ascii) (v : bytes) : Prop := v = [BSLASH; c].
(** Unicode escapes stay as they are spelled. *)
Definition kept_uni (h v : bytes) : Prop := (exists u, code_unit h u) /\ v = BSLASH :: "u"%char :: h.

(** Values, given the meaning [S] of the text between quotes. *)
Section Grammar.
  Variable S : bytes -> bytes -> Prop.

  Inductive jval : bytes -> tree -> Prop :=
  | J_str b v : S b v -> jval (DQUOTE :: b ++ [DQUOTE]) (TPrim (PStr v))
  | J_null : jval (str "null") (TPrim PNull)
  | J_true : jval (str "true") (TPrim (PBool true))
  | J_false : jval (str "false") (TPrim (PBool false))
  | J_int neg l p : int_digits l -> int_prim (signed neg (dec_value l)) p -> jval (minus neg ++ l) (TPrim p)
  | J_dbl neg l fr : int_digits l -> digits fr ->
      jval (minus neg ++ l ++ "."%char :: fr)
           (TPrim (PDbl (decimal_to_double neg (dec_value (l ++ fr)) (Z.of_nat (length fr)))))
  | J_arr0 w : ws w -> jval ("["%char :: w ++ str "]") (TArr [])
  | J_arr t l : elems t l -> jval ("["%char :: t ++ str "]") (TArr l)
  | J_obj0 w : ws w -> jval ("{"%char :: w ++ str "}") (TObj [])
  | J_obj t l : members t l -> jval ("{"%char :: t ++ str "}") (TObj l)
  with elems : bytes -> list tree -> Prop :=
  | E_one w1 t w2 v : ws w1 -> jval t v -> ws w2 -> elems (w1 ++ t ++ w2) [v]
  | E_more w1 t w2 v t' l : ws w1 -> jval t v -> ws w2 -> elems t' l -> elems (w1 ++ t ++ w2 ++ ","%char :: t') (v :: l)
  with members : bytes -> list (bytes * tree) -> Prop :=
  | M_one w1 k kv w2 w3 t v w4 : ws w1 -> S k kv -> ws w2 -> ws w3 -> jval t v -> ws w4 ->
      members (w1 ++ DQUOTE :: k ++ DQUOTE :: w2 ++ ":"%char :: w3 ++ t ++ w4) [(kv, v)]
  | M_more w1 k kv w2 w3 t v w4 t' l : ws w1 -> S k kv -> ws w2 -> ws w3 -> jval t v -> ws w4 -> members t' l ->
      members (w1 ++ DQUOTE :: k ++ DQUOTE :: w2 ++ ":"%char :: w3 ++ t ++ w4 ++ ","%char :: t') ((kv, v) :: l).
End Grammar.

(** What may follow a value without extending it. *)
Definition boundary (rest : bytes) : Prop := forall c r, rest = c :: r ->
  ~ dec_digit c /\ c <> "."%char /\ ~ (65 <= uchar c <= 90) /\ ~ (97 <= uchar c <= 122).

(** Objects whose keys are distinct, at any depth. *)
Definition distinct_keys (t : tree) : Prop := all_objects (@NoDup bytes) t.

(** Repeated keys: only the last occurrence counts. *)
Fixpoint last_wins {V} (l : list (bytes * V)) : list (bytes * V) :=
  match l with
  | [] => []
  | (k, v) :: r => if in_dec (list_eq_dec ascii_dec) k (map fst r) then last_wins r else (k, v) :: last_wins r
  end.
Fixpoint last_keys (t : tree) : tree :=
  match t with
  | TPrim p => TPrim p
  | TArr l => TArr (map last_keys l)
  | TObj l => TObj (last_wins (map (fun kv => (fst kv, last_keys (snd kv))) l))
  end.

(** Keys pressed, and characters of texts. *)
From Verif Require Export Model.InputSequence Model.DisplayWidth.
Open Scope Z_scope.

(** The keys among the answers of wgetch: -1 is no key. *)
Definition pressed (input : list Z) : list Z := filter (fun c => negb (c =? -1)) input.
(** Names joined by '-'. *)
Fixpoint dashed (l : list bytes) : bytes :=
  match l with [] => [] | [n] => n | n :: t => n ++ str "-" ++ dashed t end.
(** Key [c] has the name [n]; it is a prefix when the name starts with '^'. *)
Definition named (keyname : Z -> option bytes) (c : Z) (n : bytes) : Prop := keyname (toupper c) = Some n.
Definition prefix_name (n : bytes) : Prop := exists t, n = "^"%char :: t.

(** Control keys, and the names ncurses documents for ASCII codes. *)
Definition control (c : Z) : Prop := 0 <= c < 32 \/ c = 127.
Definition ascii_name (c : Z) : option bytes :=
  if (0 <=? c) && (c <? 32) then Some ["^"%char; chr (c + 64)]
  else if c =? 127 then Some (str "^?")
  else if (32 <=? c) && (c <? 127) then Some [chr c]
  else None.

(** [c] is a character for the conversion [mb], whatever follows it. *)
Definition character (mb : bytes -> option nat) (c : bytes) : Prop :=
  (exists a t, c = a :: t /\ a <> NUL) /\ forall s, mb (c ++ s) = Some (length c).

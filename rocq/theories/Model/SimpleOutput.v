(** src/simpleOutput.cpp: what display() prints.  The element is given as a
    document tree.  Simplification: writeContainer reads the brackets through a
    pointer into a destroyed temporary (line 46); the bytes are taken to be the
    ones it held. *)
From Verif Require Export Model.Json.
Open Scope Z_scope.

(** include/config.h:17-19 *)
Definition INDENT_LEVEL : Z := 4.

Section Out.
  (** params.compressed() *)
  Variable compressed : bool.

  (** The member indent is an unsigned short (simpleOutput.hh:29, ++ and -- at
      lines 53 and 60). *)
  Definition incr (indent : Z) : Z := (indent + 1) mod 65536.

  (** simpleOutput.cpp:77-82 (getIndent). *)
  Definition getIndent (indent : Z) : bytes :=
    if compressed then [] else repeat " "%char (Z.to_nat (indent * INDENT_LEVEL)).
  (** [if (!params.compressed()) out << std::endl]. *)
  Definition eol : bytes := if compressed then [] else [LF].
  Definition comma (c : bool) : bytes := if c then str "," else [].

  Definition is_container (t : tree) : bool := match t with TPrim _ => false | _ => true end.
  (** stringify().c_str()[0] and [2] of a container. *)
  Definition bracket (i : nat) (t : tree) : bytes := [nth i (tree_string t) NUL].

  (** simpleOutput.cpp:67-75 (write), with writeObjectEntry (13-29),
      writePrimitive (31-41) and writeContainer (43-65). *)
  Fixpoint write (indent : Z) (prependComma : bool) (t : tree) {struct t} : bytes :=
    match t with
    | TPrim p =>
        getIndent indent ++ comma prependComma ++
        (match p with PStr _ => str """" ++ prim_string p ++ str """" | _ => prim_string p end) ++ eol
    | TArr l =>
        getIndent indent ++ comma prependComma ++ bracket 0 t ++ eol ++
        (fix items (first : bool) (l : list tree) : bytes :=
           match l with
           | [] => []
           | x :: r => write (incr indent) (negb first) x ++ items false r
           end) true l ++
        getIndent indent ++ bracket 2 t ++ eol
    | TObj l =>
        getIndent indent ++ comma prependComma ++ bracket 0 t ++ eol ++
        (fix entries (first : bool) (l : list (bytes * tree)) : bytes :=
           match l with
           | [] => []
           | (k, x) :: r =>
               (getIndent (incr indent) ++ (if negb first then str ",""" else str """") ++ k ++ str """:" ++
                (if is_container x then eol ++ write (incr indent) false x else tree_string x ++ eol)) ++
               entries false r
           end) true l ++
        getIndent indent ++ bracket 2 t ++ eol
    end.

  (** simpleOutput.cpp:84-88 (display), with indent 0 (line 10). *)
  Definition display (t : tree) : bytes := write 0 false t.
End Out.

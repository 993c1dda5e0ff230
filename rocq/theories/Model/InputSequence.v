(** Key sequences: src/inputSequence.cpp. *)
From Verif Require Export Model.Bytes.
Open Scope Z_scope.

(** [toupper] on the int wgetch answered.  glibc looks codes from -128 to 255 up
    in a table and answers the others unchanged (they are outside the domain the
    C standard gives).  Simplification: ASCII letters only, as in the "C" locale
    and in every UTF-8 locale. *)
Definition toupper (c : Z) : Z := if (97 <=? c) && (c <=? 122) then c - 32 else c.

(** What read() comes to: a key with the input left; no end of the loop on the
    input there is (it waits for more); a null pointer appended to a string. *)
Inductive reading : Type :=
| ReadKey (k : bytes) (rest : list Z)
| NeedsMore (k : bytes)
| NullName.

Section Read.
  (** [keyname] of ncurses; [None] is the null pointer. *)
  Variable keyname : Z -> option bytes.

  (** inputSequence.cpp:30: [!kname || *kname == '^']. *)
  Definition goes_on (kname : option bytes) : bool :=
    match kname with None => true | Some [] => false | Some (c :: _) => Ascii.eqb c "^" end.

  (** inputSequence.cpp:18-30: the loop; [seq] is result.seq, the input the
      successive answers of wgetch.  On -1 [continue] goes to the condition, with
      the name of the key before. *)
  Fixpoint read_loop (seq : bytes) (kname : option bytes) (input : list Z) : reading :=
    match input with
    | [] => NeedsMore seq
    | c :: input =>
        if c =? -1 then
          if goes_on kname then read_loop seq kname input else ReadKey seq input
        else
          match keyname (toupper c) with
          | None => NullName
          | Some k =>
              let seq := (match seq with [] => [] | _ => seq ++ str "-" end) ++ k in
              if goes_on (Some k) then read_loop seq (Some k) input else ReadKey seq input
          end
    end.

  (** inputSequence.cpp:13-32 (InputSequence::read). *)
  Definition read (input : list Z) : reading := read_loop [] None input.
End Read.

(** Lines and columns of a text. *)
From Coq Require Import List ZArith Ascii String.
From Verif Require Import Model.StreamConsumer.
Import ListNotations.
Open Scope Z_scope.

(** After the text [t], a reader stands on line [line], of which it has read
    [cur]; a line feed belongs to the line it ends. *)
Definition stands (t : bytes) (line : Z) (cur : bytes) : Prop :=
  exists ls e, t = flat_map (fun l => l ++ [LF]) ls ++ cur ++ e /\
    (e = [] /\ (cur = [] -> ls = []) \/ e = [LF]) /\
    Forall (fun l => ~ In LF l) ls /\ ~ In LF cur /\ line = 1 + Z.of_nat (length ls).

(** Number of line feeds. *)
Definition line_feeds (t : bytes) : Z := Z.of_nat (count_occ Ascii.ascii_dec t LF).

(** No carriage return, and no line feed directly after a byte that can end a
    number, true or false. *)
Definition plain_lines (t : bytes) : Prop :=
  ~ In CR t /\ forall a c b, t = a ++ c :: LF :: b -> ~ In c (str "0123456789.-eE").

(** No line feed in the three bytes after an n, nor in the four bytes after \u. *)
Definition whole_words (t : bytes) : Prop :=
  (forall a n w b, t = a ++ n :: w ++ LF :: b -> n = "n"%char \/ n = "N"%char -> (3 <= length w)%nat) /\
  (forall a w b, t = a ++ BSLASH :: "u"%char :: w ++ LF :: b -> (4 <= length w)%nat).

(** [x] is the exception thrown, or one of the warnings kept, while reading [input]. *)
Definition raised (e : env) (params : option cfg) (input : bytes) (x : exn) : Prop :=
  read_doc e params input = Throw x \/
  exists root s, read_doc e params input = Ok (root, s) /\ In x (warns s).

(** What had been read when [x] was raised: up to its offset, or everything when
    the stream had failed (offset -1). *)
Definition read_before (input : bytes) (x : exn) (pre : bytes) : Prop :=
  match eoffset x with Some rest => input = pre ++ rest | None => pre = input end.

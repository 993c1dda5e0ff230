(** Model of src/linearHistory.cpp and include/linearHistory.hh. *)
From Verif Require Export Model.WrappedBuffer.
Open Scope Z_scope.

(** include/config.h:10-12 (ERROR_HISTORY_LEN). *)
Definition ERROR_HISTORY_LEN : Z := 45.

Record hist : Type := mkHist {
  hring : ring ascii;
  willReset : bool;
  hline : Z
}.

(** linearHistory.cpp:9-10. *)
Definition hist_init : hist :=
  mkHist (ring_init (Z.to_nat ERROR_HISTORY_LEN)) false 1.

(** linearHistory.cpp:20-25 and 34-39: pending reset ([line] is unsigned int). *)
Definition hist_flush (h : hist) : hist :=
  if willReset h
  then mkHist (ring_reset (hring h)) false ((hline h + 1) mod 2 ^ 32)
  else h.

(** linearHistory.cpp:18-30 (put, one char).  [None]: out-of-bounds access. *)
Definition hist_put (h : hist) (item : ascii) : option hist :=
  let h := hist_flush h in
  if Ascii.eqb item LF || Ascii.eqb item CR
  then Some (mkHist (hring h) true (hline h))
  else option_map (fun r => mkHist r (willReset h) (hline h))
         (ring_put ERROR_HISTORY_LEN (hring h) item).

(** First index [i < count] with [items[i] == '\n'].  [None]: a byte outside
    the readable memory is read; [Some None]: no line feed. *)
Fixpoint find_lf (mem : bytes) (count : nat) (i : nat) : option (option nat) :=
  match count with
  | O => Some None
  | S c =>
      match mem with
      | [] => None
      | x :: mem' => if Ascii.eqb x LF then Some (Some i) else find_lf mem' c (S i)
      end
  end.

(** linearHistory.cpp:32-58 (put, [count] chars).  [mem] is the readable memory
    at the pointer.  The recursive call of line 47 passes [count - i] although
    [i + 1] bytes were skipped, so it may read one byte too many.  [fuel] only
    has to exceed the length of [mem], each call having skipped a byte of it. *)
Fixpoint hist_put_many (fuel : nat) (h : hist) (mem : bytes) (count : nat) : option hist :=
  match fuel with
  | O => None
  | S f =>
      let h := hist_flush h in
      match find_lf mem count 0 with
      | None => None
      | Some (Some i) =>
          let h := mkHist (hring h) true (hline h) in
          if (i <? count - 1)%nat
          then hist_put_many f h (skipn (S i) mem) (count - i)
          else Some h
      | Some None =>
          option_map (fun r => mkHist r (willReset h) (hline h))
            (ring_put_many ERROR_HISTORY_LEN (hring h) mem (Z.of_nat count))
      end
  end.

Definition hist_puts (h : hist) (mem : bytes) (count : nat) : option hist :=
  hist_put_many (S (length mem)) h mem count.

(** Inherited pop_back, wrappedBuffer.hpp:142-158 (LinearHistory does not
    override it: [willReset] and [line] are untouched). *)
Definition hist_pop (h : hist) : hist :=
  mkHist (ring_pop ERROR_HISTORY_LEN (hring h)) (willReset h) (hline h).

(** linearHistory.cpp:15-16 (currentLine). *)
Definition hist_line (h : hist) : Z := hline h.

(** Inherited totalSize: [None] while uninitialised. *)
Definition hist_col (h : hist) : option Z := ring_totalSize (hring h).

(** Inherited toString. *)
Definition hist_text (h : hist) : list (option (option ascii)) :=
  ring_toString ERROR_HISTORY_LEN (hring h).

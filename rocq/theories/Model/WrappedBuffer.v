(** Model of include/wrappedBuffer.hpp (template class WrappedBuffer<T, SIZE>).

    [cells] is the array [T buffer[SIZE]]; [None] is an element that was never
    written.  [written] is [None] while the member is uninitialised (the
    constructor, lines 62-64, initialises only [curR] and [curW]).
    Operations return [None] when they would access memory out of bounds. *)
From Verif Require Export Model.Bytes.
Open Scope Z_scope.

Record ring (A : Type) : Type := mkRing {
  cells : list (option A);
  curR : Z;
  curW : Z;
  written : option Z
}.
Arguments mkRing {A}.
Arguments cells {A}.
Arguments curR {A}.
Arguments curW {A}.
Arguments written {A}.

(** [unsigned int] arithmetic on [written]; indeterminate stays indeterminate. *)
Definition bump (w : option Z) (d : Z) : option Z :=
  match w with Some n => Some ((n + d) mod 2 ^ 32) | None => None end.

(** wrappedBuffer.hpp:62-64 (constructor). *)
Definition ring_init {A} (SIZE : nat) : ring A :=
  mkRing (repeat None SIZE) 0 (-1) None.

(** wrappedBuffer.hpp:70-76 (reset). *)
Definition ring_reset {A} (r : ring A) : ring A :=
  mkRing (cells r) 0 (-1) (Some 0).

(** wrappedBuffer.hpp:160-166 (size).  Computed in [int], as the code does
    before the conversion to [unsigned int] (never negative: see
    [ring_size_range]). *)
Definition ring_size {A} (SIZE : Z) (r : ring A) : Z :=
  if curW r =? -1 then 0
  else if curW r <? curR r then SIZE - curR r + curW r + 1
  else curW r - curR r + 1.

(** Assignment [buffer[i] = x]; [None] when [i] is out of bounds. *)
Fixpoint list_set {A} (l : list A) (i : nat) (x : A) : option (list A) :=
  match l, i with
  | [], _ => None
  | _ :: t, O => Some (x :: t)
  | h :: t, S i' => option_map (cons h) (list_set t i' x)
  end.

Definition cell_set {A} (l : list (option A)) (i : Z) (x : A) : option (list (option A)) :=
  if i <? 0 then None else list_set l (Z.to_nat i) (Some x).

(** wrappedBuffer.hpp:82-106 (put, one item). *)
Definition ring_put {A} (SIZE : Z) (r : ring A) (item : A) : option (ring A) :=
  let w := bump (written r) 1 in
  if curW r + 1 =? SIZE then
    option_map (fun cs => mkRing cs 1 0 w) (cell_set (cells r) 0 item)
  else if curW r =? -1 then
    option_map (fun cs => mkRing cs SIZE 0 w) (cell_set (cells r) 0 item)
  else
    let cw := curW r + 1 in
    let cr := if curR r =? cw
              then (if SIZE <? curR r + 1 then 0 else curR r + 1)
              else curR r in
    option_map (fun cs => mkRing cs cr cw w) (cell_set (cells r) cw item).

(** [memcpy(&buffer[at], items, n)]: [items] is the readable memory at the
    source pointer; [None] when source or destination is overrun. *)
Fixpoint cells_copy {A} (l : list (option A)) (at_ : Z) (items : list A) (n : nat)
  {struct n} : option (list (option A)) :=
  match n with
  | O => Some l
  | S n' =>
      match items with
      | [] => None
      | x :: items' =>
          match cell_set l at_ x with
          | None => None
          | Some l' => cells_copy l' (at_ + 1) items' n'
          end
      end
  end.

(** wrappedBuffer.hpp:116-120 ([while (count > SIZE)] loop).  [fuel] bounds the
    number of iterations; [count] is used by the caller. *)
Fixpoint put_skip {A} (fuel : nat) (SIZE : Z) (items : list A) (count : Z) : list A * Z :=
  match fuel with
  | O => (items, count)
  | S f => if SIZE <? count
           then put_skip f SIZE (skipn (Z.to_nat SIZE) items) (count - SIZE)
           else (items, count)
  end.

(** wrappedBuffer.hpp:108-140 (put, [count] items).  [items] is the readable
    memory starting at the pointer argument. *)
Definition ring_put_many {A} (SIZE : Z) (r : ring A) (items : list A) (count : Z)
  : option (ring A) :=
  let newSize := ring_size SIZE r + count in
  if count =? 0 then Some r
  else
    let w := bump (written r) count in
    let '(items, count) := put_skip (Z.to_nat count) SIZE items count in
    (* 121-130 *)
    let wrapped :=
      if SIZE <=? curW r + count then
        if negb (curW r + 1 =? SIZE) then
          let k := SIZE - curW r - 1 in
          match cells_copy (cells r) (curW r + 1) items (Z.to_nat k) with
          | None => None
          | Some cs => Some (cs, skipn (Z.to_nat k) items, count - k, -1)
          end
        else Some (cells r, items, count, -1)
      else Some (cells r, items, count, curW r) in
    match wrapped with
    | None => None
    | Some (cs, items, count, cw) =>
        (* 131-139 *)
        match cells_copy cs (cw + 1) items (Z.to_nat count) with
        | None => None
        | Some cs' =>
            let cw' := cw + count in
            if cw' =? SIZE then Some (mkRing cs' 1 0 w)
            else if SIZE <=? newSize then Some (mkRing cs' ((cw' + 1) mod SIZE) cw' w)
            else Some (mkRing cs' (curR r) cw' w)
        end
    end.

(** wrappedBuffer.hpp:142-158 (pop_back). *)
Definition ring_pop {A} (SIZE : Z) (r : ring A) : ring A :=
  let oldSize := ring_size SIZE r in
  let w := bump (written r) (-1) in
  if oldSize =? 0 then mkRing (cells r) (curR r) (curW r) w
  else if oldSize =? 1 then mkRing (cells r) 0 (-1) w
  else
    let cw := curW r - 1 in
    mkRing (cells r) (curR r) (if cw <? 0 then cw + SIZE else cw) w.

(** Indices [from, from+1, ..., to-1]. *)
Definition zrange (from to : Z) : list Z :=
  map (fun i => from + Z.of_nat i) (seq 0 (Z.to_nat (to - from))).

(** [buffer[i]]: [None] when out of bounds, [Some None] when uninitialised. *)
Definition cell_get {A} (l : list (option A)) (i : Z) : option (option A) :=
  if i <? 0 then None else nth_error l (Z.to_nat i).

(** wrappedBuffer.hpp:168-192 (toString).  The two loops are written as the
    index ranges they traverse: lines 180-184 run [i] from [from] to [curW]
    (or to [SIZE-1] when [curW < from]); lines 186-190 run [i] from 0 while
    [i <= curW] and fewer than [size] items were taken.  The result lists the
    memory reads in order. *)
Definition ring_toString {A} (SIZE : Z) (r : ring A) : list (option (option A)) :=
  let size := ring_size SIZE r in
  if size =? 0 then []
  else
    let from := if curR r =? SIZE then 0 else curR r in
    let first := zrange from (if from <=? curW r then curW r + 1 else SIZE) in
    let j := Z.of_nat (length first) in
    let second := zrange 0 (Z.min (curW r + 1) (size - j)) in
    map (cell_get (cells r)) (first ++ second).

(** wrappedBuffer.hpp:78-80 (totalSize): reading the uninitialised member is [None]. *)
Definition ring_totalSize {A} (r : ring A) : option Z := written r.

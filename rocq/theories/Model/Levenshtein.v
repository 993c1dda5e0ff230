(** src/levenshtein.cpp:6-38 and include/levenshtein.hpp: distance of texts. *)
From Verif Require Export Model.Bytes.
From Coq Require Export Floats.SpecFloat.
Open Scope Z_scope.

(** levenshtein.cpp:20-23: one cell from its neighbours.  Cells are [int]:
    unbounded here (they never exceed the longer length, see C22, so this is
    exact for texts of less than 2^31 bytes). *)
Definition lev_cell (up left diag : Z) (same : bool) : Z :=
  Z.min (Z.min (up + 1) (left + 1)) (diag + (if same then 0 else 1)).

(** levenshtein.cpp:19-23: the cells j = 1 .. of row i.  [x] is a[i-1], [b] the
    rest of b from j-1 on, [prev] row i-1 from column j-1 on, [left] the cell
    before. *)
Fixpoint lev_cells (x : ascii) (b : bytes) (prev : list Z) (left : Z) : list Z :=
  match b, prev with
  | y :: b', diag :: (up :: _) as prev' =>
      let c := lev_cell up left diag (Ascii.eqb x y) in
      c :: lev_cells x b' prev' c
  | _, _ => []
  end.

(** levenshtein.cpp:15-24: rows i, i+1, ... for the rest [a] of the first text;
    the last row. *)
Fixpoint lev_rows (a : bytes) (i : Z) (b : bytes) (prev : list Z) : list Z :=
  match a with
  | [] => prev
  | x :: a' => lev_rows a' (i + 1) b (i :: lev_cells x b prev i)
  end.

(** levenshtein.cpp:12-14: row 0. *)
Definition lev_row0 (b : bytes) : list Z := map Z.of_nat (seq 0 (S (length b))).

(** levenshtein.cpp:6-31. *)
Definition levenshtein (a b : bytes) : Z :=
  if beqb a b then 0 else last (lev_rows a 1 b (lev_row0 b)) 0.

(** IEEE single precision. *)
Definition f32_of_Z (z : Z) : spec_float := binary_normalize 24 128 z 0 false.
Definition f32_div := SFdiv 24 128.
Definition f32_sub := SFsub 24 128.
Definition f32_one : spec_float := f32_of_Z 1.
(** 0.7f: the single nearest to 7/10. *)
Definition sensibility : spec_float := f32_div (f32_of_Z 7) (f32_of_Z 10).
(** a > b on floats. *)
Definition f_gt (a b : spec_float) : bool := SFltb b a.

(** levenshtein.cpp:37: [1.f - ((float)d / max)]; both integers are converted to
    float (round to nearest even). *)
Definition percent_of (d m : Z) : spec_float :=
  f32_sub f32_one (f32_div (f32_of_Z d) (f32_of_Z m)).

(** levenshtein.cpp:33-38. *)
Definition levenshteinPercent (a b : bytes) : spec_float :=
  match a, b with
  | [], [] => f32_one
  | _, _ => percent_of (levenshtein a b) (Z.max (Z.of_nat (length a)) (Z.of_nat (length b)))
  end.

(** levenshtein.cpp:173 (LevenshteinMatriceWithScore): [_result = s > 0.7f]. *)
Definition score_similar (s : spec_float) : bool := f_gt s sensibility.

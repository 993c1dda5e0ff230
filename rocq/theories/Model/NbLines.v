(** src/curseOutput.cpp:171-177 (getNbLines). *)
From Coq Require Export ZArith Bool Floats.SpecFloat.
Open Scope Z_scope.

(** IEEE double precision. *)
Definition f64_of_Z (z : Z) : spec_float := binary_normalize 53 1024 z 0 false.
Definition f64_div := SFdiv 53 1024.
Definition f64_add := SFadd 53 1024.

(** Conversion of a double to unsigned int: truncation; undefined ([None]) when
    the result does not fit. *)
Definition f64_trunc (f : spec_float) : option Z :=
  match f with
  | S754_zero _ => Some 0
  | S754_finite s m e =>
      let v := if 0 <=? e then Zpos m * 2 ^ e else Zpos m / 2 ^ (- e) in
      Some (if s then - v else v)
  | _ => None
  end.
Definition f64_uint (f : spec_float) : option Z :=
  match f64_trunc f with
  | Some v => if (0 <=? v) && (v <? 2 ^ 32) then Some v else None
  | None => None
  end.

(** curseOutput.cpp:171-177.  [n] is nbChar (size_t), [w] maxWidth (unsigned
    int); [None] is undefined behaviour. *)
Definition getNbLines (n w : Z) : option Z :=
  let nLine := f64_div (f64_of_Z n) (f64_of_Z w) in
  match f64_uint nLine with
  | None => None
  | Some u => if SFeqb nLine (f64_of_Z u) then Some u else f64_uint (f64_add nLine (f64_of_Z 1))
  end.

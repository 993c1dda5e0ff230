(** Distance and similarity of texts: C21, C22, C23. *)
From Verif Require Import Model.Levenshtein Spec.EditDistance Proofs.LevProofs Proofs.LevScore.
Open Scope Z_scope.

(** C21: levenshtein() is the least number of single-byte edits. *)
Theorem C21_edit_distance : forall a b,
  exists n, levenshtein a b = Z.of_nat n /\ edit_distance a b n.
Proof. exact levenshtein_spec. Qed.
Print Assumptions C21_edit_distance.

Example C21_example : levenshtein (str "kitten") (str "sitting") = 3.
Proof. vm_compute. reflexivity. Qed.

(** C22: it is a metric. *)
Theorem C22_zero : forall a b, levenshtein a b = 0 <-> a = b.
Proof. exact lev_zero. Qed.
Theorem C22_symmetric : forall a b, levenshtein a b = levenshtein b a.
Proof. exact lev_sym. Qed.
Theorem C22_triangle : forall a b c, levenshtein a c <= levenshtein a b + levenshtein b c.
Proof. exact lev_triangle. Qed.
Theorem C22_bounds : forall a b,
  Z.abs (Z.of_nat (length a) - Z.of_nat (length b)) <= levenshtein a b <=
  Z.max (Z.of_nat (length a)) (Z.of_nat (length b)).
Proof. exact lev_bounds. Qed.
Print Assumptions C22_zero.
Print Assumptions C22_symmetric.
Print Assumptions C22_triangle.
Print Assumptions C22_bounds.

Example C22_example :
  levenshtein (str "abc") (str "xbcd") = 2 /\ levenshtein (str "xbcd") (str "") = 4 /\
  levenshtein (str "abc") (str "") = 3.
Proof. vm_compute. auto. Qed.

(** C23, full statement: the same without the bound on the lengths; false by one
    byte (C23_refuted).  Proved for texts of at most 2^24 bytes. *)
Theorem C23_partial : forall a b,
  Z.of_nat (length a) <= 2 ^ 24 -> Z.of_nat (length b) <= 2 ^ 24 ->
  let m := Z.max (Z.of_nat (length a)) (Z.of_nat (length b)) in
  let score := levenshteinPercent a b in
  (score_similar score = true <-> a = b \/ 10 * levenshtein a b < 3 * m) /\
  SFleb (S754_zero false) score = true /\ SFleb score f32_one = true /\
  (score = f32_one <-> a = b).
Proof. exact score_spec. Qed.
Print Assumptions C23_partial.

(** Exactly 30% is not similar; 2 bytes of 7 are. *)
Example C23_example :
  score_similar (levenshteinPercent (str "abcdefghij") (str "abcdefgxyz")) = false /\
  score_similar (levenshteinPercent (str "abcdefg") (str "abcdexy")) = true.
Proof. vm_compute. auto. Qed.

(** Texts of 16777217 bytes that differ in less than 30% and count as changed;
    different texts of 2^25 bytes with score 1. *)
Theorem C23_refuted :
  (exists a b, a <> b /\
     10 * levenshtein a b < 3 * Z.max (Z.of_nat (length a)) (Z.of_nat (length b)) /\
     score_similar (levenshteinPercent a b) = false) /\
  (exists a b, a <> b /\ levenshteinPercent a b = f32_one).
Proof. exact score_refuted. Qed.
Print Assumptions C23_refuted.

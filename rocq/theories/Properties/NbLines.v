(** Line count of wrapped text: C53. *)
From Verif Require Import Model.NbLines Proofs.NbLinesProofs.
Open Scope Z_scope.

(** C53, full statement: for every n >= 0 and 1 <= w < 2^32,
    getNbLines n w is n / w rounded up.  False for texts beyond 2^53 bytes and
    when the count does not fit an unsigned int (C53_refuted).  Proved for texts
    of less than 2^51 bytes whose line count fits. *)
Theorem C53_partial : forall n w, 0 <= n < 2 ^ 51 -> 1 <= w < 2 ^ 32 ->
  forall c, (c - 1) * w < n <= c * w -> c < 2 ^ 32 -> getNbLines n w = Some c.
Proof. exact nb_lines_ceil. Qed.
Print Assumptions C53_partial.

Example C53_example :
  getNbLines 161 80 = Some 3 /\ getNbLines 160 80 = Some 2 /\ getNbLines 0 80 = Some 0 /\
  getNbLines 2251799813685247 4294967295 = Some 524289.
Proof. vm_compute. auto. Qed.

Theorem C53_refuted :
  (exists n w c, 0 <= n < 2 ^ 64 /\ 1 <= w < 2 ^ 32 /\ (c - 1) * w < n <= c * w /\ c < 2 ^ 32 /\
     getNbLines n w = Some (c - 1)) /\
  (exists n w, 0 <= n < 2 ^ 64 /\ 1 <= w < 2 ^ 32 /\ getNbLines n w = None).
Proof.
  split.
  - exists (2 ^ 53 + 1), (2 ^ 22), (2 ^ 31 + 1). vm_compute. repeat split; congruence.
  - exists (2 ^ 32), 1. vm_compute. repeat split; congruence.
Qed.
Print Assumptions C53_refuted.

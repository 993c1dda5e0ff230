(** Words for what becomes of the elements made while reading. *)
From Verif Require Export Spec.TreeSpec.
Open Scope Z_scope.

(** The identities from [a] to [b], [b] excluded: those of the elements made
    between two moments. *)
Definition made (a b : Z) : list Z := map (fun i => a + Z.of_nat i) (seq 0 (Z.to_nat (b - a))).

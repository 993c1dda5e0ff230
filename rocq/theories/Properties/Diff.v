(** Comparison of two documents: C24 to C28. *)
From Verif Require Import Model.Diff Spec.DiffSpec Proofs.DiffSelf.
From Verif Require Spec.ViewSpec Proofs.DiffRows.
Open Scope Z_scope.

(** Documents for the examples: leaves numbered from [i]. *)
Definition leaf (i : Z) (p : prim) : node := NPrim (mkMeta i None) p.
Definition num (i z : Z) : node := leaf i (PInt z).
Definition txt (i : Z) (s : bytes) : node := leaf i (PStr s).
Definition arr (i : Z) (l : list node) : node := NArr (mkMeta i None) l.
Definition obj (i : Z) (l : list (Z * bytes * node)) : node := NObj (mkMeta i None) (map (fun e => (mkMeta (fst (fst e)) None, snd (fst e), snd e)) l).
Definition many (k : nat) : list node := map (fun j => num (1000 + Z.of_nat j) 0) (seq 0 k).

(** C24, full statement: the conclusion for every document; false
    (C24_refuted).  Proved for documents without an empty array or object. *)
Theorem C24_partial : forall a b,
  erase a = erase b -> NoDup (ids a ++ ids b) ->
  all_containers (fun k => Z.of_nat k < 2 ^ 31) a ->
  ~ has_empty a ->
  exists m, build a b = inl m /\
    (forall u, In u (ids a) \/ In u (ids b) -> shown_op m u = OEqu) /\
    (forall u v, In (u, v) (combine (ids a) (ids b)) -> getEquivalence m u = Some v /\ getEquivalence m v = Some u).
Proof. intros a b E N F H. exact (self_spec a b E F N H). Qed.
Print Assumptions C24_partial.

(** All others crash. *)
Theorem C24_refuted : (forall a b, erase a = erase b -> all_containers (fun k => Z.of_nat k < 2 ^ 31) a ->
    has_empty a -> build a b = inr DivByZero) /\
  exists a b, erase a = erase b /\ NoDup (ids a ++ ids b) /\ build a b = inr DivByZero.
Proof.
  split; [exact self_crash|]. exists (arr 1 [num 2 5; arr 3 []]), (arr 4 [num 5 5; arr 6 []]).
  split; [reflexivity|]. split; [vm_compute; repeat constructor; cbn; lia|]. vm_compute. reflexivity.
Qed.
Print Assumptions C24_refuted.

Definition doc24 (i : Z) : node :=
  obj i [(i + 1, str "a", num (i + 2) 1); (i + 3, str "b", arr (i + 4) [txt (i + 5) (str "x"); txt (i + 6) (str "y")])].
Example C24_example : exists m, build (doc24 1) (doc24 10) = inl m /\
  erase (doc24 1) = erase (doc24 10) /\ ids (doc24 1) = [1; 2; 3; 4; 5; 6; 7] /\ ~ has_empty (doc24 1) /\
  map (shown_op m) (ids (doc24 1) ++ ids (doc24 10)) = repeat OEqu 14 /\
  map (getEquivalence m) (ids (doc24 1)) = map Some (ids (doc24 10)).
Proof.
  eexists. split; [vm_compute; reflexivity|]. split; [reflexivity|]. split; [reflexivity|]. split; [|split; vm_compute; reflexivity].
  intros H. inversion H as [? Q|? ? ? ? Q|? ? ? ? x I Q]; subst; [discriminate Q|].
  destruct I as [[= _ _ <-]|[[= _ _ <-]|[]]].
  - inversion Q as [? R|? ? ? ? R|? ? ? ? ? ? R]; discriminate R.
  - inversion Q as [? R|? ? x I R|? ? ? ? x ? R]; subst; [discriminate R|].
    destruct I as [<-|[<-|[]]]; inversion R as [? R'|? ? ? ? R'|? ? ? ? ? ? R']; discriminate R'.
Qed.

(** C25, full statement: [exists m, build a b = inl m] for all documents; false
    (C25_refuted).  Proved: exactly the comparisons that come to compare two
    empty containers crash. *)
Theorem C25_partial : forall a b,
  all_containers (fun k => Z.of_nat k < 2 ^ 31) a -> all_containers (fun k => Z.of_nat k < 2 ^ 31) b ->
  (exists m, build a b = inl m) <-> ~ meets_empty a b.
Proof. exact no_crash. Qed.
Print Assumptions C25_partial.

Theorem C25_refuted : exists a b, build a b = inr DivByZero.
Proof. exists (arr 1 []), (obj 2 []). vm_compute. reflexivity. Qed.

(** Empty containers that do not meet. *)
Example C25_example :
  (exists m, build (arr 1 [arr 2 []; num 3 1]) (arr 4 [num 5 1; arr 6 [num 7 2]]) = inl m) /\
  (exists m, build (obj 1 [(2, str "a", arr 3 [])]) (obj 4 [(5, str "b", arr 6 [])]) = inl m) /\
  build (obj 1 [(2, str "a", arr 3 [])]) (obj 4 [(5, str "a", arr 6 [])]) = inr DivByZero.
Proof. split; [|split]; [eexists; vm_compute; reflexivity..|vm_compute; reflexivity]. Qed.

(** C26, full statement: a scalar marked '=' has a partner with the same text,
    and roots marked '=' are equal documents; both false (C26_refuted).  Proved:
    the partner has the same type, and the same text or less than 30% of it
    changed (texts of up to 2^24 bytes); and which containers are marked '='. *)
Theorem C26_partial : forall a b m u p,
  all_containers (fun k => Z.of_nat k < 2 ^ 31) a -> all_containers (fun k => Z.of_nat k < 2 ^ 31) b ->
  NoDup (ids a ++ ids b) ->
  (forall v q, In (v, q) (scalars a ++ scalars b) -> Z.of_nat (length (prim_string q)) <= 2 ^ 24) ->
  build a b = inl m -> In (u, p) (scalars a ++ scalars b) -> shown_op m u = OEqu ->
  exists v q, In (v, q) (scalars a ++ scalars b) /\ getEquivalence m u = Some v /\ prim_type p = prim_type q /\
    (prim_string p = prim_string q \/
     10 * levenshtein (prim_string p) (prim_string q) <
       3 * Z.max (Z.of_nat (length (prim_string p))) (Z.of_nat (length (prim_string q)))).
Proof. exact equal_text. Qed.
Print Assumptions C26_partial.

Theorem C26_roots_partial : forall a b m n k,
  size_of a = Some n -> size_of b = Some k ->
  all_containers (fun k => Z.of_nat k < 2 ^ 31) a -> all_containers (fun k => Z.of_nat k < 2 ^ 31) b ->
  NoDup (ids a ++ ids b) -> build a b = inl m ->
  let mx := Z.max (Z.of_nat n) (Z.of_nat k) in
  let o := if (mx <=? mresult m) && (mresult m <? 2 * mx) then OAdd else OEqu in
  shown_op m (mid (node_meta a)) = o /\ shown_op m (mid (node_meta b)) = o.
Proof. exact root_marks. Qed.
Print Assumptions C26_roots_partial.

Definition doc26a : node := arr 1 [txt 2 (str "abcdefgh"); num 3 1].
Definition doc26b : node := arr 4 [txt 5 (str "abcdefgi"); num 6 2].
Theorem C26_refuted : exists a b m u v p q,
  NoDup (ids a ++ ids b) /\ build a b = inl m /\
  In (u, p) (scalars a) /\ In (v, q) (scalars b) /\ getEquivalence m u = Some v /\ shown_op m u = OEqu /\
  prim_string p <> prim_string q /\
  shown_op m (mid (node_meta a)) = OEqu /\ erase a <> erase b.
Proof.
  exists doc26a, doc26b. eexists. exists 2, 5, (PStr (str "abcdefgh")), (PStr (str "abcdefgi")).
  split; [vm_compute; repeat constructor; cbn; lia|]. split; [vm_compute; reflexivity|].
  split; [left; reflexivity|]. split; [left; reflexivity|]. split; [reflexivity|]. split; [reflexivity|].
  split; [discriminate|]. split; [reflexivity|discriminate].
Qed.
Print Assumptions C26_refuted.

Example C26_example : exists m, build doc26a doc26b = inl m /\ mresult m = 1 /\
  map (shown_op m) (ids doc26a) = [OEqu; OEqu; OMod].
Proof. eexists. split; [vm_compute; reflexivity|]. split; reflexivity. Qed.
Example C26_hypotheses_example : NoDup (ids doc26a ++ ids doc26b) /\
  all_containers (fun k => Z.of_nat k < 2 ^ 31) doc26a /\ all_containers (fun k => Z.of_nat k < 2 ^ 31) doc26b /\
  size_of doc26a = Some 2%nat /\ size_of doc26b = Some 2%nat /\
  (forall v q, In (v, q) (scalars doc26a ++ scalars doc26b) -> Z.of_nat (length (prim_string q)) <= 2 ^ 24).
Proof.
  split; [vm_compute; repeat constructor; cbn; lia|]. split; [repeat constructor|]. split; [repeat constructor|].
  split; [reflexivity|]. split; [reflexivity|].
  intros v q H. vm_compute in H. repeat (destruct H as [H|H]; [injection H as <- <-; vm_compute; discriminate|]). destruct H.
Qed.

(** C27: the pairing. *)
Theorem C27_pairing : forall a b m,
  all_containers (fun k => Z.of_nat k < 2 ^ 31) a -> all_containers (fun k => Z.of_nat k < 2 ^ 31) b ->
  NoDup (ids a ++ ids b) -> build a b = inl m ->
  pairing (fun x y => getEquivalence m x = Some y) a b.
Proof. exact pairing_ok. Qed.
Print Assumptions C27_pairing.

Definition doc27a : node := obj 1 [(2, str "a", num 3 1); (4, str "b", arr 5 [num 6 1; num 7 22; num 8 333]); (9, str "c", num 10 5)].
Definition doc27b : node := obj 11 [(12, str "b", arr 13 [num 14 22; num 15 333]); (16, str "c", num 17 5); (18, str "d", num 19 4)].
Example C27_example : exists m, build doc27a doc27b = inl m /\
  map (getEquivalence m) (ids doc27a) = [Some 11; None; None; Some 12; Some 13; None; Some 14; Some 15; Some 16; Some 17].
Proof. eexists. split; [vm_compute; reflexivity|]. vm_compute. reflexivity. Qed.

(** The value of an object entry is paired only with the value of an object
    entry. *)
Theorem C27_rows : forall a b m x y,
  all_containers (fun k => Z.of_nat k < 2 ^ 31) a -> all_containers (fun k => Z.of_nat k < 2 ^ 31) b ->
  NoDup (ids a ++ ids b) -> build a b = inl m -> getEquivalence m x = Some y ->
  (In x (map nid (ViewSpec.entry_values a ++ ViewSpec.entry_values b)) <-> In y (map nid (ViewSpec.entry_values a ++ ViewSpec.entry_values b))).
Proof. exact DiffRows.pair_values. Qed.
Print Assumptions C27_rows.

Example C27_rows_example : exists m, build doc27a doc27b = inl m /\ map nid (ViewSpec.entry_values doc27a) = [3; 5; 10] /\ map nid (ViewSpec.entry_values doc27b) = [13; 17; 19] /\ getEquivalence m 5 = Some 13.
Proof. eexists. split; [vm_compute; reflexivity|]. vm_compute. auto. Qed.

(** C28: at most the sum of the sizes. *)
Theorem C28_upper : forall a b m n k,
  size_of a = Some n -> size_of b = Some k ->
  all_containers (fun k => Z.of_nat k < 2 ^ 31) a -> all_containers (fun k => Z.of_nat k < 2 ^ 31) b ->
  build a b = inl m -> 0 <= mresult m <= Z.of_nat n + Z.of_nat k.
Proof. exact distance_bounds. Qed.
Print Assumptions C28_upper.

(** At least their difference.  Full statement: without the condition that the
    sizes, and twice those further down, fit the cells of the table; false
    (C28_refuted). *)
Theorem C28_partial : forall K a b m n k,
  size_of a = Some n -> size_of b = Some k -> 0 <= K <= 2 ^ 31 ->
  (forall x, In x (below a) -> all_containers (fun k => Z.of_nat k < K) x) ->
  (forall y, In y (below b) -> all_containers (fun k => Z.of_nat k < K) y) ->
  let mx := Z.max (Z.of_nat n) (Z.of_nat k) in
  let need := Z.of_nat n + Z.of_nat k + 2 * K + 1 in
  need < 2 ^ 8 \/ (255 <= mx /\ need < 2 ^ 16) \/ (65535 <= mx /\ need < 2 ^ 32) ->
  build a b = inl m -> Z.abs (Z.of_nat n - Z.of_nat k) <= mresult m.
Proof. exact distance_lower. Qed.
Print Assumptions C28_partial.

Theorem C28_refuted : exists a b m, build a b = inl m /\ size_of a = Some 1%nat /\ size_of b = Some 2%nat /\ mresult m = 0.
Proof.
  exists (arr 1 [num 2 5]), (arr 3 [num 4 7; arr 5 (many 254)]). eexists. split; [vm_compute; reflexivity|]. split; [reflexivity|]. split; reflexivity.
Qed.
Print Assumptions C28_refuted.

Example C28_example : exists m,
  build (arr 1 [num 2 1; num 3 22; num 4 333]) (arr 5 [num 6 22; arr 7 [num 8 1]; num 9 1; num 10 5; num 11 6]) = inl m /\ mresult m = 4.
Proof. eexists. split; [vm_compute; reflexivity|]. reflexivity. Qed.
Example C28_hypotheses_example :
  let a := arr 1 [num 2 1; num 3 22; num 4 333] in let b := arr 5 [num 6 22; arr 7 [num 8 1]; num 9 1; num 10 5; num 11 6] in
  size_of a = Some 3%nat /\ size_of b = Some 5%nat /\
  (forall x, In x (below a) -> all_containers (fun k => Z.of_nat k < 2) x) /\
  (forall y, In y (below b) -> all_containers (fun k => Z.of_nat k < 2) y) /\ 3 + 5 + 2 * 2 + 1 < 2 ^ 8.
Proof.
  cbn zeta. split; [reflexivity|]. split; [reflexivity|]. split; [|split; [|reflexivity]].
  - intros x H. vm_compute in H. repeat (destruct H as [<-|H]; [repeat constructor|]). destruct H.
  - intros x H. vm_compute in H. repeat (destruct H as [<-|H]; [repeat constructor|]). destruct H.
Qed.

(** C84: the elements made while reading a document, and their deletion. *)
From Verif Require Import Proofs.MemoryGrammar.
Open Scope Z_scope.

(** C84, for all inputs that are read: an element made while reading is in the
    document, or has been deleted by the reader, or is lost; in one place only
    and once only. *)
Theorem C84_account : forall e params input root s',
  read_doc e params input = Ok (root, s') ->
  exists del lost, read_mem e params input = Ok ((root, (del, lost)), s') /\
    Permutation (match root with Some n => ids n | None => [] end ++ del ++ lost) (made 0 (nextid s')).
Proof. exact read_accounted. Qed.
Print Assumptions C84_account.

(** C84, for all inputs: between the reader and the destructor of the document
    nothing is deleted twice, no part of the document is deleted before it, and
    what stays undeleted is what is lost. *)
Theorem C84_once : forall e params input root s',
  read_doc e params input = Ok (Some root, s') ->
  exists del lost, read_mem e params input = Ok ((Some root, (del, lost)), s') /\
    NoDup (del ++ destroy root) /\ (forall i, In i del -> 0 <= i < nextid s' /\ ~ In i (ids root)) /\
    (forall i, 0 <= i < nextid s' -> (In i (del ++ destroy root) <-> ~ In i lost)).
Proof. exact read_freed_once. Qed.
Print Assumptions C84_once.

(** The destructor of a document deletes its elements, each once (the order is
    that of the destructors). *)
Theorem C84_destructor : forall n, Permutation (destroy n) (ids n).
Proof. exact destroy_ids. Qed.
Print Assumptions C84_destructor.

(** C84 for the texts of JSON's grammar: nothing is lost, so that once the
    stream is deleted every element made has been deleted exactly once.  What is
    missing are the texts the reader accepts beyond the grammar. *)
Theorem C84_partial : forall e p w0 t v rest,
  jval (jstring kept_ctrl (if ignoreUnicode p then kept_uni else rfc_uni)) t v ->
  (strict p = true -> distinct_keys v) -> ws w0 -> boundary rest ->
  exists root del s', read_doc e (Some p) (w0 ++ t ++ rest) = Ok (Some root, s') /\
    read_mem e (Some p) (w0 ++ t ++ rest) = Ok ((Some root, (del, [])), s') /\
    Permutation (del ++ destroy root) (made 0 (nextid s')).
Proof. exact read_freed_all. Qed.
Print Assumptions C84_partial.

(** An object that ends with a scalar instead of a brace: the scalar (identity 4)
    is never deleted. *)
Theorem C84_refuted : exists input root del s',
  read_mem (mkEnv true) (Some (mkCfg true false true)) input = Ok ((Some root, (del, [4])), s') /\
  warns s' = [] /\ ~ In 4 (del ++ destroy root).
Proof.
  exists (str "{""a"":1 2}"). eexists _, _, _. split; [vm_compute; reflexivity|]. split; [reflexivity|].
  vm_compute. intuition congruence.
Qed.
Print Assumptions C84_refuted.

(** A repeated key: the first entry, its array and the number in it are deleted
    when the second is met, and each key's token after its member. *)
Example C84_example :
  jval (jstring kept_ctrl rfc_uni) (str "{""a"":[null],""a"":true}")
    (TObj [(str "a", TArr [TPrim PNull]); (str "a", TPrim (PBool true))]) /\
  exists root s',
    read_doc (mkEnv true) (Some (mkCfg false false true)) (str "{""a"":[null],""a"":true}") = Ok (Some root, s') /\
    read_mem (mkEnv true) (Some (mkCfg false false true)) (str "{""a"":[null],""a"":true}") =
      Ok ((Some root, ([0; 2; 3; 4; 5], [])), s') /\
    erase root = TObj [(str "a", TPrim (PBool true))] /\ destroy root = [6; 7; 1] /\ nextid s' = 8.
Proof.
  assert (W0 : ws []) by constructor.
  split.
  - apply (J_obj _ (str """a"":[null],""a"":true")).
    apply (M_more _ [] (str "a") (str "a") [] [] (str "[null]") _ []); auto.
    + apply (JS_cons _ _ (str "a") (str "a") [] []); [apply JC_plain; vm_compute; intuition congruence|constructor].
    + apply (J_arr _ (str "null")). apply (E_one _ [] (str "null") []); auto. apply J_null.
    + apply (M_one _ [] (str "a") (str "a") [] [] (str "true") _ []); auto; [|apply J_true].
      apply (JS_cons _ _ (str "a") (str "a") [] []); [apply JC_plain; vm_compute; intuition congruence|constructor].
  - eexists _, _. split; [vm_compute; reflexivity|]. split; [vm_compute; reflexivity|]. split; [reflexivity|]. split; reflexivity.
Qed.

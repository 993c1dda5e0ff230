(** C93, C94: what a reading takes from memory, and what a failed one leaves. *)
From Verif Require Import Spec.FailedSpec Spec.TreeSpec Proofs.FailedSame Proofs.FailedOnce.
Open Scope Z_scope.

(** The account below is of the reading the other properties are about. *)
Theorem C93_reading : forall e params input, match read_fin e params input with
  | Reads root s freed => read_doc e params input = Ok (root, s) /\ exists lost, read_mem e params input = Ok ((root, (freed, lost)), s)
  | Stops (SThrow x) _ _ => read_doc e params input = Throw x
  | Stops (SAbort a) _ _ => read_doc e params input = Abort a
  | Stops (SUB u) _ _ => read_doc e params input = UB u
  | Stops SFuel _ _ => read_doc e params input = OutOfFuel
  end.
Proof. exact read_ending. Qed.
Print Assumptions C93_reading.

(** C93: at most one element is made for every byte taken from the stream, also
    by readings that fail. *)
Theorem C93_linear : forall e params input, elements_made (read_fin e params input) <= bytes_taken input (read_fin e params input).
Proof. exact read_linear. Qed.
Print Assumptions C93_linear.

(** A document has at most as many elements as the text it was read from has bytes. *)
Theorem C93_document : forall e params input root s, read_doc e params input = Ok (Some root, s) ->
  Z.of_nat (length (ids root)) <= Z.of_nat (length input) - Z.of_nat (length (inp s)).
Proof. exact document_linear. Qed.
Print Assumptions C93_document.

(** "[1" makes the number and the array, two for two bytes; the second text has
    two bytes more than its document has elements. *)
Definition strictly : option cfg := Some (mkCfg true false true).
Definition loosely : option cfg := Some (mkCfg false false true).
Example C93_example : elements_made (read_fin (mkEnv true) strictly (str "[1")) = 2 /\ bytes_taken (str "[1") (read_fin (mkEnv true) strictly (str "[1")) = 2 /\
  match read_doc (mkEnv true) strictly (str "[[],[7]] 5") with Ok (Some root, s) => length (ids root) = 4%nat /\ inp s = str " 5" | _ => False end.
Proof. vm_compute. repeat split; reflexivity. Qed.

(** C94, full statement: [gives_back (read_fin e params input)] for every input: a
    reading that fails has deleted what it made.  False: see C94_refuted.  Proved:
    this is so only of readings that had made nothing. *)
Theorem C94_partial : forall e params input, gives_back (read_fin e params input) <->
  (elements_made (read_fin e params input) = 0 \/ exists root s freed, read_fin e params input = Reads root s freed).
Proof. exact failed_left. Qed.
Print Assumptions C94_partial.

(** What is deleted had been made, is deleted once, and is not in the document. *)
Theorem C94_once : forall e params input, match read_fin e params input with
  | Reads root s freed => NoDup (match root with Some n => ids n | None => [] end ++ freed) /\ forall i, In i freed -> 0 <= i < nextid s
  | Stops _ n freed => NoDup freed /\ forall i, In i freed -> 0 <= i < n
  end.
Proof. exact read_once. Qed.
Print Assumptions C94_once.

(** "[" fails having made nothing.  The second text fails after eight elements: the
    first key and the member it named are deleted, the other four are left. *)
Definition failed (p : option cfg) (s : string) : option (ekind * Z * list Z) :=
  match read_fin (mkEnv true) p (str s) with Stops (SThrow x) n freed => Some (ekind_of x, n, freed) | _ => None end.
Example C94_partial_example : failed strictly "[" = Some (NotJson, 0, []) /\
  failed loosely "{""a"":[1],""a"":[2,]" = Some (NotJson, 8, [0; 2; 3; 4]).
Proof. split; vm_compute; reflexivity. Qed.

Theorem C94_refuted : exists input x n freed, read_fin (mkEnv true) strictly input = Stops (SThrow x) n freed /\ n = 2 /\ freed = [] /\
  ~ gives_back (read_fin (mkEnv true) strictly input).
Proof.
  exists (str "[1,"). eexists _, _, _. split; [vm_compute; reflexivity|]. split; [reflexivity|]. split; [reflexivity|].
  vm_compute. intros H. exact (H 0 ltac:(split; congruence)).
Qed.
Print Assumptions C94_refuted.

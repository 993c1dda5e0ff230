(** Properties of the reader (src/streamConsumer.cpp): C02, C04, C05, C42. *)
From Verif Require Import Model.StreamConsumer Model.Element Spec.TreeSpec Proofs.ParserFuel Proofs.ParserTree.
Open Scope Z_scope.

(** [sortObjects], [isStrict] on: the defaults.  *)
Definition default_cfg : option cfg := Some (mkCfg true false true).
Definition modern : env := mkEnv false.

(** Outcome as a plain tree (for the examples). *)
Definition doc_tree (r : res (option node * st)) : option tree :=
  match r with Ok (Some n, _) => Some (erase n) | _ => None end.

(** C02: reading any byte sequence ends: the outcome is never "still running",
    and as many nested steps as there are input bytes (plus two) are enough,
    whatever larger number is allowed. *)
Theorem C02_read_terminates : forall (e : env) (params : option cfg) (input : bytes),
  exists r, r <> OutOfFuel /\
    forall fuel, (length input + 2 <= fuel)%nat -> readNext e params fuel None (init_st input) = r.
Proof. exact read_terminates. Qed.
Print Assumptions C02_read_terminates.

(** Unclosed nesting as deep as the text is long: still an outcome. *)
Example C02_example :
  match readNext modern default_cfg (length (str "[[[[[{") + 2) None (init_st (str "[[[[[{")) with
  | Throw x => ekind_of x = NotAKey | _ => False end.
Proof. vm_compute. reflexivity. Qed.

(** C04: no object read has two entries with the same key. *)
Theorem C04_keys_distinct : forall e params input root s',
  read_doc e params input = Ok (Some root, s') -> all_objects (@NoDup bytes) (erase root).
Proof. exact read_keys_distinct. Qed.
Print Assumptions C04_keys_distinct.

Definition dup_text := str "{""b"":1,""a"":[{""x"":0,""x"":1,""w"":2}],""b"":2} ".
(** Repeated keys at two depths, read with -W. *)
Example C04_example : exists root s',
  read_doc modern (Some (mkCfg false false false)) dup_text = Ok (Some root, s') /\
  erase root = TObj [(str "a", TArr [TObj [(str "x", TPrim (PInt 1)); (str "w", TPrim (PInt 2))]]);
                     (str "b", TPrim (PInt 2))] /\ length (warns s') = 2%nat.
Proof. eexists _, _. split; [vm_compute; reflexivity|]. split; reflexivity. Qed.

(** C05: unless --keep-order is given, keys of every object are in strictly
    increasing byte order. *)
Theorem C05_keys_sorted : forall e params input root s',
  match params with Some c => sortObjects c = true | None => True end ->
  read_doc e params input = Ok (Some root, s') -> all_objects (StronglySorted byte_lt) (erase root).
Proof.
  exact (fun e params input root s' H =>
    read_keys_sorted e params input root s'
      (match params return match params with Some c => sortObjects c = true | None => True end -> sorts params = true
       with Some c => fun H => H | None => fun _ => eq_refl end H)).
Qed.
Print Assumptions C05_keys_sorted.

Example C05_example : exists root s',
  read_doc modern (Some (mkCfg false false true)) dup_text = Ok (Some root, s') /\
  erase root = TObj [(str "a", TArr [TObj [(str "w", TPrim (PInt 2)); (str "x", TPrim (PInt 1))]]);
                     (str "b", TPrim (PInt 2))].
Proof. eexists _, _. split; [vm_compute; reflexivity|]. reflexivity. Qed.

(** C42: every element's parent is the element that contains it, identities are
    distinct, and getLevel() of an element is its depth. *)
Theorem C42_parents_consistent : forall e params input root s',
  read_doc e params input = Ok (Some root, s') ->
  linked None root /\ NoDup (ids root) /\
  forall m d, In (m, d) (elements 1 root) -> getLevel d (heap root) (Some (mid m)) = Some d.
Proof. exact read_parents. Qed.
Print Assumptions C42_parents_consistent.

Example C42_example : exists root s',
  read_doc modern default_cfg (str "[{""a"":[1]}]") = Ok (Some root, s') /\
  map snd (elements 1 root) = [1; 2; 3; 4; 5]%nat.
Proof. eexists _, _. split; [vm_compute; reflexivity|]. reflexivity. Qed.

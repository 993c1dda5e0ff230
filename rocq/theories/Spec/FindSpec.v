(** Searching for a text, from the keys typed to the row selected. *)
From Verif Require Export Spec.PromptSpec Spec.ViewerSpec.
Open Scope Z_scope.

(** Row [r] shows a scalar or a key whose text contains [s] (tabs counting as blanks). *)
Definition contains (root : node) (s : bytes) (r : Z) : Prop :=
  exists x, In (r, x) (items (nid root) root) /\ occurs s (seen false (item_text x)).
(** The row a search from row [i] is to lead to: the nearest one below that contains
    the text or, if there is none, the first one of the document. *)
Definition target (root : node) (s : bytes) (i r : Z) : Prop :=
  (exists pre mid post, rows [] root = pre ++ i :: mid ++ r :: post /\ Forall (fun x => ~ contains root s x) mid /\ contains root s r) \/
  (exists pre post, rows [] root = pre ++ i :: post /\ Forall (fun x => ~ contains root s x) post) /\
  (exists pre post, rows [] root = pre ++ r :: post /\ Forall (fun x => ~ contains root s x) pre /\ contains root s r).
(** [r] is under [i]. *)
Definition under (root : node) (i r : Z) : Prop := exists pre mid post, rows [] root = pre ++ i :: mid ++ r :: post.

(** How two windows share the lines of the screen. *)
From Verif Require Export Spec.SplitPage.
Open Scope Z_scope.

(** What a document is drawn in: rows, the value of an entry going with its entry,
    and ends of arrays and objects.  [(i, true)] is the end of [i]. *)
Section Steps.
  Variable coll : list Z.
  Definition is_empty (n : node) : bool := match n with NArr _ [] | NObj _ [] => true | _ => false end.
  Fixpoint within (n : node) : list (Z * bool) :=
    match n with
    | NPrim _ _ => []
    | NArr _ l => if hidden coll n then [] else flat_map (fun c => (nid c, false) :: within c) l ++ [(nid n, true)]
    | NObj _ l =>
        if hidden coll n then []
        else flat_map (fun c => (mid (fst (fst c)), false) :: if is_empty (snd c) then [] else within (snd c)) l ++ [(nid n, true)]
    end.
  Definition steps (n : node) : list (Z * bool) := (nid n, false) :: within n.
End Steps.

(** One of them, from line [sfrom] to the line before [sto]. *)
Record slot : Type := mkSlot { sid : Z; sclose : bool; sfrom : Z; sto : Z }.

(** Strips one below the other from line [y] to the line before [z]. *)
Fixpoint from_to (w top y : Z) (l : list (Z * strip)) (z : Z) : Prop :=
  match l with [] => z = y | p :: t => fst p = y /\ from_to w top (ends_at w top p) t z end.
(** The strips of [s]: one, or the name of an entry and the bracket below. *)
Definition holds (w top : Z) (s : slot) (l : list (Z * strip)) : Prop :=
  from_to w top (sfrom s) l (sto s) /\
  exists p t, l = p :: t /\ holder (snd p) = sid s /\ (t = [] \/ exists q, t = [q] /\ row (snd q) = sid s).

(** What was drawn in [w] fills [ss]. *)
Definition fills (len : elem -> Z) (coll : list Z) (width : Z) (w : win) (ss : list slot) : Prop :=
  exists parts rest more,
    half_page len coll (nid (wroot w)) 2 (wroot w) = map snd (concat parts) ++ rest /\
    map (fun x => (fst (fst x), snd x)) (rev (wlog w)) = map (fun p => (holder (snd p), fst p)) (concat parts) /\
    Forall2 (holds width (wscroll w)) ss parts /\
    steps coll (wroot w) = map (fun s => (sid s, sclose s)) ss ++ more.

Section Beside.
  Variable m : mat.
  Definition matched (s : slot) : bool := match getEquivalence m (sid s) with Some _ => true | None => false end.
  (** The first of those with a counterpart are beside each other, the second, and
      so on. *)
  Definition abreast (l r : list slot) : Prop :=
    forall k p q, nth_error (filter matched l) k = Some p -> nth_error (filter matched r) k = Some q -> sfrom p = sfrom q.
  (** Nothing else is beside anything. *)
  Definition apart (l r : list slot) : Prop :=
    forall p q, In p l -> In q r -> sto p <= sfrom q \/ sto q <= sfrom p \/ matched p = true /\ matched q = true /\ sfrom p = sfrom q.
  (** No line is left empty in both. *)
  Definition no_blank (l r : list slot) : Prop :=
    forall y s, In s (l ++ r) -> 1 <= y < sto s -> exists t, In t (l ++ r) /\ sfrom t <= y < sto t.
End Beside.

(** Scalar, array or object, or entry. *)
Inductive kind : Type := Scalar | Container | Entry.
Fixpoint kinds (n : node) : list (Z * kind) :=
  match n with
  | NPrim m _ => [(mid m, Scalar)]
  | NArr m l => (mid m, Container) :: flat_map kinds l
  | NObj m l => (mid m, Container) :: flat_map (fun x => (mid (fst (fst x)), Entry) :: kinds (snd x)) l
  end.
(** Counterparts are of the same kind. *)
Definition same_kinds (m : mat) (a b : node) : Prop :=
  forall x k y k', In (x, k) (kinds a) -> In (y, k') (kinds b) -> getEquivalence m x = Some y -> k = k'.
(** Counterparts, or their ends, begin on the same line. *)
Definition level_pairs (m : mat) (l r : list slot) : Prop :=
  forall p q, In p l -> In q r -> sclose p = sclose q -> getEquivalence m (sid p) = Some (sid q) -> sfrom p = sfrom q.

(** Objects in memory, and what is typed that makes no pattern. *)
From Verif Require Export Model.PatternMem.

(** From the objects there are to those there are afterwards. *)
Inductive pmay (s : list obj) : pcall -> list obj -> Prop :=
| pmay_new o : ~ In o s -> pmay s (PNew o) (o :: s)
| pmay_use o : In o s -> pmay s (PUse o) s
| pmay_delete o s' : In o s -> (forall x, In x s' <-> In x s /\ x <> o) -> pmay s (PDelete o) s'.
Inductive pgoes : list obj -> list pcall -> list obj -> Prop :=
| pgoes_nil s : pgoes s [] s
| pgoes_cons s c s' l s'' : pmay s c s' -> pgoes s' l s'' -> pgoes s (c :: l) s''.

(** Blanks only, up to the end, a NUL or a slash; a backslash at the end is not kept. *)
Definition blank (c : ascii) : Prop := c = " "%char \/ c = TAB.
Definition says_nothing (typed : bytes) : Prop :=
  exists b r, typed = b ++ r /\ Forall blank b /\ (r = [] \/ (exists t, r = "/"%char :: t) \/ (exists t, r = NUL :: t) \/ r = [BSLASH] \/ (exists t, r = BSLASH :: NUL :: t)).

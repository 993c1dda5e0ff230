(** Histories of operations on an insertion-ordered map. *)
From Coq Require Export List.
Export ListNotations.

Section Spec.
  Context {K V : Type}.
  Variable dflt : V.

  (** [m[k]] read, [m[k] = v]. *)
  Inductive op : Type := Read (k : K) | Write (k : K) (v : V).
  Definition key (o : op) : K := match o with Read k => k | Write k _ => k end.

  (** The value of [k] after a history, most recent operation last. *)
  Inductive value : list op -> K -> V -> Prop :=
  | V_write h k v : value (h ++ [Write k v]) k v
  | V_first h k : (forall o, In o h -> key o <> k) -> value (h ++ [Read k]) k dflt
  | V_kept h k o v : value h k v -> key o <> k \/ o = Read k -> value (h ++ [o]) k v.

  (** Keys of a history in the order of their first occurrence. *)
  Inductive key_order : list op -> list K -> Prop :=
  | KO_nil : key_order [] []
  | KO_new h ks o : key_order h ks -> ~ In (key o) ks -> key_order (h ++ [o]) (ks ++ [key o])
  | KO_old h ks o : key_order h ks -> In (key o) ks -> key_order (h ++ [o]) ks.
End Spec.
Arguments op : clear implicits.

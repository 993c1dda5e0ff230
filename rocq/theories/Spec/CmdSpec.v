(** Substitution of the input files in a command. *)
From Verif Require Export Model.Bytes.

Inductive subst_args (files : list bytes) : list bytes -> list bytes -> Prop :=
| SA_nil : subst_args files [] []
| SA_files a r : subst_args files a r -> subst_args files (str "{}" :: a) (files ++ r)
| SA_other x a r : x <> str "{}" -> subst_args files a r -> subst_args files (x :: a) (x :: r).

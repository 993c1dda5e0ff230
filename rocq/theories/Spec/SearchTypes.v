(** Kinds of elements selected by the type flags of a search. *)
From Verif Require Export Model.SearchPattern.

Inductive of_type : ascii -> etype -> Prop :=
| OT_bool b : of_type "b" (EPrim (PBool b))
| OT_int n : of_type "n" (EPrim (PInt n))
| OT_long n : of_type "n" (EPrim (PLong n))
| OT_double d : of_type "n" (EPrim (PDbl d))
| OT_string s : of_type "s" (EPrim (PStr s))
| OT_key : of_type "o" EEntry.

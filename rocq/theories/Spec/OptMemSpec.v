(** What memory should be like for the options of the program. *)
From Verif Require Export Spec.CmdSpec Model.Heap.
Open Scope Z_scope.

(** The array [av] is one that execvp takes: pointers to the strings [r], each followed by
    a zero, and then the null pointer. *)
Definition arguments_at (h : heap) (av : Z) (r : list bytes) : Prop :=
  exists qs, blk h av = Some (BPtrs (map (fun q => Some (Some q)) qs ++ [Some None])) /\
    Forall2 (fun q s => blk h q = Some (BInts (map (fun c => Some (uchar c)) s ++ [Some 0]))) qs r.
(** Strings that come from the command line. *)
Definition no_nul (l : list bytes) : Prop := Forall (fun s => ~ In NUL s) l.

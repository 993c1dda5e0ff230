(** External diff command: C46, C47. *)
From Verif Require Import Model.DiffCmd Model.Numbers Spec.CmdSpec Proofs.DiffCmdProofs Model.Main Proofs.MainProofs.
Open Scope Z_scope.

(** C46 for commands of less than 2^32 arguments: each '{}' is replaced by the
    file names, the rest is kept, a second call returns the same vector.
    [clean]: arguments are C strings, without NUL. *)
Theorem C46_partial : forall d files r, dc_alloc d = None -> clean files -> clean (dc_argv d) -> subst_args files (dc_argv d) r ->
  Z.of_nat (length r) + 1 < 2 ^ 32 ->
  exists d', computeArgv d files = Some (r, d') /\ forall files', computeArgv d' files' = Some (r, d').
Proof. exact argv_ok. Qed.
Print Assumptions C46_partial.

(** Missing: with 2^32 arguments the array is too small (write outside of it). *)
Theorem C46_refuted : exists d files, dc_alloc d = None /\ clean files /\ clean (dc_argv d) /\
  (length files <= Z.to_nat 65536)%nat /\ (length (dc_argv d) <= Z.to_nat 65536)%nat /\ computeArgv d files = None.
Proof. exact argv_overflow. Qed.
Print Assumptions C46_refuted.

(** Every command and file list has exactly one expansion. *)
Theorem C46_total : forall files argv, exists r, subst_args files argv r /\ forall r', subst_args files argv r' -> r' = r.
Proof.
  intros files argv. destruct (subst_total files argv) as (r & H). exists r. split; [exact H|]. intros r' H'. exact (subst_fun files argv r' r H' H).
Qed.
Print Assumptions C46_total.

Example C46_example :
  let d := mkDiffCmd (map str ["diff"; "-u"; "{}"; "--"]%string) None in
  subst_args [str "/tmp/a"; str "/tmp/b"] (dc_argv d) (map str ["diff"; "-u"; "/tmp/a"; "/tmp/b"; "--"]%string) /\
  clean [str "/tmp/a"; str "/tmp/b"] /\ clean (dc_argv d) /\
  option_map fst (computeArgv d [str "/tmp/a"; str "/tmp/b"]) = Some (map str ["diff"; "-u"; "/tmp/a"; "/tmp/b"; "--"]%string).
Proof.
  cbv zeta. split.
  { apply SA_other; [discriminate|]. apply SA_other; [discriminate|]. apply (SA_files [str "/tmp/a"; str "/tmp/b"]). apply SA_other; [discriminate|constructor]. }
  split; [repeat constructor; vm_compute; intuition discriminate|]. split; [repeat constructor; vm_compute; intuition discriminate|]. vm_compute. reflexivity.
Qed.

(** C47 for names of at most 12 bytes all in one block of 32 codes (lower case
    letters for instance). *)
Theorem C47_partial : forall k a b i j, 1 <= k < 4 -> in_block k a -> in_block k b -> (length a <= 12)%nat -> (length b <= 12)%nat ->
  a <> b -> tmp_name a i <> tmp_name b j.
Proof. exact tmp_distinct. Qed.
Print Assumptions C47_partial.

(** Missing: only the last 13 bytes of a name count. *)
Theorem C47_suffix : forall p q s i, (13 <= length s)%nat -> tmp_name (p ++ s) i = tmp_name (q ++ s) i.
Proof. intros p q s i L. unfold tmp_name. rewrite (hash_suffix p q s L). reflexivity. Qed.
Print Assumptions C47_suffix.
Example C47_suffix_example : (13 <= length (str "configuration"))%nat /\ tmp_name (str "old/" ++ str "configuration") 1 = tmp_name (str "new/" ++ str "configuration") 1.
Proof. split; [vm_compute; repeat constructor|vm_compute; reflexivity]. Qed.

Theorem C47_refuted : exists a b, a <> b /\ tmp_name a 0 = tmp_name b 0.
Proof. exists (str "old/package.json"), (str "new/package.json"). split; [discriminate|vm_compute; reflexivity]. Qed.
Print Assumptions C47_refuted.

Example C47_example : in_block 3 (str "abc") /\ in_block 3 (str "xyz") /\ tmp_name (str "abc") 0 = str "/tmp/jsondifftmp102563.0.tmp".
Proof. split; [repeat (apply Forall_cons; [vm_compute; split; congruence|]); constructor|]. split; [repeat (apply Forall_cons; [vm_compute; split; congruence|]); constructor|]. vm_compute. reflexivity. Qed.

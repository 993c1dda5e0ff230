(** Effect of the options of the reader: C06, C07, C08, C10. *)
From Verif Require Import Model.StreamConsumer Spec.TreeSpec Proofs.ParserSort Proofs.ParserStrict Proofs.ParserAscii.
Open Scope Z_scope.

(** C06: with and without --keep-order the outcome is the same: same error with
    the same position, or same warnings and same unread input; the trees are
    equal up to the order of entries (and C05 says that the first is sorted). *)
Theorem C06_keep_order_outcome : forall e strict_ ascii_ input,
  match read_doc e (Some (mkCfg strict_ ascii_ true)) input,
        read_doc e (Some (mkCfg strict_ ascii_ false)) input with
  | Ok (Some r, s), Ok (Some r', s') => s = s' /\ reordered (erase r) (erase r')
  | Ok (None, s), Ok (None, s') => s = s'
  | Throw x, Throw y => x = y
  | Abort x, Abort y => x = y
  | UB x, UB y => x = y
  | _, _ => False
  end.
Proof. exact read_sort_rel. Qed.
Print Assumptions C06_keep_order_outcome.

Definition t6 := str "{""b"":{""z"":1,""y"":2},""a"":[]}".
Example C06_example :
  exists r s r' s', read_doc (mkEnv true) (Some (mkCfg true false true)) t6 = Ok (Some r, s) /\
    read_doc (mkEnv true) (Some (mkCfg true false false)) t6 = Ok (Some r', s') /\
    erase r = TObj [(str "a", TArr []); (str "b", TObj [(str "y", TPrim (PInt 2)); (str "z", TPrim (PInt 1))])] /\
    erase r' = TObj [(str "b", TObj [(str "z", TPrim (PInt 1)); (str "y", TPrim (PInt 2))]); (str "a", TArr [])].
Proof. eexists _, _, _, _. split; [vm_compute; reflexivity|]. split; [vm_compute; reflexivity|]. split; reflexivity. Qed.

(** C07: what strict mode accepts, -W reads in the same way: same tree, same
    unread input, same everything, and no warning. *)
Theorem C07_lax_conservative : forall e ascii_ sort_ input root s',
  read_doc e (Some (mkCfg true ascii_ sort_)) input = Ok (root, s') ->
  read_doc e (Some (mkCfg false ascii_ sort_)) input = Ok (root, s') /\ warns s' = [].
Proof. exact (fun e a so input root s' => ss_ok _ _ _ (read_doc_sim e a so input) root s'). Qed.
Print Assumptions C07_lax_conservative.
Example C07_lax_conservative_example : exists root s', read_doc (mkEnv true) (Some (mkCfg true false true)) (str "{""b"":[1,""x""],""a"":{}} ") = Ok (Some root, s') /\
  erase root = TObj [(str "a", TObj []); (str "b", TArr [TPrim (PInt 1); TPrim (PStr (str "x"))])].
Proof. eexists _, _. split; vm_compute; reflexivity. Qed.

(** C07: other outcomes.  A crash in strict mode is a crash with -W; an error in
    strict mode is the same error with -W, or its first warning. *)
Theorem C07_lax_errors : forall e ascii_ sort_ input,
  (forall x, read_doc e (Some (mkCfg true ascii_ sort_)) input = Abort x ->
     read_doc e (Some (mkCfg false ascii_ sort_)) input = Abort x) /\
  (forall x, read_doc e (Some (mkCfg true ascii_ sort_)) input = UB x ->
     read_doc e (Some (mkCfg false ascii_ sort_)) input = UB x) /\
  (forall x, read_doc e (Some (mkCfg true ascii_ sort_)) input = Throw x ->
     read_doc e (Some (mkCfg false ascii_ sort_)) input = Throw x \/
     forall root s', read_doc e (Some (mkCfg false ascii_ sort_)) input = Ok (root, s') ->
       exists w, warns s' = x :: w).
Proof.
  exact (fun e a so input =>
    conj (ss_abort _ _ _ (read_doc_sim e a so input))
   (conj (ss_ub _ _ _ (read_doc_sim e a so input))
         (ss_throw _ _ _ (read_doc_sim e a so input)))).
Qed.
Print Assumptions C07_lax_errors.

Definition t7 := str "{""b"":tRue,""b"":[""\q"", null]} ".
(** Three things strict mode rejects; -W warns about them, in order. *)
Example C07_example :
  (exists x, read_doc (mkEnv true) (Some (mkCfg true false true)) t7 = Throw x /\ ekind_of x = Format) /\
  (exists r s, read_doc (mkEnv true) (Some (mkCfg false false true)) t7 = Ok (Some r, s) /\
     map ekind_of (warns s) = [Format; DoubleKey (str "b"); Escaped "q"] /\
     erase r = TObj [(str "b", TArr [TPrim (PStr (str "\q")); TPrim PNull])]).
Proof.
  split; [eexists; split; [vm_compute; reflexivity|reflexivity]|].
  eexists _, _. split; [vm_compute; reflexivity|]. split; reflexivity.
Qed.

(** C08: a strict read has no warnings, and a -W read without warnings is what
    strict mode reads. *)
Theorem C08_strict_silent : forall e ascii_ sort_ input,
  (forall root s', read_doc e (Some (mkCfg true ascii_ sort_)) input = Ok (root, s') -> warns s' = []) /\
  (forall root s', read_doc e (Some (mkCfg false ascii_ sort_)) input = Ok (root, s') -> warns s' = [] ->
     read_doc e (Some (mkCfg true ascii_ sort_)) input = Ok (root, s')).
Proof.
  exact (fun e a so input => conj
    (fun root s' H => proj2 (ss_ok _ _ _ (read_doc_sim e a so input) root s' H))
    (fun root s' H E =>
       match sl_ok _ _ _ (read_doc_sim e a so input) root s' H with
       | ex_intro _ w (conj W K) => K (eq_trans (eq_sym W) E)
       end)).
Qed.
Print Assumptions C08_strict_silent.

Example C08_example :
  exists r s, read_doc (mkEnv true) (Some (mkCfg false false true)) t6 = Ok (Some r, s) /\ warns s = [].
Proof. eexists _, _. split; [vm_compute; reflexivity|]. reflexivity. Qed.

(** C10, first part: with --ascii no unicode escape is an error. *)
Theorem C10_ascii_no_hex_error : forall e strict_ sort_ input,
  (forall x c, read_doc e (Some (mkCfg strict_ true sort_)) input = Throw x -> ekind_of x <> HexValue c) /\
  read_doc e (Some (mkCfg strict_ true sort_)) input <> Abort StdRangeError.
Proof. exact read_ascii_nohex. Qed.
Print Assumptions C10_ascii_no_hex_error.

(** C10, second part: a text without backslash-u is read identically. *)
Theorem C10_ascii_same : forall e strict_ sort_ input,
  (forall a b, input <> a ++ BSLASH :: "u"%char :: b) ->
  read_doc e (Some (mkCfg strict_ true sort_)) input = read_doc e (Some (mkCfg strict_ false sort_)) input.
Proof. exact read_ascii_same. Qed.
Print Assumptions C10_ascii_same.

Example C10_example :
  (exists x, read_doc (mkEnv true) (Some (mkCfg true false true)) (str """\uzzzz""") = Throw x /\ ekind_of x = HexValue "z") /\
  (exists r s, read_doc (mkEnv true) (Some (mkCfg true true true)) (str """\uzzzz""") = Ok (Some r, s) /\
     erase r = TPrim (PStr (str "\uzzzz"))).
Proof.
  split; [eexists; split; [vm_compute; reflexivity|reflexivity]|].
  eexists _, _. split; [vm_compute; reflexivity|]. reflexivity.
Qed.
Example C10_same_example : forall a b, str "[""\\a\n"",""u""]" <> a ++ BSLASH :: "u"%char :: b.
Proof.
  intros a b E. vm_compute in E.
  do 13 (destruct a as [|? a]; [discriminate E|apply (f_equal (@tl ascii)) in E; cbn in E]).
  destruct a; discriminate.
Qed.

(** What texts are taken: C09. *)
From Verif Require Import Model.StreamConsumer Proofs.LooseLoops Spec.LooseGrammar.
Open Scope Z_scope.

(** C09, for every input: what was read is a text of the structure [value
    any_token brace_or_scalar]: brackets nest, array elements have exactly one
    comma between them and none after the last, members are a string, a colon and a
    value; but any token other than '}' separates members and any scalar ends an
    object. *)
Theorem C09_structure : forall e params input root s', read_doc e params input = Ok (Some root, s') ->
  exists g l, input = g ++ l ++ inp s' /\ gap g /\ value any_token brace_or_scalar l.
Proof. exact read_structure. Qed.
Print Assumptions C09_structure.
Example C09_structure_example : exists root s', read_doc (mkEnv true) (Some (mkCfg true false true)) (str " {""a"":[1] ] ""b"":{} 2 rest") = Ok (Some root, s') /\
  inp s' = str " rest" /\ erase root = TObj [(str "a", TArr [TPrim (PInt 1)]); (str "b", TObj [])].
Proof. eexists _, _. split; [vm_compute; reflexivity|]. split; vm_compute; reflexivity. Qed.

(** C09.  Full statement: if reading succeeds then
      exists g l g', input = g ++ l ++ g' /\ gap g /\ gap g' /\ value comma brace l.
    False (C09_refuted).  Proved: what was read has the structure of JSON when it
    has no '{' in it. *)
Theorem C09_partial : forall e params input root s', read_doc e params input = Ok (Some root, s') ->
  exists g l, input = g ++ l ++ inp s' /\ gap g /\ (~ In "{"%char l -> value comma brace l).
Proof. intros e params input root s' H. destruct (read_structure _ _ _ _ _ H) as (g & l & E & G & V). exists g, l. auto using value_json. Qed.
Print Assumptions C09_partial.

Definition nested : bytes := str " [1, [true ,""a]b""],nUll , -1.5]".
Example C09_partial_example : exists root s', read_doc (mkEnv true) (Some (mkCfg false false true)) nested = Ok (Some root, s') /\
  inp s' = [] /\ ~ In "{"%char nested.
Proof. eexists _, _. split; [vm_compute; reflexivity|]. split; [reflexivity|]. vm_compute. intuition discriminate. Qed.

(** Even with --strict: an object without closing brace; two members without any
    comma; text after the root. *)
Definition unclosed : bytes := str "{""a"":""b"" ""c""".
Definition no_comma : bytes := str "{""a"":1:""b"":2}".
Definition strict_cfg : option cfg := Some (mkCfg true false true).
Theorem C09_refuted : 
  (exists input root s', read_doc (mkEnv true) strict_cfg input = Ok (Some root, s') /\ inp s' = [] /\
    ~ exists g l g', input = g ++ l ++ g' /\ gap g /\ gap g' /\ value comma brace l) /\
  (exists input m e1 e2 s', read_doc (mkEnv true) strict_cfg input = Ok (Some (NObj m [e1; e2]), s') /\ inp s' = [] /\ ~ In ","%char input) /\
  (exists input root s', read_doc (mkEnv true) strict_cfg input = Ok (Some root, s') /\ ~ gap (inp s')).
Proof.
  split; [|split].
  - exists unclosed. eexists _, _. split; [vm_compute; reflexivity|]. split; [reflexivity|]. intros (g & l & g' & E & Gg & Gg' & V).
    destruct g as [|c g].
    + destruct l as [|c l].
      * inversion V as [l' S| | | |]; subst. destruct S as [(b & _ & C)|W]; [discriminate C|]. inversion W as [l' I| |]; subst. destruct I as [I|[I|[I|[]]]]; discriminate I.
      * cbn [app] in E. assert (C : c = "{"%char) by (vm_compute in E; congruence). subst c. apply object_brace in V.
        assert (I : In "}"%char unclosed) by (rewrite E; right; apply in_app_iff; left; exact V). revert I. vm_compute. intuition discriminate.
    + assert (C : c = "{"%char) by (vm_compute in E; congruence). subst c. apply Forall_inv in Gg. vm_compute in Gg. intuition congruence.
  - exists no_comma. eexists _, _, _, _. split; [vm_compute; reflexivity|]. split; [reflexivity|]. vm_compute. intuition discriminate.
  - exists (str "[1]]"). eexists _, _. split; [vm_compute; reflexivity|]. intros G. apply Forall_inv in G. vm_compute in G. intuition congruence.
Qed.
Print Assumptions C09_refuted.

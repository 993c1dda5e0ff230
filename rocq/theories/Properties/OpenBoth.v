(** From the bytes of two files to the first screen of their comparison: C92. *)
From Verif Require Import Model.StreamConsumer Model.SimpleText.
From Verif Require Proofs.BesideOpen.
From Verif Require Proofs.DocumentProofs.
From Verif Require Import Properties.Grammar Properties.Screen Properties.Split Properties.Compare Properties.Level Properties.Both Spec.BesideSpec.
From Coq Require Import Lia ZifyBool.
Open Scope Z_scope.

(** C92.  Whatever two texts of the grammar the files hold: both are read, nothing is
    warned of; once they have been compared, the program waits for a key, and each
    window shows the first lines of the sketch of its document, from the first line
    below the name on ([opens_as]).  The first document is in reverse, and the second
    one if it is the counterpart of the first.  [a] and [b] are the documents read,
    each element of both having an identity of its own. *)
Theorem C92_opened : forall e p wa ta da ra wb tb db rb,
  jval (jstring kept_ctrl (if ignoreUnicode p then kept_uni else rfc_uni)) ta da -> distinct_keys da -> ws wa -> boundary ra ->
  jval (jstring kept_ctrl (if ignoreUnicode p then kept_uni else rfc_uni)) tb db -> distinct_keys db -> ws wb -> boundary rb ->
  exists a0 sa b0 sb, read_doc e (Some p) (wa ++ ta ++ ra) = Ok (Some a0, sa) /\ warns sa = [] /\ read_doc e (Some p) (wb ++ tb ++ rb) = Ok (Some b0, sb) /\ warns sb = [] /\
    (if sortObjects p then reordered (erase a0) da /\ all_objects (StronglySorted byte_lt) (erase a0) else erase a0 = da) /\
    (if sortObjects p then reordered (erase b0) db /\ all_objects (StronglySorted byte_lt) (erase b0) else erase b0 = db) /\
    forall rx f a b m len w hh colours, erase a = erase a0 -> erase b = erase b0 -> comparable a b m len f -> room w hh ->
    exists p v0 v1, split_run rx f len w hh a b [] = Done (Waits (mkScreen (w / 2) (hh - 2) len) p) /\ pwins p = [v0; v1] /\
      opens_as len colours true (w / 2 - 2) (hh - 2) (erase a0) (cells_of (split_memory a b) (active_res p) colours v0) /\
      opens_as len colours (match getEquivalence m (nid a) with Some _ => true | None => false end) (w / 2 - 2) (hh - 2) (erase b0)
        (cells_of (split_memory a b) (active_res p) colours v1).
Proof. exact BesideOpen.both_opened. Qed.
Print Assumptions C92_opened.

(** Two files in 40 columns and 7 lines: four lines of each document fit.  The roots
    are counterparts. *)
Definition file92 (s : String.string) : bytes := str "{""a"":[1,""" ++ str s ++ str """],""b"":2}".
Definition tree92 (s : String.string) : tree := TObj [(str "a", TArr [TPrim (PInt 1); TPrim (PStr (str s))]); (str "b", TPrim (PInt 2))].
Ltac chars_ := repeat (apply (JS_cons _ _ [_] [_]); [chr_|]); constructor.
Ltac digit_ n := apply (J_int _ false [_]); [split; [split; [discriminate|repeat constructor; vm_compute; congruence]|intros c r [= <- <-]; reflexivity]|apply (IP_int n); vm_compute; split; congruence].
Ltac json92 s := let W0 := fresh in assert (W0 : ws []) by constructor;
  apply (J_obj _ (str """a"":[1,""" ++ str s ++ str """],""b"":2"));
  apply (M_more _ [] (str "a") (str "a") [] [] (str "[1,""" ++ str s ++ str """]") _ []); auto;
    [chars_|apply (J_arr _ (str "1,""" ++ str s ++ str """")); apply (E_more _ [] (str "1") []); auto; [digit_ 1|];
      apply (E_one _ [] (str """" ++ str s ++ str """") []); auto; apply (J_str _ (str s)); chars_|];
  apply (M_one _ [] (str "b") (str "b") [] [] (str "2") _ []); auto; [chars_|digit_ 2].
Definition bytes92 (e : elem) : Z := Z.of_nat (length (before_nul (etext e))).
Example C92_example :
  jval (jstring kept_ctrl rfc_uni) (file92 "hello") (tree92 "hello") /\ distinct_keys (tree92 "hello") /\ ws [LF] /\ boundary [LF] /\
  jval (jstring kept_ctrl rfc_uni) (file92 "hallo") (tree92 "hallo") /\ distinct_keys (tree92 "hallo") /\
  erase (hello 1 "hello") = tree92 "hello" /\ erase (hello 21 "hallo") = tree92 "hallo" /\
  comparable (hello 1 "hello") (hello 21 "hallo") hello_mat bytes92 fuel /\ room 40 7 /\ getEquivalence hello_mat 1 = Some 21 /\
  half_narrow 18 (tree92 "hello") /\ half_narrow 18 (tree92 "hallo") /\ measured bytes92 18 /\
  texts_of (hello 1 "hello") (hello 21 "hallo") (split_run no_regex fuel bytes92 40 7 (hello 1 "hello") (hello 21 "hallo") []) =
  Some (5, [0; 0],
    [drawn [(1, 2, [("{", true, None)]);
            (2, 6, [("a", false, Some 5); (": ", false, None)]);
            (3, 6, [("[", false, None)]);
            (4, 10, [("1", false, Some 2)])]%string;
     drawn [(1, 2, [("{", true, None)]);
            (2, 6, [("a", false, Some 5); (": ", false, None)]);
            (3, 6, [("[", false, None)]);
            (4, 10, [("1", false, Some 2)])]%string]).
Proof.
  assert (W0 : ws []) by constructor. assert (W1 : ws [LF]) by (repeat constructor; vm_compute; tauto).
  split; [json92 "hello"%string|]. split; [|split; [exact W1|split; [intros c r [= <- _]; vm_compute; intuition congruence|split; [json92 "hallo"%string|split]]]].
  - constructor; [repeat constructor; cbn; intuition discriminate|repeat constructor].
  - constructor; [repeat constructor; cbn; intuition discriminate|repeat constructor].
  - do 2 (split; [reflexivity|]). split.
    { split; [apply DocumentProofs.document_in_memory|]. split; [apply DocumentProofs.document_in_memory|].
      split; [repeat constructor|]. split; [repeat constructor|]. split; [vm_compute; repeat constructor; cbn; intuition congruence|]. split; [vm_compute; reflexivity|].
      split; [intros e; unfold bytes92; lia|]. split; vm_compute; reflexivity. }
    split; [split; split; vm_compute; congruence|]. split; [vm_compute; reflexivity|].
    do 2 (split; [unfold half_narrow; rewrite Forall_forall; intros q; vm_compute; intuition (subst; discriminate)|]).
    split; [intros e _; reflexivity|]. vm_compute. reflexivity.
Qed.

(** C92, full statement: when the program first waits, both documents begin on the
    first line below the names ([on_top]).  False: when the roots are not
    counterparts, the second document is drawn below the last line of the first, and
    may be out of the screen.  Proved for roots that are counterparts. *)
Theorem C92_top_partial : forall rx f a b m len w hh colours, comparable a b m len f -> room w hh -> getEquivalence m (nid a) <> None ->
  exists p v0 v1, split_run rx f len w hh a b [] = Done (Waits (mkScreen (w / 2) (hh - 2) len) p) /\ pwins p = [v0; v1] /\
    on_top (cells_of (split_memory a b) (active_res p) colours v0) /\ on_top (cells_of (split_memory a b) (active_res p) colours v1).
Proof. exact BesideOpen.compared_top. Qed.
Print Assumptions C92_top_partial.

(** Three numbers and two texts in 40 columns and 7 lines, five of which are a
    window's: the second document begins on line 5, below its end. *)
Definition left92 : node := document 1 (TArr [num 1; num 2; num 3]).
Definition right92 : node := document 11 (TArr [txt "abc"; txt "def"]).
Definition mat92 : mat := match build left92 right92 with inl m => m | inr _ => mkMat [] [] 0 true end.
Theorem C92_refuted : exists a b m len f w hh first, comparable a b m len f /\ room w hh /\
  texts_of a b (split_run no_regex f len w hh a b []) = Some (5, [0; 0], [first; drawn [(5, 2, [("[", false, None)])]%string]).
Proof.
  exists left92, right92, mat92, bytes92, fuel, 40, 7. eexists. split.
  { split; [apply DocumentProofs.document_in_memory|]. split; [apply DocumentProofs.document_in_memory|].
    split; [repeat constructor|]. split; [repeat constructor|]. split; [vm_compute; repeat constructor; cbn; intuition congruence|]. split; [vm_compute; reflexivity|].
    split; [intros e; unfold bytes92; lia|]. split; vm_compute; reflexivity. }
  split; [split; split; vm_compute; congruence|]. vm_compute. reflexivity.
Qed.
Print Assumptions C92_refuted.

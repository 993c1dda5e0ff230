(** Redirected output: C18, C19, C20. *)
From Verif Require Import Model.SimpleOutput Model.StreamConsumer Spec.PrintSpec Proofs.PrintProofs.
Open Scope Z_scope.

(** C18 for printable documents: strings only as elements of arrays (or the
    document itself) and self-spelled, doubles that six decimals determine. *)
Theorem C18_partial : forall e p z v, printable (ignoreUnicode p) v -> distinct_keys v ->
  (sortObjects p = true -> all_objects (StronglySorted byte_lt) v) ->
  exists root s, read_doc e (Some p) (display z v) = Ok (Some root, s) /\ erase root = v /\ warns s = [].
Proof. exact read_printed. Qed.
Print Assumptions C18_partial.

(** Missing: string values of objects are printed without quotes, and the result
    cannot be read; double values are cut. *)
Definition keep : cfg := mkCfg true false false.
Theorem C18_refuted : exists e p t root s, read_doc e (Some p) t = Ok (Some root, s) /\
  forall z root' s', read_doc e (Some p) (display z (erase root)) = Ok (Some root', s') -> erase root' <> erase root.
Proof.
  exists (mkEnv false), keep, (str "{""a"":""b""}"). eexists. eexists. split; [vm_compute; reflexivity|].
  intros [] root' s'; vm_compute; discriminate.
Qed.
Print Assumptions C18_refuted.
Theorem C18_double_refuted : exists e p t root s, read_doc e (Some p) t = Ok (Some root, s) /\
  forall z, exists root' s', read_doc e (Some p) (display z (erase root)) = Ok (Some root', s') /\ erase root' <> erase root.
Proof.
  exists (mkEnv false), keep, (str "0.0000001"). eexists. eexists. split; [vm_compute; reflexivity|].
  intros []; eexists; eexists; (split; [vm_compute; reflexivity|vm_compute; discriminate]).
Qed.
Print Assumptions C18_double_refuted.

Example C18_example : exists v, v = TObj [(str "a", TArr [TPrim (PStr (str "x")); TPrim (PInt (-5)); TPrim (PDbl (decimal_to_double false 15 1))]); (str "b", TObj [])] /\
  printable false v /\ distinct_keys v /\ all_objects (StronglySorted byte_lt) v /\
  display true v = str "{""a"":[""x"",-5,1.500000],""b"":{}}".
Proof.
  eexists. split; [reflexivity|]. split; [|split; [|split; [|vm_compute; reflexivity]]].
  - assert (Sa : forall c, 32 <= uchar c -> c <> DQUOTE -> c <> BSLASH -> self_spelled false [c]).
    { intros c A B C. apply (JS_cons _ _ [c] [c] [] []); [constructor; assumption|constructor]. }
    repeat constructor; cbn [fst snd]; try discriminate; try (apply Sa; [cbn; lia|discriminate..]).
    + apply P_int with (-5). constructor. lia.
    + exists false, (str "1"), (str "500000"). split; [vm_compute; reflexivity|].
      split; [split; [split; [discriminate|repeat constructor; cbn; lia]|intros c r [= <- <-]; cbn; lia]|].
      split; [split; [discriminate|repeat constructor; cbn; lia]|]. vm_compute. reflexivity.
  - repeat constructor; cbn; intuition discriminate.
  - assert (L : byte_lt (str "a") (str "b")) by (right; exists [], "a"%char, "b"%char, [], []; repeat split).
    apply AO_obj; [|repeat constructor]. cbn [map fst]. repeat (constructor; [|]); try exact L; constructor.
Qed.

(** C19 and C20: the lines of the output, one item each, in document order; each
    line is at the depth its brackets tell; compressing removes exactly the
    indentation and line feeds; the indentation is four blanks per level as long
    as the nesting is below 65536. *)
Theorem C20_partial : forall v, exists ls, lines 0 [] v ls /\ nested 0 ls 0 /\
  (Forall (fun x => fst x < 65536) ls -> display false v = with_layout (fun d => 4 * d) ls) /\
  display true v = without_layout ls.
Proof. exact display_indented. Qed.
Print Assumptions C20_partial.

(** Missing: deeper nests, the level being counted in 16 bits. *)
Theorem C20_refuted : exists v, forall ls, lines 0 [] v ls -> display false v <> with_layout (fun d => 4 * d) ls.
Proof. exists (nest (Z.to_nat 65536)). intros ls. apply nest_not_indented. rewrite Z2Nat.id by lia. lia. Qed.
Print Assumptions C20_refuted.

(** The lines are determined by the document. *)
Theorem C20_determined : forall v ls ls', lines 0 [] v ls -> lines 0 [] v ls' -> ls = ls'.
Proof. exact (lines_fun 0 []). Qed.
Print Assumptions C20_determined.

(** C19 at any depth. *)
Theorem C19_layout : forall v, exists ls, lines 0 [] v ls /\
  display false v = with_layout (fun d => 4 * (d mod 65536)) ls /\ display true v = without_layout ls.
Proof. intros v. destruct (display_lines v) as (ls & A & _ & B & C). exists ls. auto. Qed.
Print Assumptions C19_layout.

(** Both layouts read back to the same document, when printable. *)
Theorem C19_partial : forall e p v, printable (ignoreUnicode p) v -> distinct_keys v ->
  (sortObjects p = true -> all_objects (StronglySorted byte_lt) v) ->
  exists r1 s1 r2 s2, read_doc e (Some p) (display false v) = Ok (Some r1, s1) /\ read_doc e (Some p) (display true v) = Ok (Some r2, s2) /\
    erase r1 = erase r2.
Proof.
  intros e p v P D S. destruct (read_printed e p false v P D S) as (r1 & s1 & A & B & _).
  destruct (read_printed e p true v P D S) as (r2 & s2 & A' & B' & _). exists r1, s1, r2, s2. split; [exact A|]. split; [exact A'|]. congruence.
Qed.
Print Assumptions C19_partial.
Example C19_example : let v := TObj [(str "a", TArr [TPrim (PStr (str "x")); TPrim (PInt (-5)); TPrim (PDbl (decimal_to_double false 15 1))]); (str "b", TObj [])] in
  printable false v /\ distinct_keys v /\ all_objects (StronglySorted byte_lt) v /\
  exists r1 s1 r2 s2, read_doc (mkEnv true) (Some keep) (display false v) = Ok (Some r1, s1) /\ read_doc (mkEnv true) (Some keep) (display true v) = Ok (Some r2, s2) /\
    erase r1 = v /\ erase r2 = v /\ display false v <> display true v.
Proof.
  destruct C18_example as (v & -> & P & D & S & _). cbn zeta. split; [exact P|]. split; [exact D|]. split; [exact S|].
  do 4 eexists. split; [vm_compute; reflexivity|]. split; [vm_compute; reflexivity|]. split; [vm_compute; reflexivity|].
  split; [vm_compute; reflexivity|]. vm_compute. discriminate.
Qed.

(** Missing: a document read from a text, of which both outputs can be read but
    denote different documents. *)
Theorem C19_refuted : exists e p t root s r1 s1 r2 s2, read_doc e (Some p) t = Ok (Some root, s) /\
  read_doc e (Some p) (display false (erase root)) = Ok (Some r1, s1) /\
  read_doc e (Some p) (display true (erase root)) = Ok (Some r2, s2) /\ erase r1 <> erase r2.
Proof.
  exists (mkEnv false), keep, (str "{""k"":""\""x"",""}"":1}"). do 6 eexists. split; [vm_compute; reflexivity|].
  split; [vm_compute; reflexivity|]. split; [vm_compute; reflexivity|]. vm_compute. discriminate.
Qed.
Print Assumptions C19_refuted.

Example C20_example : lines 0 [] (TArr [TPrim (PInt 1); TObj [(str "k", TPrim PNull); (str "l", TArr [])]])
  [(0, str "["); (1, str "1"); (1, str ",{"); (2, str """k"":null"); (2, str ",""l"":"); (2, str "["); (2, str "]"); (1, str "}"); (0, str "]")].
Proof.
  apply (Ln_arr 0 [] _ [(1, str "1"); (1, str ",{"); (2, str """k"":null"); (2, str ",""l"":"); (2, str "["); (2, str "]"); (1, str "}")]).
  apply (El_cons 1 [] _ _ [(1, str "1")]); [apply (Ln_scalar 1 [] (PInt 1))|].
  apply (El_cons 1 (str ",") _ _ [(1, str ",{"); (2, str """k"":null"); (2, str ",""l"":"); (2, str "["); (2, str "]"); (1, str "}")] []); [|constructor].
  apply (Ln_obj 1 (str ",") _ [(2, str """k"":null"); (2, str ",""l"":"); (2, str "["); (2, str "]")]).
  apply (En_scalar 2 [] (str "k") PNull). apply (En_cont 2 (str ",") (str "l") _ _ [(2, str "["); (2, str "]")] []); [discriminate| |constructor].
  apply (Ln_arr 2 [] [] []). constructor.
Qed.

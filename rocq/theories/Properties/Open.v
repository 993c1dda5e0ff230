(** From the bytes of a file to the first screen: C81. *)
From Verif Require Import Model.StreamConsumer Spec.OpenSpec Model.SimpleText.
From Verif Require Proofs.OpenProofs.
From Verif Require Import Properties.Grammar.
From Coq Require Import Lia ZifyBool.
Open Scope Z_scope.

(** C81.  Whatever text of the grammar the file holds: the viewer waits for a key,
    nothing has been warned of, and what has been painted are the first lines of the
    sketch of the document, from the first line of the terminal below the name on.
    When the lines are no longer than the screen is wide, there is one on each line
    of the terminal, as far as lines and screen go. *)
Theorem C81_opened : forall e p w0 text t rest rx colours sc,
  jval (jstring kept_ctrl (if ignoreUnicode p then kept_uni else rfc_uni)) text t -> distinct_keys t -> ws w0 -> boundary rest ->
  3 <= sw sc < 2 ^ 32 -> 2 <= sh sc < 2 ^ 32 -> measures sc ->
  exists root s' d, read_doc e (Some p) (w0 ++ text ++ rest) = Ok (Some root, s') /\ warns s' = [] /\ erase root = d /\
    (if sortObjects p then reordered d t /\ all_objects (StronglySorted byte_lt) d else d = t) /\
    (Z.of_nat (depth d) < 2 ^ 27 ->
     exists v0 v ps, run rx root sc view0 [] = Waiting sc v false /\ redraw root sc v0 = Some (true, v) /\ painted root colours sc v0 = Some ps /\ ps <> [] /\
       Forall (fun q => 1 <= cline q <= sh sc - 1) ps /\
       map (fun q => (ccol q, cpieces q)) ps = firstn (length ps) (map (fun s => (ccol (drawn_as colours (0, s)), cpieces (drawn_as colours (0, s)))) (sketch true 0 d)) /\
       (narrow (sw sc) d -> ps = map (drawn_as colours) (one_per_line 1 (firstn (Z.to_nat (sh sc - 1)) (sketch true 0 d))))).
Proof. exact OpenProofs.opened. Qed.
Print Assumptions C81_opened.

(** A file on a screen of twenty columns and five lines (texts measured in bytes up to
    2 ^ 30 - 1), entries sorted: the last two lines do not fit. *)
Definition file81 : bytes := str "{""k\n"":[1,""x""],""a"":{}}".
Definition tree81 : tree := TObj [(str "k\n", TArr [TPrim (PInt 1); TPrim (PStr (str "x"))]); (str "a", TObj [])].
Definition small81 : screen := mkScreen 20 5 (fun e => Z.min (Z.of_nat (length (before_nul (etext e)))) (2 ^ 30 - 1)).
Example C81_example : jval (jstring kept_ctrl rfc_uni) file81 tree81 /\ distinct_keys tree81 /\ ws [LF] /\ boundary [LF] /\ measures small81 /\
  exists root s', read_doc (mkEnv false) (Some (mkCfg true false true)) ([LF] ++ file81 ++ [LF]) = Ok (Some root, s') /\
    Z.of_nat (depth (erase root)) < 2 ^ 27 /\ narrow (sw small81) (erase root) /\
    match run (fun _ _ _ => false) root small81 view0 [] with Waiting sc v false => painted root false sc v | _ => None end = Some (map (drawn_as false)
      [(1, (true, 0, [mark "{"]));
       (2, (false, 4, [(Name, str "a"); mark ": "; mark "{ }"]));
       (3, (false, 4, [(Name, str "k\n"); mark ": "]));
       (4, (false, 6, [mark "["]))]).
Proof.
  assert (W0 : ws []) by constructor. assert (W1 : ws [LF]) by (repeat constructor; vm_compute; tauto).
  split; [|split; [|split; [exact W1|split; [intros c r [= <- _]; vm_compute; intuition congruence|split]]]].
  - apply (J_obj _ (str """k\n"":[1,""x""],""a"":{}")).
    apply (M_more _ [] (str "k\n") (str "k\n") [] [] (str "[1,""x""]") _ []); auto.
    { apply (JS_cons _ _ (str "k") (str "k") (str "\n") (str "\n")); [chr_|].
      apply (JS_cons _ _ (str "\n") (str "\n") [] []); [|constructor]. apply JC_ctrl; [cbv; auto|reflexivity]. }
    { apply (J_arr _ (str "1,""x""")). apply (E_more _ [] (str "1") []); auto.
      { apply (J_int _ false (str "1")); [|apply (IP_int 1); vm_compute; split; congruence].
        split; [split; [discriminate|repeat constructor; vm_compute; congruence]|intros c r [= <- <-]; reflexivity]. }
      apply (E_one _ [] (str """x""") []); auto. apply (J_str _ (str "x")). apply (JS_cons _ _ (str "x") (str "x") [] []); [chr_|constructor]. }
    apply (M_one _ [] (str "a") (str "a") [] [] (str "{}") _ []); auto; [|apply (J_obj0 _ []); exact W0].
    apply (JS_cons _ _ (str "a") (str "a") [] []); [chr_|constructor].
  - constructor; [repeat constructor; cbn; intuition discriminate|repeat constructor].
  - split; intros e; cbn [small81 slen sw]; lia.
  - eexists _, _. split; [vm_compute; reflexivity|]. split; [vm_compute; reflexivity|]. split.
    + unfold narrow. rewrite Forall_forall. intros q. vm_compute. intuition (subst; discriminate).
    + vm_compute. reflexivity.
Qed.

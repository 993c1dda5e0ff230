(** Abnormal ends of the reader: C03. *)
From Verif Require Import Model.StreamConsumer Spec.CrashPatterns Proofs.ParserCrash.
Open Scope Z_scope.

(** C03, full statement: forall e p input, the outcome of read_doc is [Ok] or
    [Throw].  It is false (C03_refuted, C03_kinds below).  What is proved: it
    holds for every text where none of the seven dangerous patterns of
    Spec/CrashPatterns.v occurs, well-formed or not. *)
Theorem C03_partial : forall e p input, harmless input ->
  match read_doc e (Some p) input with Ok _ | Throw _ => True | _ => False end.
Proof. exact read_harmless. Qed.
Print Assumptions C03_partial.

(** [{"a":}]: JSonObject::push gets a null pointer. *)
Theorem C03_refuted : exists input, forall e p, read_doc e (Some p) input = UB NullDeref.
Proof. exists (str "{""a"":}"). intros e [[] [] []]; vm_compute; reflexivity. Qed.
Print Assumptions C03_refuted.

(** Each pattern left out of C03_partial ends some text abnormally. *)
Theorem C03_kinds : forall e,
  let run input := read_doc e (Some (mkCfg true false true)) input in
  run (str "{""a"":""x") = UB NullDeref /\
  run (str "{""a"":nul") = UB NullDeref /\
  run (str "[-]") = Abort StdInvalidArgument /\
  run (str ".") = Abort StdInvalidArgument /\
  run (str "[1.2.]") = Abort StdInvalidArgument /\
  run (str "[9223372036854775808]") = Abort StdOutOfRange /\
  run (str "[""\u12" ++ [LF] ++ str "4""]") = UB OutOfBounds /\
  run (str "[n" ++ [LF; LF] ++ str "l]") = UB OutOfBounds /\
  read_doc (mkEnv false) (Some (mkCfg true false true)) (str "[""\ud83d""]") = Abort StdRangeError.
Proof. intros e. repeat split; vm_compute; reflexivity. Qed.
Print Assumptions C03_kinds.

Ltac suffixes E :=
  match type of E with
  | [] = ?a ++ ?b => symmetry in E; apply app_eq_nil in E; destruct E as [-> ->]
  | _ :: _ = ?a ++ ?b =>
      destruct a as [|? a]; cbn [app] in E; [subst b | injection E as _ E; suffixes E]
  end.
(** A malformed text (a truncated one, with a bad literal) in the scope of C03_partial. *)
Definition t3 := str "{""a"" : tru[".
Example C03_example : harmless t3 /\ exists x, read_doc (mkEnv true) (Some (mkCfg true false true)) t3 = Throw x.
Proof.
  split; [|eexists; vm_compute; reflexivity]. split; [|discriminate].
  assert (L : forall l r b, b = l ++ r -> Forall dec_digit l ->
    Forall (fun c => is_digit c = false) b -> (length l <= 18)%nat).
  { intros l r b -> F N. destruct l as [|c l]; [cbn; lia|]. inversion F as [|? ? D _]; subst. inversion N as [|? ? N1 _]; subst.
    apply dec_digit_is in D. congruence. }
  intros a b E. unfold t3 in E. cbn [str list_ascii_of_string] in E. suffixes E.
  all: split; try (intros; discriminate).
  all: try (intros l r E' F; eapply L; [exact E'|exact F|repeat constructor]).
  all: try (intros c r E' Q; injection E' as <- _; destruct Q; discriminate).
  - intros r [= <-]. exists [" "%char], "t"%char, (str "ru["). split; [reflexivity|].
    split; [repeat constructor; vm_compute; congruence|].
    split; [intros [Q|Q]; vm_compute in Q; congruence|].
    split; [cbn; intuition discriminate|].
    split; [discriminate|]. intros [Q|Q]; discriminate.
Qed.

(** C89: what is made for the options is freed, and what the program to run is given. *)
From Coq Require Import Lia.
From Verif Require Import Proofs.ParamsMemProofs.
From Verif Require Import Spec.HeapSpec Spec.OptMemSpec.
From Verif Require Import Model.Heap Model.ParamsMem.
Open Scope Z_scope.

(** C89.  Whatever the arguments, the files that open, how many of the inputs are read and whether
    the command is run: nothing is used before it is made, after it was deleted or deleted twice, and of
    all that was made one thing at most is left when main returns. *)
Theorem C89_safe : forall opens args n files h, wf h ->
  (forall p d fs r, Params_read opens args = PNext p -> p_cmd p = Some d -> files = Some fs -> subst_args fs (dc_argv d) r -> Z.of_nat (length r) + 1 < 2 ^ 32) ->
  exists h' q, main_mem opens args n files h = Done tt h' /\ forall x, x <> q -> blk h' x = blk h x.
Proof. intros opens args n files h W SZ. destruct (main_safe opens args n files h W SZ) as (h' & q & A & B & _). exists h', q. auto. Qed.
Print Assumptions C89_safe.

(** The claim is that nothing is left ([forall x, blk h' x = blk h x]).  It holds when no argument is "ARGS". *)
Theorem C89_partial : forall opens args n files h, wf h -> ~ In (str "ARGS") args ->
  (forall p d fs r, Params_read opens args = PNext p -> p_cmd p = Some d -> files = Some fs -> subst_args fs (dc_argv d) r -> Z.of_nat (length r) + 1 < 2 ^ 32) ->
  exists h', main_mem opens args n files h = Done tt h' /\ forall x, blk h' x = blk h x.
Proof.
  intros opens args n files h W N SZ. destruct (main_safe opens args n files h W SZ) as (h' & q & A & B & C). exists h'. split; [exact A|].
  intros x. destruct (Z.eq_dec x q) as [->|X]; auto.
Qed.
Print Assumptions C89_partial.

(** A file named ARGS and then "--": the stream of the file is never deleted, since the text after "--" takes
    its place among the inputs. *)
Theorem C89_refuted : exists opens args n h h' q, wf h /\ main_mem opens args n None h = Done tt h' /\ blk h q = None /\ blk h' q <> None.
Proof.
  exists (fun _ => true), [str "ARGS"; str "--"; str "1"], 1%nat, empty_heap. do 2 eexists. split; [intros q _; reflexivity|].
  split; [vm_compute; reflexivity|]. split; [reflexivity|]. instantiate (1 := 1). discriminate.
Qed.
Print Assumptions C89_refuted.

(** What the program that compares is given: the arguments of --diff-cmd with the files in the place
    of each {}, in memory. *)
Theorem C89_argv : forall h argv files r, wf h -> no_nul files -> no_nul argv -> subst_args files argv r -> Z.of_nat (length r) + 1 < 2 ^ 32 ->
  exists av h', mbind (new_ptrs 1 (Some None)) (fun d => computeArgv_mem d argv files) h = Done av h' /\ arguments_at h' av r.
Proof. exact run_ok. Qed.
Print Assumptions C89_argv.

Definition args89 : list bytes := map str ["--diff-cmd"; "diff"; "-u"; "{}"; ";"; "a.json"; "--diff"; "b.json"; "--"; "[1,"; "2]"]%string.
Definition files89 : list bytes := map str ["/tmp/x1"; "/tmp/x2"; "/tmp/x3"]%string.
Definition live89 (h : heap) (n : nat) : list Z := filter (fun q => match blk h q with Some _ => true | None => false end) (map Z.of_nat (seq 0 n)).

(** How far memory was taken and what lives in it. *)
Definition after89 {A} (r : mres A) : option (Z * list Z) := match r with Done _ h => Some (nxt h, live89 h 100) | _ => None end.

(** Two files, a text and a command that was run: blocks are made, none is left. *)
Example C89_example : wf empty_heap /\ ~ In (str "ARGS") args89 /\
  match Params_read (fun _ => true) args89 with
  | PNext p => length (p_inputs p) = 3%nat /\ option_map dc_argv (p_cmd p) = Some (map str ["diff"; "-u"; "{}"]%string)
  | _ => False
  end /\
  after89 (args_mem (fun _ => true) params0 (mkPmem [] None None) args89 empty_heap) = Some (5, [0; 2; 3; 4]) /\
  after89 (main_mem (fun _ => true) args89 3 (Some files89) empty_heap) = Some (50, []).
Proof.
  split; [intros q _; reflexivity|]. split. { intros X. apply in_map_iff in X. destruct X as (x & E & X). repeat destruct X as [<-|X]; try discriminate. destruct X. }
  split; [vm_compute; split; reflexivity|]. split; vm_compute; reflexivity.
Qed.
(** A file given twice (an error), with a command that was never run. *)
Example C89_error_example : let args := map str ["a"; "--diff-cmd"; "x"; ";"; "a"]%string in
  Params_read (fun _ => true) args = PError (ESameFile (str "a")) /\
  after89 (main_mem (fun _ => true) args 0 None empty_heap) = Some (5, []).
Proof. cbn zeta. split; vm_compute; reflexivity. Qed.
Example C89_argv_example : no_nul files89 /\ subst_args files89 (map str ["diff"; "-u"; "{}"]%string) (map str ["diff"; "-u"; "/tmp/x1"; "/tmp/x2"; "/tmp/x3"]%string) /\
  match mbind (new_ptrs 1 (Some None)) (fun d => computeArgv_mem d (map str ["diff"; "-u"; "{}"]%string) files89) empty_heap with
  | Done av h' => blk h' av = Some (BPtrs [Some (Some 9); Some (Some 15); Some (Some 19); Some (Some 28); Some (Some 37); Some None]) /\
                  blk h' 15 = Some (BInts [Some 45; Some 117; Some 0])
  | _ => False
  end.
Proof.
  split. { repeat constructor; intros X; repeat destruct X as [X|X]; try discriminate X; destruct X. }
  split. { cbn [map]. apply SA_other; [discriminate|]. apply SA_other; [discriminate|]. apply (SA_files files89 [] []). constructor. }
  vm_compute. split; reflexivity.
Qed.

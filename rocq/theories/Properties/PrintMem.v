(** Strings made while printing: C96. *)
From Verif Require Import Spec.PrintMemSpec.
From Verif Require Proofs.PrintMemProofs.
From Coq Require Import Lia.
Open Scope Z_scope.

(** C96: printing reads no string that was destroyed, and destroys once every
    string it makes.  False: writeContainer reads the brackets through a pointer
    into a temporary that is gone.  On every array or object, with and without
    --compress; and what is written then depends on what is found there. *)
Theorem C96_refuted : exists t, (forall ghost c, ~ sound (display_mem ghost c t)) /\
  exists ghost ghost', wrote (display_mem ghost true t) <> wrote (display_mem ghost' true t).
Proof.
  exists (TArr [TPrim (PInt 1)]). split; [intros ghost c; unfold sound; destruct c; vm_compute; discriminate|].
  exists (fun _ s k => nth k s NUL), (fun _ _ _ => "?"%char). vm_compute. discriminate.
Qed.
Print Assumptions C96_refuted.

(** Twice for every container, never otherwise; every string is destroyed once. *)
Theorem C96_partial : forall ghost c t, let m := display_mem ghost c t in
  length (faults m) = (2 * containers t)%nat /\ (forall f, In f (faults m) -> exists i, f = ReadsDestroyed i) /\ all_destroyed m.
Proof.
  intros ghost c t. destruct (PrintMemProofs.display_does ghost c t) as (n & fs & w & -> & L & D & _). cbn. split; [exact L|]. split; [|reflexivity].
  intros f I. rewrite Forall_forall in D. specialize (D f I). destruct f as [i|i]; [exists i; reflexivity|destruct D].
Qed.
Print Assumptions C96_partial.

(** So printing is sound for scalars only. *)
Theorem C96_sound_partial : forall ghost c t, sound (display_mem ghost c t) <-> containers t = 0%nat.
Proof.
  intros ghost c t. destruct (PrintMemProofs.display_does ghost c t) as (n & fs & w & -> & L & _). unfold sound. cbn [faults].
  split; [intros ->; cbn [length] in L; lia|]. intros Z. rewrite Z in L. destruct fs; [reflexivity|discriminate L].
Qed.
Print Assumptions C96_sound_partial.

(** What is written is what Model/SimpleOutput.v says if the bytes of
    the temporary are still there, and for scalars whatever is there. *)
Theorem C96_output_partial : forall ghost c t, lasting ghost \/ containers t = 0%nat -> wrote (display_mem ghost c t) = display c t.
Proof. intros ghost c t H. destruct (PrintMemProofs.display_does ghost c t) as (n & fs & w & -> & _ & _ & W). exact (W H). Qed.
Print Assumptions C96_output_partial.

(** {"a": [1], "b": "x"}: four reads; as it is meant and with question marks for
    what is gone. *)
Example C96_example : let t := TObj [(str "a", TArr [TPrim (PInt 1)]); (str "b", TPrim (PStr (str "x")))] in
  let lasts := fun (_ : nat) (s : bytes) k => nth k s NUL in
  lasting lasts /\ containers t = 2%nat /\
  faults (display_mem lasts true t) = [ReadsDestroyed 1; ReadsDestroyed 6; ReadsDestroyed 6; ReadsDestroyed 1] /\
  wrote (display_mem lasts true t) = str "{""a"":[1],""b"":x}" /\
  wrote (display_mem (fun _ _ _ => "?"%char) true t) = str "?""a"":?1?,""b"":x?".
Proof. split; [intros i s k; reflexivity|]. repeat split; vm_compute; reflexivity. Qed.

(** Drawing again the two windows of a comparison: C98. *)
From Verif Require Import Spec.SplitPage Spec.LevelSpec.
From Verif Require Proofs.AgainBoth Proofs.SplitPress.
From Verif Require Import Properties.Screen Properties.Split Properties.Compare Properties.Level Properties.Both.
From Coq Require Import Lia.
Open Scope Z_scope.

(** C98 for a comparison: while it waits, drawing both windows again needs no second
    drawing and changes nothing. *)
Theorem C98_windows : forall f a b m len sc p, comparable a b m len f -> roomy_windows sc -> slen sc = len -> compares a b m sc p ->
  redraw_all (split_memory a b) sc (pcoll p) m (pwins p) = Done (true, pwins p).
Proof. intros f a b m len sc p OK G L. exact (AgainBoth.compares_again f a b m len sc OK G L p). Qed.
Print Assumptions C98_windows.

(** After any run without search keys and signals to stop, a change of size that
    leaves both windows their size (one column more, say) changes nothing of what
    follows. *)
Theorem C98_windows_same_size_partial : forall rx f a b m len w hh evs sc p w' hh' rest, comparable a b m len f -> room w hh -> rooms evs -> unsearched evs ->
  (forall e, In e evs -> e <> EvStop) -> split_run rx f len w hh a b evs = Done (Waits sc p) ->
  room w' hh' -> w' / 2 = sw sc -> hh' - 2 = sh sc ->
  split_run rx f len w hh a b (evs ++ EvSize w' hh' :: rest) = split_run rx f len w hh a b (evs ++ rest).
Proof. exact AgainBoth.split_run_same_size. Qed.
Print Assumptions C98_windows_same_size_partial.

(** Down to "hello", which scrolls by a line, and up again: the last drawing lowered
    scrollTop of both windows. *)
Definition walk : list event := map key ["J"; "J"; "J"; "K"; "K"; "K"]%string.
Definition scrolls (o : out ending) : option (list Z * list (option Z)) := match o with Done (Waits _ p) => Some (map wscroll (pwins p), map wsel (pwins p)) | _ => None end.
Definition walked (evs : list event) : out ending := split_run no_regex fuel width_of 40 7 (hello 1 "hello") (hello 21 "hallo") evs.
Example C98_windows_example : comparable (hello 1 "hello") (hello 21 "hallo") hello_mat width_of fuel /\ room 40 7 /\ room 41 7 /\ rooms walk /\ unsearched walk /\
  (forall e, In e walk -> e <> EvStop) /\
  map (fun n => scrolls (walked (firstn n walk))) [3; 5; 6]%nat = [Some ([1; 1], [Some 5; Some 25]); Some ([1; 1], [Some 2; Some 22]); Some ([0; 0], [Some 1; Some 21])] /\
  exists sc p, walked walk = Done (Waits sc p) /\ 41 / 2 = sw sc /\ 7 - 2 = sh sc /\
    roomy_windows sc /\ slen sc = width_of /\ compares (hello 1 "hello") (hello 21 "hallo") hello_mat sc p.
Proof.
  split; [exact hello_comparable|]. split; [split; split; vm_compute; congruence|]. split; [split; split; vm_compute; congruence|].
  assert (R : rooms walk) by (intros w hh Q; repeat (destruct Q as [Q|Q]; [discriminate Q|]); destruct Q).
  assert (U : unsearched walk) by (intros k q Q; repeat (destruct Q as [Q|Q]; [injection Q as <- _; split; vm_compute; discriminate|]); destruct Q).
  split; [exact R|]. split; [exact U|]. split; [intros e Q; repeat (destruct Q as [<-|Q]; [discriminate|]); destruct Q|].
  split; [vm_compute; reflexivity|].
  assert (Z : match walked walk with Done (Waits sc _) => (sw sc, sh sc) | _ => (0, 0) end = (20, 5)) by (vm_compute; reflexivity).
  assert (X : forall sc p, walked walk = Done (Waits sc p) -> roomy_windows sc /\ slen sc = width_of /\ compares (hello 1 "hello") (hello 21 "hallo") hello_mat sc p)
    by (unfold walked, walk; intros sc p E; refine (typed_compares no_regex fuel (hello 1 "hello") (hello 21 "hallo") hello_mat width_of 40 7 _ sc p hello_comparable _ _ E);
        [split; split; vm_compute; congruence|reflexivity]).
  revert Z X. generalize (walked walk). intros [[sc p|sc p]|] Z X; try discriminate Z. injection Z as Z1 Z2.
  exists sc, p. split; [reflexivity|]. rewrite Z1, Z2. split; [reflexivity|]. split; [reflexivity|]. apply X. reflexivity.
Qed.

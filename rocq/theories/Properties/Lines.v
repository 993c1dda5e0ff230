(** The top line and the bottom line: C74, C75. *)
From Verif Require Import Model.Lines Spec.LineSpec Spec.ViewSpec Spec.ViewerSpec.
From Verif Require Proofs.LineProofs Proofs.DocumentProofs.
From Verif Require Import Properties.View Properties.Screen.
From Coq Require Import Lia.
Open Scope Z_scope.

(** C74, full statement: writing a text on the top or the bottom line shows its
    beginning and blanks up to the end of the line, and changes no other line:
    [forall w h name g, 0 < w < 2 ^ 31 -> 0 < h -> line_shows w 0 name g
    (writeTopLine w h name g)] and the statements below.  False of the top line of
    the view of one document when the name is as long as the line or longer
    (C74_refuted); then a blank is printed on the next line (C74_top_long). *)
Theorem C74_bottom : forall w h text g, 0 < w < 2 ^ 31 -> 0 < h -> Z.of_nat (length text) < 2 ^ 31 ->
  line_shows w (h - 1) text g (writeBottomLine w h text g).
Proof. exact LineProofs.bottom_line. Qed.
Print Assumptions C74_bottom.

Theorem C74_split_bottom : forall w text g, 0 < w < 2 ^ 31 -> Z.of_nat (length text) < 2 ^ 31 ->
  line_shows w 0 text g (split_writeBottomLine w text g).
Proof. exact LineProofs.split_bottom_line. Qed.
Print Assumptions C74_split_bottom.

Theorem C74_split_top : forall w h name g, 2 < w < 2 ^ 31 -> 0 < h ->
  line_shows (w - 2) 0 name g (split_writeTopLine w h name g).
Proof. exact LineProofs.split_top_line. Qed.
Print Assumptions C74_split_top.

Theorem C74_top_partial : forall w h name g, 0 < w < 2 ^ 31 -> 0 < h -> Z.of_nat (length name) < w ->
  line_shows w 0 name g (writeTopLine w h name g).
Proof. exact LineProofs.top_line. Qed.
Print Assumptions C74_top_partial.

Theorem C74_top_long : forall w h name g, 0 < w < 2 ^ 31 -> 1 < h -> w <= Z.of_nat (length name) ->
  line_shows w 0 name (fun line col => if (line =? 1) && (col =? 0) then " "%char else g line col) (writeTopLine w h name g).
Proof. exact LineProofs.top_line_long. Qed.
Print Assumptions C74_top_long.

(** A screen full of dots; what its lines of [w] columns are. *)
Definition dots : cells := fun _ _ => "."%char.
Definition lines_on (w h : Z) (g : cells) : list bytes :=
  map (fun y => map (fun x => g (Z.of_nat y) (Z.of_nat x)) (seq 0 (Z.to_nat w))) (seq 0 (Z.to_nat h)).
Example C74_example :
  lines_on 8 3 (writeTopLine 8 3 (str "a.json") dots) = [str "a.json  "; str "........"; str "........"] /\
  lines_on 8 3 (writeBottomLine 8 3 (str "/ab") dots) = [str "........"; str "........"; str "/ab     "] /\
  lines_on 8 3 (writeBottomLine 8 3 (str "Pattern not found") dots) = [str "........"; str "........"; str "Pattern "] /\
  lines_on 6 2 (split_writeTopLine 8 2 (str "a.json") dots) = [str "a.json"; str "......"] /\
  lines_on 6 2 (split_writeTopLine 8 2 (str "longer.json") dots) = [str "longer"; str "......"] /\
  lines_on 6 2 (split_writeTopLine 8 2 (str "a") dots) = [str "a     "; str "......"] /\
  lines_on 4 1 (split_writeBottomLine 4 (str "/") dots) = [str "/   "].
Proof. vm_compute. repeat split. Qed.
Example C74_top_long_example : lines_on 4 3 (writeTopLine 4 3 (str "a.json") dots) = [str "a.js"; str " ..."; str "...."].
Proof. vm_compute. reflexivity. Qed.

Theorem C74_refuted : exists w h name g, 0 < w < 2 ^ 31 /\ 0 < h /\ ~ line_shows w 0 name g (writeTopLine w h name g).
Proof.
  exists 6, 3, (str "a.json"), dots. split; [lia|]. split; [lia|]. intros (_ & H). specialize (H 1 0 ltac:(lia)). vm_compute in H. discriminate H.
Qed.
Print Assumptions C74_refuted.

(** C75, the view of one document: a message on the bottom line is true as long as
    it is there, and the text typed at the prompt never stays; the message is
    written when the next result is asked for and there is none, or none further
    down. *)
Theorem C75_same : forall rx root sc v evs, fst (run_line rx root sc v evs) = run rx root sc v evs.
Proof. intros rx root sc v evs. exact (LineProofs.run_line_run rx root evs sc v). Qed.
Print Assumptions C75_same.

Theorem C75_true : forall rx root sc v evs sc' v' stop b, run_line rx root sc v evs = (Waiting sc' v' stop, b) -> truthful v' b.
Proof. intros rx root. exact (LineProofs.run_line_true rx root). Qed.
Print Assumptions C75_true.

Theorem C75_next : forall rx root sc v i b p sc' v' stop b', in_memory root ->
  vsel v = Some i -> In i (rows [] root) -> incl (vres v) (map fst (items (nid root) root)) ->
  wait_line rx root sc v false b [EvKey (str "N") p] = (Waiting sc' v' stop, b') ->
  says_of (vres v) (rows_after i (rows [] root)) b'.
Proof. intros rx root sc v i b p sc' v' stop b' M. exact (LineProofs.press_next rx root M sc v i b p sc' v' stop b'). Qed.
Print Assumptions C75_next.

Theorem C75_search : forall rx root sc v i b p sc' v' stop b', in_memory root -> vsel v = Some i -> In i (rows [] root) ->
  wait_line rx root sc v false b [EvKey (str "/") p] = (Waiting sc' v' stop, b') ->
  match p with
  | None => b' = Blank
  | Some q =>
      if isEmpty q then b' = Blank
      else says_of (map fst (filter (fun x => match snd x with
                                      | Scalar a => match_ rx q (tree_string (TPrim a)) (EPrim a)
                                      | Key k => match_ rx q k SearchPattern.EEntry
                                      end) (items (nid root) root))) (rows_after i (rows [] root)) b'
  end.
Proof. intros rx root sc v i b p sc' v' stop b' M. exact (LineProofs.press_search rx root M sc v i b p sc' v' stop b'). Qed.
Print Assumptions C75_search.

Theorem C75_other : forall rx root sc v stop b e sc' v' stop' b', (forall p, e <> EvKey (str "/") p) -> (forall p, e <> EvKey (str "N") p) ->
  wait_line rx root sc v stop b [e] = (Waiting sc' v' stop', b') -> b' = Blank \/ b' = b /\ v' = v.
Proof. intros rx root. exact (LineProofs.press_other rx root). Qed.
Print Assumptions C75_other.

(** Rows 5, 8 and 10 have an x, none has a y. *)
Definition line_of (r : final * bottom) : option (option Z * bottom) := option_map (fun v => (vsel v, snd r)) (view_of (fst r)).
Example C75_example :
  map (fun evs => line_of (run_line no_regex doc (win 20 6) view0 evs))
    [[]; [look "x"]; [look "x"; key "N"; key "N"]; [look "x"; key "N"; key "N"; key "N"]; [look "x"; key "N"; key "N"; key "N"; key "Z"];
     [look "x"; key "N"; key "N"; key "N"; key "J"]; [look "y"]; [look "y"; key "K"]; [key "N"]; [key "N"; EvSize 30 8]; [look "y"; key "/"]] =
  map Some [(Some 1, Blank); (Some 5, Blank); (Some 10, Blank); (Some 5, Says hit_bottom); (Some 5, Says hit_bottom);
     (Some 6, Blank); (Some 1, Says not_found); (Some 1, Blank); (Some 1, Says not_found); (Some 1, Blank); (Some 1, Blank)] /\
  rows [] doc = [1; 2; 4; 5; 6; 8; 10].
Proof. vm_compute. split; reflexivity. Qed.

(** C75, the comparison: the same.  A message is there until the windows are drawn
    again: their frames hide the line (C80_hidden). *)
Theorem C75_split_same : forall rx fuel len w hh a b evs e,
  split_run rx fuel len w hh a b evs = Done e <-> exists l, split_run_line rx fuel len w hh a b evs = Done (e, l).
Proof. exact LineProofs.split_run_line_run. Qed.
Print Assumptions C75_split_same.

Theorem C75_split_true : forall rx fuel len w hh a b evs sc p l,
  split_run_line rx fuel len w hh a b evs = Done (Waits sc p, l) -> l = Blank \/ truthful_now p l.
Proof. exact LineProofs.split_run_true. Qed.
Print Assumptions C75_split_true.

Theorem C75_split_other : forall h dm rx fuel sc p stop b e sc' p' b', (forall q, e <> EvKey (str "/") q) -> (forall q, e <> EvKey (str "N") q) ->
  split_wait_line h dm rx fuel sc p stop b [e] = Done (Waits sc' p', b') -> b' = Blank \/ b' = b /\ p' = p.
Proof. exact LineProofs.split_other. Qed.
Print Assumptions C75_split_other.

(** The results of both documents count; those of the other one never follow. *)
Theorem C75_split_next : forall h dm rx fuel sc p b q sc' p' b' w i,
  0 <= pact p -> nth_error (pwins p) (Z.to_nat (pact p)) = Some w -> in_memory (wroot w) -> wsel w = Some i -> wlast w = Some i -> In i (rows [] (wroot w)) ->
  (forall r, In r (wres w) -> In r (map fst (items (nid (wroot w)) (wroot w))) \/ ~ In r (ids (wroot w))) ->
  split_wait_line h dm rx fuel sc p false b [EvKey (str "N") q] = Done (Waits sc' p', b') -> says_of (wres w) (rows_after i (rows [] (wroot w))) b'.
Proof. exact LineProofs.split_press_next. Qed.
Print Assumptions C75_split_next.

Theorem C75_split_search : forall rx dm fuel a b sc p w0 w1 l q sc' p' l' w i, in_memory a -> in_memory b -> NoDup (ids a ++ ids b) ->
  pwins p = [w0; w1] -> wroot w0 = a -> wroot w1 = b ->
  nth_error (pwins p) (Z.to_nat (pact p)) = Some w -> 0 <= pact p -> wsel w = Some i -> wlast w = Some i -> In i (rows [] (wroot w)) ->
  split_wait_line (split_memory a b) dm rx fuel sc p false l [EvKey (str "/") q] = Done (Waits sc' p', l') ->
  match q with
  | None => l' = Blank
  | Some q => if isEmpty q then l' = Blank else says_of (matching rx q a ++ matching rx q b) (rows_after i (rows [] (wroot w))) l'
  end.
Proof. exact LineProofs.split_press_search. Qed.
Print Assumptions C75_split_search.

(** ["x", "y", "x"] beside itself: the search selects the first x, n the second, n
    again the first, with the message; Down selects y and the message goes. *)
Definition here : node := document 1 (TArr [txt "x"; txt "y"; txt "x"]).
Definition there : node := document 21 (TArr [txt "x"; txt "y"; txt "x"]).
Definition split_line_of (o : out (ending * bottom)) : option (list (option Z) * list (list Z) * bottom) :=
  match o with Done (Waits _ p, l) => Some (map wsel (pwins p), map wres (pwins p), l) | _ => None end.
Definition again (evs : list event) : out (ending * bottom) := split_run_line no_regex (Z.to_nat 4000) (fun _ => 3) 80 20 here there evs.
Example C75_split_example :
  map (fun evs => split_line_of (again evs))
    [[]; [look "x"]; [look "x"; key "N"]; [look "x"; key "N"; key "N"]; [look "x"; key "N"; key "N"; key "J"]; [look "z"]; [look "z"; key "J"]] =
  map Some [([Some 1; Some 21], [[]; []], Blank); ([Some 2; Some 22], [[2; 4; 22; 24]; []], Blank); ([Some 4; Some 24], [[2; 4; 22; 24]; []], Blank);
    ([Some 2; Some 22], [[2; 4; 22; 24]; []], Says hit_bottom); ([Some 3; Some 23], [[2; 4; 22; 24]; []], Blank);
    ([Some 1; Some 21], [[]; []], Says not_found); ([Some 2; Some 22], [[]; []], Blank)].
Proof. vm_compute. reflexivity. Qed.
Example C75_split_search_example :
  matching no_regex (SearchPattern 0 (str "x")) here = [2; 4] /\ matching no_regex (SearchPattern 0 (str "x")) there = [22; 24] /\
  rows_after 2 (rows [] here) = [3; 4] /\ says_of [2; 4; 22; 24] [3; 4] Blank /\ rows_after 4 (rows [] here) = [] /\ says_of [2; 4; 22; 24] [] (Says hit_bottom).
Proof.
  repeat split; try (vm_compute; reflexivity); try (intros (r & _ & [])).
  intros H. exfalso. apply (H 4); cbn; auto.
Qed.

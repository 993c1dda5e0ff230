(** Colours: proofs. *)
From Verif Require Import Spec.ColoursSpec Spec.SplitSpec.
From Verif Require Import Proofs.PageProofs Proofs.LookProofs.
From Coq Require Import Lia.
Open Scope Z_scope.

Lemma in_res h res : existsb (Z.eqb h) res = true <-> In h res.
Proof.
  rewrite existsb_exists. split; [intros (x & I & E); apply Z.eqb_eq in E; subst; exact I|intros I; exists h; split; [exact I|apply Z.eqb_refl]].
Qed.

Lemma one_right sel res p : looks_right sel res p (hd (0, 0, []) (see_all true [shown_as true sel res p])).
Proof.
  unfold looks_right, shown_as. cbn [see_all map hd fst snd cline ccol cpieces]. split; [reflexivity|split; [reflexivity|]].
  induction (texts (snd p)) as [|t l IH]; cbn [map]; constructor; [|exact IH].
  unfold see, marked_found. cbn [seen_text seen_reverse seen_colours ptext preverse ppair]. split; [reflexivity|].
  split. { unfold is_selected. destruct sel as [i|]; [|split; discriminate]. rewrite Z.eqb_eq. split; [intros ->; reflexivity|intros [= ->]; reflexivity]. }
  assert (R := in_res (holder (snd p)) res). destruct (existsb (Z.eqb (holder (snd p))) res).
  - split; [|intros N; exfalso; apply N, R; reflexivity]. cbn. split; [intros _; apply R; reflexivity|reflexivity].
  - split; [|intros _; destruct (fst t); reflexivity]. split; [|intros I; apply R in I; discriminate I]. destruct (fst t); discriminate.
Qed.

Lemma all_right sel res l : Forall2 (looks_right sel res) l (see_all true (map (shown_as true sel res) l)).
Proof. induction l as [|p l IH]; cbn [map see_all]; constructor; [exact (one_right sel res p)|exact IH]. Qed.

Lemma right_screen root sc v0 v : in_memory root -> roomy root sc -> 2 <= sh sc < 2 ^ 32 -> on_row root v0 -> 0 <= vscroll v0 ->
  redraw root sc v0 = Some (true, v) ->
  exists cells above shown below, painted root true sc v0 = Some cells /\
    page (slen sc) (vcoll v) (nid root) 0 root = above ++ shown ++ below /\ Z.of_nat (length above) = vscroll v /\
    Forall2 (looks_right (vsel v) (vres v)) (stacked (sw sc) 1 shown) (see_all true cells).
Proof.
  intros M R H O T E. destruct (screen_page root sc true v0 v M R H O T E) as (above & shown & below & P & L & PA & _).
  eexists. exists above, shown, below. split; [exact PA|]. split; [exact P|]. split; [exact L|]. apply all_right.
Qed.

(** Without colours. *)
Lemma see_plain i : colours_of false i = None.
Proof. destruct i; reflexivity. Qed.

Lemma same_plain sel res res' l : see_all false (map (shown_as false sel res) l) = see_all false (map (shown_as false sel res') l).
Proof.
  induction l as [|p l IH]; cbn [map see_all]; [reflexivity|]. f_equal; [|exact IH]. unfold shown_as. cbn [cline ccol cpieces]. f_equal.
  rewrite !map_map. apply map_ext. intros t. unfold see. cbn [ptext preverse ppair]. rewrite !see_plain. reflexivity.
Qed.

Lemma stacked_last w s l : forall y z, In (y + total_lines w s, z) (stacked w y (s ++ z :: l)).
Proof.
  induction s as [|a s IH]; intros y z; cbn [app stacked total_lines fold_right].
  - left. f_equal. lia.
  - right. specialize (IH (y + lines_of w a) z). unfold total_lines in IH. replace (y + (lines_of w a + _)) with (y + lines_of w a + fold_right (fun s n => lines_of w s + n) 0 s) by lia. exact IH.
Qed.

Definition cut (w hh : Z) (shown below : list strip) : Prop :=
  Forall (fun p => 1 <= fst p <= hh - 1) (stacked w 1 shown) /\ (below = [] \/ hh - 1 <= total_lines w shown).

Lemma cut_more w hh s l b b' : s ++ b = (s ++ l) ++ b' -> cut w hh s b -> cut w hh (s ++ l) b' -> l = [].
Proof.
  intros E [_ F] [A _]. rewrite <- app_assoc in E. apply app_inv_head in E. destruct l as [|z l]; [reflexivity|]. exfalso.
  destruct F as [F|F]; [rewrite F in E; discriminate E|]. rewrite Forall_forall in A. specialize (A _ (stacked_last w s l 1 z)). cbn [fst] in A. lia.
Qed.

Lemma cut_same w hh s s' b b' : s ++ b = s' ++ b' -> cut w hh s b -> cut w hh s' b' -> s = s'.
Proof.
  intros E C C'.
  assert (D : (exists l, s' = s ++ l) \/ (exists l, s = s' ++ l)).
  { clear C C'. revert s' E. induction s as [|x s IH]; intros s' E; [left; exists s'; reflexivity|].
    destruct s' as [|y s']; [right; exists (x :: s); reflexivity|]. cbn [app] in E. injection E as E1 E2. subst y.
    destruct (IH s' E2) as [[l ->]|[l ->]]; [left|right]; exists l; reflexivity. }
  destruct D as [[l D]|[l D]]; subst.
  - rewrite (cut_more w hh s l b b' E C C'), app_nil_r. reflexivity.
  - rewrite (cut_more w hh s' l b' b (eq_sym E) C' C), app_nil_r. reflexivity.
Qed.

Lemma plain_screen root sc v0 w0 v w : in_memory root -> roomy root sc -> 2 <= sh sc < 2 ^ 32 ->
  on_row root v0 -> on_row root w0 -> 0 <= vscroll v0 -> 0 <= vscroll w0 -> redraw root sc v0 = Some (true, v) -> redraw root sc w0 = Some (true, w) ->
  vcoll v = vcoll w -> vsel v = vsel w -> vscroll v = vscroll w ->
  option_map (see_all false) (painted root false sc v0) = option_map (see_all false) (painted root false sc w0).
Proof.
  intros M R H O O' T T' E E' EC ES EV.
  destruct (screen_page root sc false v0 v M R H O T E) as (above & shown & below & P & L & PA & _ & F & B).
  destruct (screen_page root sc false w0 w M R H O' T' E') as (above' & shown' & below' & P' & L' & PA' & _ & F' & B').
  rewrite PA, PA'. cbn [option_map]. rewrite EC in P. rewrite P in P'.
  assert (LA : length above = length above') by lia.
  assert (A : above = above' /\ shown ++ below = shown' ++ below').
  { clear - P' LA. revert above' LA P'. induction above as [|x l IH]; intros [|y l'] LA P'; try discriminate LA; [split; [reflexivity|exact P']|].
    cbn [app] in P'. injection P' as -> P'. injection LA as LA. destruct (IH l' LA P') as [-> Q]. split; [reflexivity|exact Q]. }
  destruct A as [_ A]. rewrite (cut_same (sw sc) (sh sc) _ _ _ _ A (conj F B) (conj F' B')). rewrite ES. f_equal. apply same_plain.
Qed.

(** Legible. *)
Lemma shown_legible colours sel res p : Forall legible (map (see colours) (cpieces (shown_as colours sel res p))).
Proof.
  apply Forall_map. unfold shown_as. cbn [cpieces]. apply Forall_map, Forall_forall. intros t _. unfold legible, see. cbn [seen_colours ppair].
  destruct colours; [|rewrite see_plain; exact I]. unfold pair_of. destruct (existsb _ res); [cbn; discriminate|]. destruct (fst t); cbn; try discriminate; exact I.
Qed.

(** What is seen tells what is painted, as far as strips of pages go. *)
Definition kept (t : kind * bytes) : Prop :=
  match fst t with Truth => snd t = str "true" \/ snd t = str "false" | Nothing => snd t = str "null" | Name => False | _ => True end.
Definition made (s : strip) : Prop :=
  (exists t, texts s = [t] /\ kept t) \/ (exists k c l, texts s = (Name, k) :: c :: l /\ kept c /\ Forall kept l).
Lemma kept_scalar p : kept (scalar_text p).
Proof. destruct p; unfold kept, scalar_text; cbn [fst snd]; try exact I; try reflexivity. match goal with |- context [PBool ?b] => destruct b; [left|right]; reflexivity end. Qed.
Lemma made_page sc coll n : forall r x, Forall made (page (slen sc) coll r x n).
Proof.
  assert (One : forall s t, texts s = [t] -> kept t -> made s) by (intros s t E K; left; exists t; split; assumption).
  assert (Two : forall s k l, texts s = (Name, k) :: mark ": " :: l -> Forall kept l -> made s) by (intros s k l E K; right; exists k, (mark ": "), l; repeat split; assumption).
  induction n as [n IH] using node_kids_ind. intros r x. rewrite page_children.
  assert (Q : Forall made (flat_map (page_elem sc coll (x + 4)) (children n))).
  { apply Forall_flat_map, Forall_forall. intros e M. specialize (IH e M). destruct e as [v|m k v]; cbn [page_elem value_of] in *; [apply IH|].
    destruct (is_container v && _); [constructor; [eapply Two; [reflexivity|destruct v; repeat constructor]|constructor]|].
    destruct v as [m' p|m' l|m' l]; [constructor; [eapply Two; [reflexivity|constructor; [apply kept_scalar|constructor]]|constructor]| |];
      (match goal with |- context [children ?v] => destruct (children v) end; [constructor; [eapply Two; [reflexivity|repeat constructor]|constructor]|]);
      (constructor; [eapply Two; [reflexivity|constructor]|apply IH]). }
  destruct n as [m p|m l|m l]; [constructor; [eapply One; [reflexivity|apply kept_scalar]|constructor]| |];
    (destruct (hidden coll _); [constructor; [eapply One; [reflexivity|exact I]|constructor]|]); (constructor; [eapply One; [reflexivity|exact I]|]);
    apply Forall_app; (split; [exact Q|]); (constructor; [eapply One; [reflexivity|exact I]|constructor]).
Qed.

Definition look (t : kind * bytes) : bytes * option (colour * colour) := (snd t, plain_colours (fst t)).
Lemma look_kept t t' : kept t -> kept t' -> look t = look t' -> t = t'.
Proof.
  destruct t as [k b], t' as [k' b']. unfold kept, look. cbn [fst snd]. intros K K' [= -> E].
  destruct k, k'; try discriminate E; try contradiction; try reflexivity;
    (destruct K as [->| ->] || rewrite K in K'); try (destruct K' as [K'|K']); discriminate.
Qed.
Lemma look_all l : forall l', Forall kept l -> Forall kept l' -> map look l = map look l' -> l = l'.
Proof.
  induction l as [|t l IH]; intros [|t' l'] K K' E; try discriminate E; [reflexivity|]. cbn [map] in E. injection E as E1 E2 E3.
  inversion_clear K. inversion_clear K'. f_equal; [apply look_kept; [assumption..|unfold look; congruence]|apply IH; assumption].
Qed.
Lemma look_made s s' : made s -> made s' -> map look (texts s) = map look (texts s') -> texts s = texts s'.
Proof.
  intros [(t & -> & K)|(k & c & l & -> & K & L)] [(t' & -> & K')|(k' & c' & l' & -> & K' & L')] E; try discriminate E.
  - apply look_all; [repeat constructor; assumption..|exact E].
  - assert (E1 : k = k') by exact (f_equal (fun l => fst (hd (k, None) l)) E). assert (E2 : map look (c :: l) = map look (c' :: l')) by exact (f_equal (@tl _) E). rewrite E1. f_equal. apply look_all; [constructor; assumption..|]. exact E2.
Qed.

Lemma seen_one sel y s : see_all true [shown_as true sel [] (y, s)] = [(y, column s, map (fun t => mkSeen (fst (look t)) (is_selected sel s) (snd (look t))) (texts s))].
Proof.
  unfold see_all, shown_as. cbn [map cline ccol cpieces fst snd]. repeat f_equal. rewrite map_map. apply map_ext. intros [k b]. unfold see, look. cbn [fst snd ptext preverse ppair existsb].
  destruct k; reflexivity.
Qed.

Lemma seen_shown sel sel' : forall l l', Forall (fun p => made (snd p)) l -> Forall (fun p => made (snd p)) l' ->
  see_all true (map (shown_as true sel []) l) = see_all true (map (shown_as true sel' []) l') -> map (shown_as true sel []) l = map (shown_as true sel' []) l'.
Proof.
  induction l as [|[y s] l IH]; intros [|[y' s'] l'] K K' E; try discriminate E; [reflexivity|].
  inversion_clear K as [|? ? K1 K2]. inversion_clear K' as [|? ? K1' K2']. cbn [snd] in *.
  assert (E1 : see_all true [shown_as true sel [] (y, s)] = see_all true [shown_as true sel' [] (y', s')]) by exact (f_equal (firstn 1) E).
  assert (E2 : see_all true (map (shown_as true sel []) l) = see_all true (map (shown_as true sel' []) l')) by exact (f_equal (@tl _) E).
  cbn [map]. f_equal; [|apply IH; assumption]. rewrite !seen_one in E1. injection E1 as EY EC ET. subst y'.
  assert (EL : map look (texts s) = map look (texts s')).
  { clear - ET. revert ET. generalize (texts s'). induction (texts s) as [|t l IH]; intros [|t' l'] E; try discriminate E; [reflexivity|]. cbn [map] in E |- *. injection E as E1 E2 E3 E4.
    rewrite (IH l' E4). f_equal. unfold look in *. cbn [fst snd] in *. congruence. }
  apply (look_made s s' K1 K1') in EL. unfold shown_as. cbn [fst snd]. rewrite EC. f_equal. rewrite <- EL in ET |- *.
  apply map_ext_in. intros t M. f_equal. clear - ET M. induction (texts s) as [|u l IH]; [destruct M|]. cbn [map] in ET. injection ET as E1 E2. exact E1.
Qed.

Lemma made_stacked w l : forall y, Forall made l -> Forall (fun p => made (snd p)) (stacked w y l).
Proof. induction l as [|s l IH]; intros y F; cbn [stacked]; [constructor|]. inversion_clear F. constructor; [assumption|apply IH; assumption]. Qed.

Lemma seen_apart a b sc v0 v w0 w : in_memory a -> in_memory b -> roomy a sc -> roomy b sc -> 2 <= sh sc < 2 ^ 32 ->
  on_row a v0 -> on_row b w0 -> 0 <= vscroll v0 -> 0 <= vscroll w0 ->
  redraw a sc v0 = Some (true, v) -> redraw b sc w0 = Some (true, w) ->
  vcoll v0 = [] -> vcoll w0 = [] -> vres v0 = [] -> vres w0 = [] -> vscroll v = 0 -> vscroll w = 0 ->
  total_lines (sw sc) (page (slen sc) [] (nid a) 0 a) < sh sc - 1 -> total_lines (sw sc) (page (slen sc) [] (nid b) 0 b) < sh sc - 1 ->
  option_map (see_all true) (painted a true sc v0) = option_map (see_all true) (painted b true sc w0) -> alike (erase a) (erase b).
Proof.
  intros MA MB RA RB HS OA OB TA TB DA DB CA CB SA SB VA VB FA FB E.
  apply (tells_apart a b sc v0 v w0 w); try assumption.
  destruct (screen_page a sc true v0 v MA RA HS OA TA DA) as (ab & sn & bl & P & _ & PA & _).
  destruct (screen_page b sc true w0 w MB RB HS OB TB DB) as (ab' & sn' & bl' & P' & _ & PA' & _).
  destruct (redraw_same a _ _ _ _ DA) as (_ & _ & E3). destruct (redraw_same b _ _ _ _ DB) as (_ & _ & E3').
  rewrite PA, PA' in E |- *. cbn [option_map] in E. injection E as E. f_equal. rewrite E3, SA in E |- *. rewrite E3', SB in E |- *.
  assert (K := made_page sc (vcoll v) a (nid a) 0). rewrite P in K. apply Forall_app in K. destruct K as [_ K]. apply Forall_app in K. destruct K as [K _].
  assert (K' := made_page sc (vcoll w) b (nid b) 0). rewrite P' in K'. apply Forall_app in K'. destruct K' as [_ K']. apply Forall_app in K'. destruct K' as [K' _].
  apply seen_shown; [apply made_stacked; assumption..|exact E].
Qed.

Lemma legible_screen root sc colours v0 v cells : in_memory root -> roomy root sc -> 2 <= sh sc < 2 ^ 32 -> on_row root v0 -> 0 <= vscroll v0 ->
  redraw root sc v0 = Some (true, v) -> painted root colours sc v0 = Some cells -> Forall (fun c => Forall legible (snd c)) (see_all colours cells).
Proof.
  intros M R H O T E PC. destruct (screen_page root sc colours v0 v M R H O T E) as (above & shown & below & _ & _ & PA & _). rewrite PA in PC. injection PC as <-.
  apply Forall_map, Forall_map, Forall_forall. intros p _. cbn [snd]. apply shown_legible.
Qed.

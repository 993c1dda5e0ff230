(** readObject, readArray and readNext (streamConsumer.cpp:38-135) a third time,
    with what they have made and deleted when an exception leaves them.

    consumeToken and the functions it calls (streamConsumer.cpp:137-367) make an
    element where they return it, at lines 152, 242, 250, 289, 297, 301 and 333,
    so they have made none when they throw.  The functions modelled here hold elements in plain pointers
    (lines 68-69, 94, 104, 106): nothing is deleted on the way of an exception. *)
From Verif Require Export Model.Memory.
Open Scope Z_scope.

(** How a reading ends other than by returning. *)
Inductive stop : Type := SThrow (x : exn) | SAbort (a : abort) | SUB (u : ub) | SFuel.

(** What a call answers, in which state, and what has been deleted; or what ended
    it, how many elements have been made since the stream was opened, and what
    has been deleted. *)
Inductive fin (A : Type) : Type :=
| Reads (a : A) (s : st) (freed : list Z)
| Stops (x : stop) (n : Z) (freed : list Z).
Arguments Reads {A}.
Arguments Stops {A}.

Definition F (A : Type) : Type := st -> list Z -> fin A.
Definition fret {A} (a : A) : F A := fun s fr => Reads a s fr.
Definition fbind {A B} (m : F A) (k : A -> F B) : F B := fun s fr =>
  match m s fr with
  | Reads a s' fr' => k a s' fr'
  | Stops x n fr' => Stops x n fr'
  end.
(** A function that makes nothing when it throws (streamConsumer.cpp:137-367). *)
Definition lift {A} (m : M A) : F A := fun s fr =>
  match m s with
  | Ok (a, s') => Reads a s' fr
  | Throw x => Stops (SThrow x) (nextid s) fr
  | Abort a => Stops (SAbort a) (nextid s) fr
  | UB u => Stops (SUB u) (nextid s) fr
  | OutOfFuel => Stops SFuel (nextid s) fr
  end.
(** [delete], of what has the identities [l] (jsonArray.cpp:12-16,
    jsonObject.cpp:15-19, jsonObjectEntry.cpp:15-18, streamConsumer.cpp:96). *)
Definition free (l : list Z) : F unit := fun s fr => Reads tt s (fr ++ l).

Declare Scope fin_scope.
Notation "x <== m ;; k" := (fbind m (fun x => k)) (at level 61, m at next level, right associativity) : fin_scope.
Open Scope fin_scope.

Section Failed.
  Variable e : env.
  Variable params : option cfg.

  (** streamConsumer.cpp:82-93: the entry of a repeated key is deleted. *)
  Definition open_object_fin (parent : option Z) (result : option objpart) (key : bytes) : F objpart :=
    r <== lift (open_object params parent result key) ;;
    _ <== free (match result with None => [] | Some (_, l) => erased key l end) ;;
    fret r.

  (** streamConsumer.cpp:38-58 *)
  Definition readNext_fin (ro ra : option Z -> F node) (parent : option Z) : F (option node) :=
    t <== lift (consumeToken e params parent) ;;
    match t with
    | TElem n => fret (Some n)
    | TTok b =>
        if beqb b (str "{") then x <== ro parent ;; fret (Some x)
        else if beqb b (str "[") then x <== ra parent ;; fret (Some x)
        else fret None
    end.

  (** streamConsumer.cpp:102-135 up to the loop. *)
  Definition readArray_fin (loop : option Z -> tok -> F node) (parent : option Z) : F node :=
    t <== lift (consumeToken e params parent) ;;
    match t with
    | TTok b => if beqb b (str "]")
                then i <== lift fresh ;; fret (NArr (mkMeta i parent) [])
                else loop parent t
    | TElem _ => loop parent t
    end.

  (** streamConsumer.cpp:66-100 and 111-133. *)
  Fixpoint object_fin (fuel : nat) (parent : option Z) (result : option objpart) : F node :=
    match fuel with
    | O => lift fuelM
    | S f =>
        t <== lift (consumeToken e params (result_id result)) ;;
        match t with
        | TTok b =>
            if beqb b (str "}") && match result with None => true | Some _ => false end
            then i <== lift fresh ;; fret (NObj (mkMeta i parent) [])
            else lift (throw NotAKey)
        | TElem (NPrim km (PStr key)) =>
            t2 <== lift (consumeToken e params parent) ;;
            if match t2 with TTok b => beqb b (str ":") | TElem _ => false end then
              r <== open_object_fin parent result key ;;
              child <== readNext_fin (fun p => object_fin f p None)
                          (readArray_fin (fun p t => array_fin f p None t))
                          (Some (mid (fst r))) ;;
              match child with
              | None => lift (ubM NullDeref)
              | Some v =>
                  i <== lift fresh ;;
                  let entry := (mkMeta i (Some (mid (fst r))), key, set_parent i v) in
                  let l := obj_push entry_key (sorts params) entry (snd r) in
                  _ <== free [mid km] ;;
                  t3 <== lift (consumeToken e params (Some (mid (fst r)))) ;;
                  match t3 with
                  | TTok b => if beqb b (str "}") then fret (NObj (fst r) l)
                              else object_fin f parent (Some (fst r, l))
                  | TElem _ => fret (NObj (fst r) l)
                  end
              end
            else lift (throw (Unexpected ":"))
        | TElem _ => lift (throw NotAKey)
        end
    end
  with array_fin (fuel : nat) (parent : option Z) (result : option (meta * list node)) (t : tok) : F node :=
    match fuel with
    | O => lift fuelM
    | S f =>
        child <== match t with
                  | TElem n => fret n
                  | TTok b =>
                      if beqb b (str "[") then readArray_fin (fun p t => array_fin f p None t) None
                      else if beqb b (str "{") then object_fin f None None
                      else lift (throw NotJson)
                  end ;;
        r <== match result with
              | Some r => fret r
              | None => i <== lift fresh ;; fret (mkMeta i parent, [])
              end ;;
        let l := snd r ++ [set_parent (mid (fst r)) child] in
        t2 <== lift (consumeToken e params (Some (mid (fst r)))) ;;
        match t2 with
        | TElem _ => lift (throw (Unexpected "]"))
        | TTok b =>
            if beqb b (str "]") then fret (NArr (fst r) l)
            else if negb (beqb b (str ",")) then lift (throw (Unexpected "]"))
            else
              t3 <== lift (consumeToken e params (Some (mid (fst r)))) ;;
              array_fin f parent (Some (fst r, l)) t3
        end
    end.

  (** streamConsumer.cpp:30-36 (read), first call. *)
  Definition read_fin (input : bytes) : fin (option node) :=
    readNext_fin (fun p => object_fin (S (S (length input))) p None)
      (readArray_fin (fun p t => array_fin (S (S (length input))) p None t)) None (init_st input) [].
End Failed.

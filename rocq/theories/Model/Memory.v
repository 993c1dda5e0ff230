(** What the reader deletes, and what it forgets: readObject, readArray and
    readNext (streamConsumer.cpp:38-135) once more, with an account of the
    elements they delete and of those no pointer leads to when they return.

    Every [new] of an element takes a fresh identity (Model/StreamConsumer.v:
    scalars, keys included, at streamConsumer.cpp:152-333; containers at lines
    76, 83, 110 and 120; entries at jsonObject.cpp:23 and 29), so that an element's
    identity stands for its memory.  Memory held by std::string, std::list and
    std::stringstream is the library's and is not counted.  A reading that ends
    with an exception is counted in Model/Failed.v. *)
From Verif Require Export Model.StreamConsumer Model.Diff.
Open Scope Z_scope.

(** Identities in the order the destructors free them: those of the children
    first (jsonArray.cpp:12-16, jsonObject.cpp:15-19), an entry's value before
    the entry (jsonObjectEntry.cpp:15-18); scalars own nothing
    (jsonPrimitive.cpp:12-22). *)
Fixpoint destroy (n : node) : list Z :=
  match n with
  | NPrim m _ => [mid m]
  | NArr m l => flat_map destroy l ++ [mid m]
  | NObj m l => flat_map (fun x => destroy (snd x) ++ [mid (fst (fst x))]) l ++ [mid m]
  end.

(** jsonObjectEntry.cpp:15-18. *)
Definition destroy_entry (x : meta * bytes * node) : list Z := destroy (snd x) ++ [mid (fst (fst x))].

(** jsonObject.cpp:47-55 (erase): what [delete *it] frees; [it] is the first
    entry with the key (jsonObject.cpp:35-45). *)
Fixpoint erased (key : bytes) (l : list (meta * bytes * node)) : list Z :=
  match l with
  | [] => []
  | x :: l' => if beqb (entry_key x) key then destroy_entry x else erased key l'
  end.

(** Account of a call: identities deleted, in order; identities of elements
    that nothing points to once it has returned. *)
Definition account : Type := list Z * list Z.
Definition nothing : account := ([], []).
Definition plus (a b : account) : account := (fst a ++ fst b, snd a ++ snd b).

Section Memory.
  Variable e : env.
  Variable params : option cfg.

  (** streamConsumer.cpp:82-93: the entry of a repeated key is deleted. *)
  Definition open_object_mem (parent : option Z) (result : option objpart) (key : bytes) : M (objpart * account) :=
    r <- open_object params parent result key ;;
    ret (r, match result with None => nothing | Some (_, l) => (erased key l, []) end).

  (** streamConsumer.cpp:38-58 *)
  Definition readNext_mem (ro ra : option Z -> M (node * account)) (parent : option Z) : M (option node * account) :=
    t <- consumeToken e params parent ;;
    match t with
    | TElem n => ret (Some n, nothing)
    | TTok b =>
        if beqb b (str "{") then x <- ro parent ;; ret (Some (fst x), snd x)
        else if beqb b (str "[") then x <- ra parent ;; ret (Some (fst x), snd x)
        else ret (None, nothing)
    end.

  (** streamConsumer.cpp:102-135 up to the loop. *)
  Definition readArray_mem (loop : option Z -> tok -> M (node * account)) (parent : option Z) : M (node * account) :=
    t <- consumeToken e params parent ;;
    match t with
    | TTok b => if beqb b (str "]")
                then i <- fresh ;; ret (NArr (mkMeta i parent) [], nothing)
                else loop parent t
    | TElem _ => loop parent t
    end.

  (** streamConsumer.cpp:66-100: [keyObj] is deleted at line 96 once its text is
      in the entry; line 97 points it to the next token, and when that is an
      element the loop ends without deleting it.  Lines 111-133 delete nothing
      and lose nothing. *)
  Fixpoint object_mem (fuel : nat) (parent : option Z) (result : option objpart) : M (node * account) :=
    match fuel with
    | O => fuelM
    | S f =>
        t <- consumeToken e params (result_id result) ;;
        match t with
        | TTok b =>
            if beqb b (str "}") && match result with None => true | Some _ => false end
            then i <- fresh ;; ret (NObj (mkMeta i parent) [], nothing)
            else throw NotAKey
        | TElem (NPrim km (PStr key)) =>
            t2 <- consumeToken e params parent ;;
            if match t2 with TTok b => beqb b (str ":") | TElem _ => false end then
              ra <- open_object_mem parent result key ;;
              let r := fst ra in
              child <- readNext_mem (fun p => object_mem f p None)
                         (readArray_mem (fun p t => array_mem f p None t))
                         (Some (mid (fst r))) ;;
              match fst child with
              | None => ubM NullDeref
              | Some v =>
                  i <- fresh ;;
                  let entry := (mkMeta i (Some (mid (fst r))), key, set_parent i v) in
                  let l := obj_push entry_key (sorts params) entry (snd r) in
                  let a := plus (plus (snd ra) (snd child)) ([mid km], []) in
                  t3 <- consumeToken e params (Some (mid (fst r))) ;;
                  match t3 with
                  | TTok b => if beqb b (str "}") then ret (NObj (fst r) l, a)
                              else x <- object_mem f parent (Some (fst r, l)) ;; ret (fst x, plus a (snd x))
                  | TElem k => ret (NObj (fst r) l, plus a ([], [nid k]))
                  end
              end
            else throw (Unexpected ":")
        | TElem _ => throw NotAKey
        end
    end
  with array_mem (fuel : nat) (parent : option Z) (result : option (meta * list node)) (t : tok)
    : M (node * account) :=
    match fuel with
    | O => fuelM
    | S f =>
        c <- match t with
             | TElem n => ret (n, nothing)
             | TTok b =>
                 if beqb b (str "[") then readArray_mem (fun p t => array_mem f p None t) None
                 else if beqb b (str "{") then object_mem f None None
                 else throw NotJson
             end ;;
        r <- match result with
             | Some r => ret r
             | None => i <- fresh ;; ret (mkMeta i parent, [])
             end ;;
        let l := snd r ++ [set_parent (mid (fst r)) (fst c)] in
        t2 <- consumeToken e params (Some (mid (fst r))) ;;
        match t2 with
        | TElem _ => throw (Unexpected "]")
        | TTok b =>
            if beqb b (str "]") then ret (NArr (fst r) l, snd c)
            else if negb (beqb b (str ",")) then throw (Unexpected "]")
            else
              t3 <- consumeToken e params (Some (mid (fst r))) ;;
              x <- array_mem f parent (Some (fst r, l)) t3 ;; ret (fst x, plus (snd c) (snd x))
        end
    end.

  (** streamConsumer.cpp:30-36 (read), first call. *)
  Definition read_mem (input : bytes) : res ((option node * account) * st) :=
    readNext_mem (fun p => object_mem (S (S (length input))) p None)
      (readArray_mem (fun p t => array_mem (S (S (length input))) p None t)) None (init_st input).
End Memory.

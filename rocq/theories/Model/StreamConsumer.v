(** Model of src/streamConsumer.cpp (class StreamConsumer), function by
    function.  What is deleted is in Memory.v and Failed.v. *)
From Verif Require Export Model.Json Model.LinearHistory Model.Unicode.
Open Scope Z_scope.

(** The three options the reader looks at (include/params.hh:21-40, AParams). *)
Record cfg : Type := mkCfg {
  strict : bool;        (* isStrict(): false with -W *)
  ignoreUnicode : bool; (* isIgnoringUnicode(): true with --ascii *)
  sortObjects : bool    (* sortObjects(): false with --keep-order *)
}.

(** Exception classes of include/jsonException.hh and jsonObject.hh. *)
Inductive ekind : Type :=
| NotAKey
| DoubleKey (k : bytes)
| Unexpected (expected : ascii)
| NotJson
| Format
| HexValue (c : ascii)
| Escaped (c : ascii).

(** A JsonException (or Warning): its class, its copy of the history and its
    offset (jsonException.hh:33-36).  The offset is given as the bytes of the
    input from there on; [None] is the -1 of a failed stream. *)
Record exn : Type := mkExn { ekind_of : ekind; ehist : hist; eoffset : option bytes }.

(** std exceptions that are not JsonException: nobody catches them, so
    std::terminate is called. *)
Inductive abort : Type := StdInvalidArgument | StdOutOfRange | StdRangeError.

(** Undefined behaviours. *)
Inductive ub : Type := NullDeref | OutOfBounds.

Inductive res (A : Type) : Type :=
| Ok (a : A)
| Throw (e : exn)
| Abort (a : abort)
| UB (u : ub)
| OutOfFuel.
Arguments Ok {A}.
Arguments Throw {A}.
Arguments Abort {A}.
Arguments UB {A}.
Arguments OutOfFuel {A}.

(** State of the reader: unread input, [stream.good()], history, warnings in
    order, next element identity. *)
Record st : Type := mkSt {
  inp : bytes;
  good : bool;
  his : hist;
  warns : list exn;
  nextid : Z
}.

Definition M (A : Type) : Type := st -> res (A * st).

Definition ret {A} (a : A) : M A := fun s => Ok (a, s).
Definition bind {A B} (m : M A) (k : A -> M B) : M B := fun s =>
  match m s with
  | Ok (a, s') => k a s'
  | Throw e => Throw e
  | Abort a => Abort a
  | UB u => UB u
  | OutOfFuel => OutOfFuel
  end.
Declare Scope monad_scope.
Notation "x <- m ;; k" := (bind m (fun x => k)) (at level 61, m at next level, right associativity) : monad_scope.
Notation "m ;;; k" := (bind m (fun _ => k)) (at level 61, right associativity) : monad_scope.
Open Scope monad_scope.

(** [stream.tellg()].  Simplification: the stream can be positioned (a pipe
    always answers -1); no accessor reads the offset. *)
Definition tell (s : st) : option bytes := if good s then Some (inp s) else None.

Definition throw {A} (k : ekind) : M A := fun s => Throw (mkExn k (his s) (tell s)).
Definition abortM {A} (a : abort) : M A := fun _ => Abort a.
Definition ubM {A} (u : ub) : M A := fun _ => UB u.
Definition fuelM {A} : M A := fun _ => OutOfFuel.

(** [warnings.push_back(Warning(...))]. *)
Definition warn (k : ekind) : M unit := fun s =>
  Ok (tt, mkSt (inp s) (good s) (his s) (warns s ++ [mkExn k (his s) (tell s)]) (nextid s)).

(** [stream.good()]. *)
Definition is_good : M bool := fun s => Ok (good s, s).

(** [char c = stream.get()]: at end of input sets eofbit and failbit and yields
    [(char) EOF]. *)
Definition sget : M ascii := fun s =>
  match inp s with
  | c :: t => if good s then Ok (c, mkSt t (good s) (his s) (warns s) (nextid s)) else Ok (EOFCHAR, s)
  | [] => Ok (EOFCHAR, mkSt [] false (his s) (warns s) (nextid s))
  end.

(** [stream.unget()] after [c] was read: no effect on a failed stream (failbit
    stays set, only eofbit is cleared).  Simplification: the stream buffer can
    always take back the last character. *)
Definition sunget (c : ascii) : M unit := fun s =>
  if good s then Ok (tt, mkSt (c :: inp s) true (his s) (warns s) (nextid s)) else Ok (tt, s).

(** [stream.read(buf, n)]: the bytes read ([gcount] of them); fewer than [n]
    sets eofbit and failbit. *)
Definition sread (n : nat) : M bytes := fun s =>
  if good s then
    Ok (firstn n (inp s),
        mkSt (skipn n (inp s)) (n <=? length (inp s))%nat (his s) (warns s) (nextid s))
  else Ok ([], s).

Definition set_his (s : st) (h : hist) : st := mkSt (inp s) (good s) h (warns s) (nextid s).

(** [history.put(c)]. *)
Definition hput (c : ascii) : M unit := fun s =>
  match hist_put (his s) c with Some h => Ok (tt, set_his s h) | None => UB OutOfBounds end.

(** [history.put(mem, count)], [mem] being the array the pointer points into. *)
Definition hputs (mem : bytes) (count : nat) : M unit := fun s =>
  match hist_puts (his s) mem count with Some h => Ok (tt, set_his s h) | None => UB OutOfBounds end.

(** [history.pop_back()]. *)
Definition hpop : M unit := fun s => Ok (tt, set_his s (hist_pop (his s))).

(** [new]: a fresh identity. *)
Definition fresh : M Z := fun s =>
  Ok (nextid s, mkSt (inp s) (good s) (his s) (warns s) (nextid s + 1)).

Definition new_prim (parent : option Z) (p : prim) : M node :=
  i <- fresh ;; ret (NPrim (mkMeta i parent) p).

(** Result of consumeToken and its helpers: an element, or null together with
    the content of [buf] (the token, empty at end of input). *)
Inductive tok : Type := TElem (n : node) | TTok (b : bytes).

(** streamConsumer.cpp:399-402 (ignoreChar), [char] being signed. *)
Definition ignoreChar (c : ascii) : bool :=
  (schar c <=? 32) || (127 <=? schar c) || Ascii.eqb c LF.

Section Reader.
  (** [env]: library behaviour; [params]: the AParams pointer, [None] = null. *)
  Variable e : env.
  Variable params : option cfg.

  (** [params->isStrict()] *)
  Definition deref_strict : M bool :=
    match params with Some p => ret (strict p) | None => ubM NullDeref end.

  (** streamConsumer.cpp:171-206 (consumeEscapedChar): [None] when it returns
      false, else the new content of [buf]. *)
  Definition consumeEscapedChar (c : ascii) (buf : bytes) : M (option bytes) :=
    if Ascii.eqb c BSLASH || Ascii.eqb c DQUOTE || Ascii.eqb c "/" then ret (Some (buf ++ [c]))
    else if Ascii.eqb c "u" then
      if match params with Some p => ignoreUnicode p | None => false end
      then ret (Some (buf ++ [BSLASH; "u"%char]))
      else
        four <- sread 4 ;;
        hputs four (length four) ;;;
        if negb (length four =? 4)%nat then ret None
        else match appendUnicode e four with
             | UniOk bs => ret (Some (buf ++ bs))
             | UniInvalid x => throw (HexValue x)
             | UniRange => abortM StdRangeError
             end
    else if Ascii.eqb c "b" || Ascii.eqb c "f" || Ascii.eqb c "r" || Ascii.eqb c "n" || Ascii.eqb c "t"
    then ret (Some (buf ++ [BSLASH; c]))
    else if match params with Some p => strict p | None => false end then throw (Escaped c)
    else warn (Escaped c) ;;; ret (Some (buf ++ [BSLASH; c])).

  (** streamConsumer.cpp:137-169 (consumeString): the loop. *)
  Fixpoint string_loop (fuel : nat) (parent : option Z) (escaped : bool) (buf : bytes) : M tok :=
    match fuel with
    | O => fuelM
    | S f =>
        g <- is_good ;;
        if negb g then ret (TTok [])
        else
          c <- sget ;;
          hput c ;;;
          if negb escaped then
            if Ascii.eqb c DQUOTE then n <- new_prim parent (PStr buf) ;; ret (TElem n)
            else if Ascii.eqb c BSLASH then string_loop f parent true buf
            else string_loop f parent false (buf ++ [c])
          else
            r <- consumeEscapedChar c buf ;;
            match r with
            | Some buf' => string_loop f parent false buf'
            | None => ret (TTok [])
            end
    end.

  (** Number of loop iterations that any loop of the reader can make: one per
      unread byte and one for the end of input. *)
  Definition loop_fuel (s : st) : nat := S (S (length (inp s))).

  Definition consumeString (parent : option Z) : M tok := fun s =>
    string_loop (loop_fuel s) parent false [] s.

  (** Letters of "true" and "false" after the first (line 226). *)
  Definition bool_letter (c : ascii) : bool :=
    existsb (Ascii.eqb c) ["a"; "e"; "l"; "r"; "s"; "u"]%char.

  (** streamConsumer.cpp:208-260 (consumeBool): the loop.  [buf] is in lower
      case, [raw] as typed, [rd] counts characters. *)
  Fixpoint bool_loop (fuel : nat) (parent : option Z) (first : ascii) (rd : nat) (buf raw : bytes) : M tok :=
    match fuel with
    | O => fuelM
    | S f =>
        g <- is_good ;;
        if negb g then ret (TTok [])
        else
          c <- sget ;;
          hput c ;;;
          let cl := tolower c in
          if bool_letter cl then
            if ((5 <=? rd)%nat && Ascii.eqb first "f") || ((4 <=? rd)%nat && Ascii.eqb first "t")
            then throw Format
            else bool_loop f parent first (S rd) (buf ++ [cl]) (raw ++ [c])
          else if negb (beqb buf (str "true")) && negb (beqb buf (str "false")) then throw Format
          else
            bad <- (if negb (beqb buf raw) then deref_strict else ret false) ;;
            if bad : bool then throw Format
            else if beqb buf (str "true") || beqb buf (str "false") then
              (if negb (beqb buf raw) then warn Format else ret tt) ;;;
              hpop ;;;
              sunget c ;;;
              n <- new_prim parent (PBool (beqb buf (str "true"))) ;;
              ret (TElem n)
            else if ignoreChar c then bool_loop f parent first rd buf raw
            else throw Format
    end.

  Definition consumeBool (parent : option Z) (first : ascii) : M tok := fun s =>
    bool_loop (loop_fuel s) parent (tolower first) 1 [tolower first] [first] s.

  (** streamConsumer.cpp:295-302: conversion of an integer literal. *)
  Definition integer_prim (buf : bytes) : M prim :=
    match stoi buf with
    | ConvOk z => ret (PInt z)
    | ConvInvalid => abortM StdInvalidArgument
    | ConvRange =>
        match stol buf with
        | ConvOk z => ret (PLong z)
        | ConvInvalid => abortM StdInvalidArgument
        | ConvRange => abortM StdOutOfRange
        end
    end.

  (** streamConsumer.cpp:262-308 (consumeNumber): the loop. *)
  Fixpoint number_loop (fuel : nat) (parent : option Z) (isDouble : bool) (buf : bytes) : M tok :=
    match fuel with
    | O => fuelM
    | S f =>
        g <- is_good ;;
        if negb g then ret (TTok [])
        else
          c <- sget ;;
          hput c ;;;
          if is_digit c then number_loop f parent isDouble (buf ++ [c])
          else if Ascii.eqb c "." && negb isDouble then number_loop f parent true (buf ++ [c])
          else
            hpop ;;;
            sunget c ;;;
            p <- (if isDouble then ret (PDbl (atof buf)) else integer_prim buf) ;;
            n <- new_prim parent p ;;
            ret (TElem n)
    end.

  Definition consumeNumber (parent : option Z) (first : ascii) : M tok := fun s =>
    number_loop (loop_fuel s) parent false [first] s.

  (** streamConsumer.cpp:310-336 (consumeNull).  [three] is padded with the NUL
      bytes _buf was initialised with; _buf[4] is a fourth readable byte. *)
  Definition consumeNull (parent : option Z) (first : ascii) : M tok :=
    three <- sread 3 ;;
    let three := three ++ repeat NUL (3 - length three) in
    hputs (three ++ [NUL]) 3 ;;;
    g <- is_good ;;
    if negb g then ret (TTok [])
    else
      let buf := first :: three in
      let lower := "n"%char :: map tolower three in
      if beqb lower (str "null") then
        ok <- (if beqb lower buf then ret true else x <- deref_strict ;; ret (negb x)) ;;
        if ok : bool then
          (if negb (beqb buf (str "null")) then warn Format else ret tt) ;;;
          n <- new_prim parent PNull ;;
          ret (TElem n)
        else throw Format
      else throw Format.

  Definition is_token (c : ascii) : bool :=
    existsb (Ascii.eqb c) ["{"; "["; "}"; "]"; ":"; ","]%char.

  (** streamConsumer.cpp:338-367 (consumeToken): the loop. *)
  Fixpoint token_loop (fuel : nat) (parent : option Z) : M tok :=
    match fuel with
    | O => fuelM
    | S f =>
        g <- is_good ;;
        if negb g then ret (TTok [])
        else
          c <- sget ;;
          hput c ;;;
          if Ascii.eqb c DQUOTE then consumeString parent
          else if existsb (Ascii.eqb c) ["t"; "f"; "T"; "F"]%char then consumeBool parent c
          else if Ascii.eqb c "n" || Ascii.eqb c "N" then consumeNull parent c
          else if is_digit c || Ascii.eqb c "." || Ascii.eqb c "-" then consumeNumber parent c
          else if is_token c then ret (TTok [c])
          else if negb (ignoreChar c) then throw Format
          else token_loop f parent
    end.

  Definition consumeToken (parent : option Z) : M tok := fun s =>
    token_loop (loop_fuel s) parent s.

  (** The object being filled (lines 69, 82-83): its meta, and its entries. *)
  Definition objpart : Type := meta * list (meta * bytes * node).
  Definition entry_key (x : meta * bytes * node) : bytes := snd (fst x).

  (** Line 83: [!params || params->sortObjects()]. *)
  Definition sorts : bool := match params with Some p => sortObjects p | None => true end.
  (** Line 86: [!params || params->isStrict()]. *)
  Definition strict_keys : bool := match params with Some p => strict p | None => true end.

  (** Lines 82-93: the object to add to: created on the first key, else checked
      for the key. *)
  Definition open_object (parent : option Z) (result : option objpart) (key : bytes) : M objpart :=
    match result with
    | None => i <- fresh ;; ret (mkMeta i parent, [])
    | Some (m, l) =>
        if obj_contains entry_key key l then
          if strict_keys then throw (DoubleKey key)
          else warn (DoubleKey key) ;;; ret (m, obj_erase entry_key key l)
        else ret (m, l)
    end.

  Definition result_id (result : option objpart) : option Z :=
    match result with Some (m, _) => Some (mid m) | None => None end.

  (** streamConsumer.cpp:38-58 (readNext), given readObject and readArray. *)
  Definition readNext_with (readObject readArray : option Z -> M node) (parent : option Z)
    : M (option node) :=
    t <- consumeToken parent ;;
    match t with
    | TElem n => ret (Some n)
    | TTok b =>
        if beqb b (str "{") then n <- readObject parent ;; ret (Some n)
        else if beqb b (str "[") then n <- readArray parent ;; ret (Some n)
        else ret None
    end.

  (** streamConsumer.cpp:102-135 (readArray) up to its loop. *)
  Definition readArray_with (loop : option Z -> tok -> M node) (parent : option Z) : M node :=
    t <- consumeToken parent ;;
    match t with
    | TTok b => if beqb b (str "]")
                then i <- fresh ;; ret (NArr (mkMeta i parent) [])
                else loop parent t
    | TElem _ => loop parent t
    end.

  (** Loops of readObject (streamConsumer.cpp:66-100) and of readArray
      (lines 111-133).  [result] is the pointer of the same name. *)
  Fixpoint object_loop (fuel : nat) (parent : option Z) (result : option objpart) : M node :=
    match fuel with
    | O => fuelM
    | S f =>
        t <- consumeToken (result_id result) ;;
        match t with
        | TTok b =>
            if beqb b (str "}") && match result with None => true | Some _ => false end
            then i <- fresh ;; ret (NObj (mkMeta i parent) [])
            else throw NotAKey
        | TElem (NPrim _ (PStr key)) =>
            t2 <- consumeToken parent ;;
            if match t2 with TTok b => beqb b (str ":") | TElem _ => false end then
              r <- open_object parent result key ;;
              child <- readNext_with (fun p => object_loop f p None)
                         (readArray_with (fun p t => array_loop f p None t))
                         (Some (mid (fst r))) ;;
              match child with
              | None => ubM NullDeref   (* push -> JSonObjectEntry ctor: v->setParent *)
              | Some v =>
                  i <- fresh ;;
                  let entry := (mkMeta i (Some (mid (fst r))), key, set_parent i v) in
                  let l := obj_push entry_key sorts entry (snd r) in
                  t3 <- consumeToken (Some (mid (fst r))) ;;
                  match t3 with
                  | TTok b => if beqb b (str "}") then ret (NObj (fst r) l)
                              else object_loop f parent (Some (fst r, l))
                  | TElem _ => ret (NObj (fst r) l)
                  end
              end
            else throw (Unexpected ":")
        | TElem _ => throw NotAKey
        end
    end
  with array_loop (fuel : nat) (parent : option Z) (result : option (meta * list node)) (t : tok)
    : M node :=
    match fuel with
    | O => fuelM
    | S f =>
        child <- match t with
                 | TElem n => ret n
                 | TTok b =>
                     if beqb b (str "[") then readArray_with (fun p t => array_loop f p None t) None
                     else if beqb b (str "{") then object_loop f None None
                     else throw NotJson
                 end ;;
        r <- match result with
             | Some r => ret r
             | None => i <- fresh ;; ret (mkMeta i parent, [])
             end ;;
        let l := snd r ++ [set_parent (mid (fst r)) child] in
        t2 <- consumeToken (Some (mid (fst r))) ;;
        match t2 with
        | TElem _ => throw (Unexpected "]")
        | TTok b =>
            if beqb b (str "]") then ret (NArr (fst r) l)
            else if negb (beqb b (str ",")) then throw (Unexpected "]")
            else
              t3 <- consumeToken (Some (mid (fst r))) ;;
              array_loop f parent (Some (fst r, l)) t3
        end
    end.

  (** streamConsumer.cpp:66 and 102 with the loops' fuel. *)
  Definition readObject (fuel : nat) (parent : option Z) : M node := object_loop fuel parent None.
  Definition readArray (fuel : nat) (parent : option Z) : M node :=
    readArray_with (fun p t => array_loop fuel p None t) parent.
  Definition readNext (fuel : nat) (parent : option Z) : M (option node) :=
    readNext_with (readObject fuel) (readArray fuel) parent.

  (** State of a new StreamConsumer on a stream holding [input]
      (streamConsumer.cpp:15-16). *)
  Definition init_st (input : bytes) : st := mkSt input true hist_init [] 0.

  (** streamConsumer.cpp:30-36 (read), first call: root (null: [None]) and
      final state. *)
  Definition read_doc (input : bytes) : res (option node * st) :=
    readNext (S (S (length input))) None (init_st input).

  (** A consumer between calls, and any call of read(): nothing is read when
      there is a root already. *)
  Definition read_again (c : option node * st) : res (option node * st) :=
    match fst c with
    | Some _ => Ok c
    | None => readNext (S (S (length (inp (snd c))))) None (snd c)
    end.
End Reader.

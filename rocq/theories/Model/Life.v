(** When the streams of a run (and with them the documents) are made, used and
    deleted: src/main.cpp, and what the handler of SIGWINCH finds. *)
From Verif Require Export Model.Session.
Open Scope Z_scope.

(** [New k]: line 31 for the input number [k] (from 0), before it is read;
    [Delete k]: its stream is deleted, and the document (streamConsumer.cpp:18-22);
    [Use ks]: the documents of these inputs are handed to a viewer or a writer;
    [Ready]: the viewer can draw them.  A stream whose input is not read to its
    end stays in readFile (31-35), nobody has a pointer to it. *)
Inductive levent : Type := Tell (t : tevent) | New (k : nat) | Use (ks : list nat) | Ready | Delete (k : nat).

(** As [tio] of Model/Session.v (for all of src/main.cpp), with these events. *)
Definition lio (A : Type) : Type := (list levent * outcome A)%type.
Definition lret {A} (a : A) : lio A := ([], Val a).
Definition lemit (l : list levent) : lio unit := (l, Val tt).
Definition lbind {A B} (m : lio A) (k : A -> lio B) : lio B :=
  match m with
  | (l, Val a) => let '(l', o) := k a in (l ++ l', o)
  | (l, Die d) => (l, Die d)
  | (l, Hang) => (l, Hang)
  end.
(** What neither makes nor deletes. *)
Definition tells {A} (m : tio A) : lio A := (map Tell (fst m), snd m).
Declare Scope lio_scope.
Notation "x <- m ;; k" := (lbind m (fun x => k)) (at level 61, m at next level, right associativity) : lio_scope.
Notation "m -;; k" := (lbind m (fun _ => k)) (at level 61, right associativity) : lio_scope.
Open Scope lio_scope.

Section Life.
  Variable e : env.
  Variable w : world.
  Variable sits : list (bytes * tree) -> outcome unit.
  (** std::set<StreamConsumer *> (main.cpp:136) goes through its pointers in the
      order of their addresses. *)
  Variable order : list nat -> list nat.

  (** main.cpp:29-65 *)
  Definition readOne_life (p : params) (k : nat) (input : bytes * src) : lio (option (node * list (bytes * exn))) :=
    lemit [New k] -;; tells (lift (readOneFile e w p input)).

  (** main.cpp:92-108 *)
  Fixpoint prettify_life (p : params) (k : nat) (inputs : list (bytes * src)) (names : list bytes) (ws : list (bytes * exn))
    : lio (list bytes * list (bytes * exn) + list bytes) :=
    match inputs with
    | [] => lret (inl (names, ws))
    | input :: r =>
        o <- readOne_life p k input ;;
        match o with
        | None => lret (inr names)
        | Some (root, ws') =>
            fname <- tells (lift (getOutputFile w (fst input))) ;;
            lemit [Use [k]] -;;
            tells (lift (emit (ECreate fname (display (p_compress p) (erase root))))) -;;
            lemit [Delete k] -;;
            prettify_life p (S k) r (names ++ [fname]) (ws ++ ws')
        end
    end.

  (** main.cpp:86-130 *)
  Definition external_life (p : params) (d : diffcmd) : lio unit :=
    o <- prettify_life p 0 (getInputs p) [] [] ;;
    match o with
    | inr names => tells (lift (unlink_all names))
    | inl (names, ws) => tells (lift (
        displayWarnings ws ~;;
        match computeArgv d names with
        | None => idie Undefined
        | Some _ =>
            if fork_ok w then
              emit EFork ~;;
              (if exec_ok w then wait_parent (ends_as w)
               else if garbage_exited w then unlink_all names ~;; wait_parent (Some (Exited 0)) else ([], Hang)) ~;;
              unlink_all names
            else unlink_all names
        end))
    end.

  (** main.cpp:140-157; [k] streams are in the set. *)
  Fixpoint readAll_life (p : params) (k : nat) (inputs : list (bytes * src)) (docs : list (bytes * tree)) (ws : list (bytes * exn))
    : lio (list (bytes * tree) * list (bytes * exn) + unit) :=
    match inputs with
    | [] => lret (inl (docs, ws))
    | input :: r =>
        o <- readOne_life p k input ;;
        match o with
        | None => lemit (map Delete (order (seq 0 k))) -;; lret (inr tt)
        | Some (root, ws') => readAll_life p (S k) r (docs ++ [(fst input, erase root)]) (ws ++ ws')
        end
    end.

  (** main.cpp:132-168.  curseSplitOutput.cpp:45-69 gives the documents to the
      windows, line 70 (74-86) compares them; only then is there something
      redraw can ask (diffMatrice, null before: line 29). *)
  Definition diff_life (p : params) : lio unit :=
    o <- readAll_life p 0 (getInputs p) [] [] ;;
    match o with
    | inr tt => lret tt
    | inl (docs, ws) =>
        let ks := seq 0 (length (getInputs p)) in
        lemit [Tell Opened; Use ks] -;;
        (if (length docs =? 3)%nat then ([], Die Terminated)
         else lemit [Ready] -;; tells (sit sits (ECompare docs) docs)) -;;
        lemit [Tell Closed] -;; lemit (map Delete (order ks)) -;; tells (lift (displayWarnings ws))
    end.

  (** main.cpp:175-182 *)
  Fixpoint writeAll_life (p : params) (k : nat) (inputs : list (bytes * src)) (ws : list (bytes * exn)) : lio (list (bytes * exn)) :=
    match inputs with
    | [] => lret ws
    | input :: r =>
        o <- readOne_life p k input ;;
        match o with
        | None => lret ws
        | Some (root, ws') =>
            lemit [Use [k]; Tell (Did (EOut (display (p_compress p) (erase root)))); Delete k] -;;
            writeAll_life p (S k) r (ws ++ ws')
        end
    end.
  (** main.cpp:170-188 *)
  Definition stdout_life (p : params) : lio unit :=
    ws <- writeAll_life p 0 (getInputs p) [] ;; tells (lift (displayWarnings ws)).

  (** main.cpp:196-203; run (curseSimpleOutput.cpp:27-33) takes the document
      before it draws or waits. *)
  Fixpoint viewAll_life (p : params) (k : nat) (inputs : list (bytes * src)) (ws : list (bytes * exn)) : lio (list (bytes * exn)) :=
    match inputs with
    | [] => lret ws
    | input :: r =>
        o <- readOne_life p k input ;;
        match o with
        | None => lret ws
        | Some (root, ws') =>
            lemit [Use [k]; Ready] -;;
            tells (sit sits (EView (fst input) (erase root)) [(fst input, erase root)]) -;;
            lemit [Delete k] -;; viewAll_life p (S k) r (ws ++ ws')
        end
    end.
  (** main.cpp:190-211 *)
  Definition run_life (p : params) : lio unit :=
    lemit [Tell Opened] -;;
    ws <- viewAll_life p 0 (getInputs p) [] ;;
    lemit [Tell Closed] -;; tells (lift (displayWarnings ws)).

  (** main.cpp:213-248 *)
  Definition main_life (opens : bytes -> bool) (args : list bytes) : lio Z :=
    match Params_read opens args with
    | PError _ => lret 1
    | PStop _ => lret 0
    | PNext p =>
        (match p_cmd p with
         | Some d => external_life p d
         | None =>
             if p_diff p then diff_life p
             else if negb (p_compress p) && tty w then run_life p else stdout_life p
         end) -;; lret 0
    end.
End Life.

(** What [runningInst] (curseOutput.cpp:23) leads to: no viewer, or one and what
    it has to draw.  The constructor sets it (25-28) and ends with installing the
    handler (332-336), the destructor (30-37) resets it. *)
Inductive viewer : Type := NoViewer | Unset | Taken (ks : list nat) | Drawing (ks : list nat).

Definition viewer_step (v : viewer) (x : levent) : viewer :=
  match x, v with
  | Tell Opened, _ => Unset
  | Tell Closed, _ => NoViewer
  | Use ks, NoViewer => NoViewer
  | Use ks, _ => Taken ks
  | Ready, Taken ks => Drawing ks
  | _, _ => v
  end.

Definition deleted (l : list levent) : list nat :=
  flat_map (fun x => match x with Delete k => [k] | _ => [] end) l.

(** Outcome of a SIGWINCH after the events [l] (curseOutput.cpp:56-69 and 91-96):
    nothing; redraw of these documents; redraw through pointers that are not set
    (curseSimpleOutput.cpp:48, data; curseSplitOutput.cpp:45, nbInputs; 621 and 879,
    diffMatrice), or set to a document that is deleted. *)
Inductive winch : Type := Ignored | Redraws (ks : list nat) | Dangling.

Definition resize_at (l : list levent) : winch :=
  match fold_left viewer_step l NoViewer with
  | NoViewer => Ignored
  | Unset | Taken _ => Dangling
  | Drawing ks => if existsb (fun k => existsb (Nat.eqb k) (deleted l)) ks then Dangling else Redraws ks
  end.

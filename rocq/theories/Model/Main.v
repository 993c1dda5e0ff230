(** src/main.cpp: reading the inputs and the run modes. *)
From Verif Require Export Model.StreamConsumer Model.SimpleOutput Model.Params.
Open Scope Z_scope.

(** ** Messages: src/jsonException.cpp and src/jsonObject.cpp:91-98 *)
(** [string literal + n] as a pointer: the text from there on; [None] when the
    pointer leaves the literal (which has a terminating NUL). *)
Definition literal_at (l : bytes) (n : Z) : option bytes :=
  if (0 <=? n) && (n <=? Z.of_nat (length l)) then Some (skipn (Z.to_nat n) l) else None.

(** The text what() points to.  [None]: undefined (JsonUnexpectedException adds
    a character to a literal, jsonException.cpp:35-36; JsonEscapedException adds its
    member [c] before initialising it, jsonException.cpp:31-33). *)
Definition message (k : ekind) : option bytes :=
  match k with
  | NotAKey => Some (str "expected string key for object")
  | DoubleKey key => Some (cstr (str "Unexpected double key " ++ key ++ str " for object"))
  | Unexpected c => literal_at (str "expected ") (schar c)
  | NotJson => Some (str "expected json entry, got token")
  | Format => Some (str "invalid value")
  | HexValue c => Some (cstr (str "invalid hex value '" ++ [chr ((uchar c + 39) mod 256)]))
  | Escaped _ => None
  end.

(** ** Runs *)
(** What a run does: text on standard output, error report for an input (the
    message, the line, the column, the excerpt and the line below it), end-of-input
    report, prettified file created, file removed, child created, interactive
    display of a document, interactive comparison of documents. *)
Inductive event : Type :=
| EOut (b : bytes)
| EReport (file : bytes) (msg : bytes) (line : Z) (col : option Z) (excerpt : list (option (option ascii))) (mark : bytes)
| EEof (file : bytes)
| ECreate (name : bytes) (b : bytes)
| EUnlink (name : bytes)
| EFork
| EView (file : bytes) (t : tree)
| ECompare (l : list (bytes * tree)).

(** How a run ends: it returns, an uncaught exception or undefined behaviour
    stops it, or it never ends. *)
Inductive death : Type := Terminated | Undefined.
Inductive outcome (A : Type) : Type := Val (a : A) | Die (d : death) | Hang.
Arguments Val {A}. Arguments Die {A}. Arguments Hang {A}.
Definition io (A : Type) : Type := (list event * outcome A)%type.
Definition iret {A} (a : A) : io A := ([], Val a).
Definition emit (e : event) : io unit := ([e], Val tt).
Definition idie {A} (d : death) : io A := ([], Die d).
Definition ibind {A B} (m : io A) (k : A -> io B) : io B :=
  match m with
  | (l, Val a) => let '(l', o) := k a in (l ++ l', o)
  | (l, Die d) => (l, Die d)
  | (l, Hang) => (l, Hang)
  end.
Declare Scope io_scope.
Notation "x <~ m ;; k" := (ibind m (fun x => k)) (at level 61, m at next level, right associativity) : io_scope.
Notation "m ~;; k" := (ibind m (fun _ => k)) (at level 61, right associativity) : io_scope.
Open Scope io_scope.

(** main.cpp:21-27 (displayException): [buffer.size() - 1] marks; with an empty
    excerpt the constructor of std::string throws std::length_error.  The
    program name and the name of the exception's class are omitted. *)
Definition displayException (file : bytes) (x : exn) : io unit :=
  let buffer := hist_text (ehist x) in
  match message (ekind_of x) with
  | None => idie Undefined
  | Some msg =>
      match length buffer with
      | O => idie Terminated
      | S n => emit (EReport file msg (hist_line (ehist x)) (hist_col (ehist x)) buffer (repeat "~"%char n ++ str "^"))
      end
  end.

(** main.cpp:109-113, 163-167, 183-187 and 206-210. *)
Fixpoint displayWarnings (ws : list (bytes * exn)) : io unit :=
  match ws with
  | [] => iret tt
  | (f, x) :: r => displayException f x ~;; displayWarnings r
  end.

(** How the command ends; [None]: it does not. *)
Inductive child_end : Type := Exited (code : Z) | Signaled (sig : Z).

Section Run.
  (** The world: what each input contains; how often a temporary file fails to
      open before it opens ([None]: always); whether fork and execvp succeed;
      how the command ends; whether WIFEXITED holds of the status a child that
      could not run the command never initialised (main.cpp:111, 116-121);
      whether standard output is a terminal. *)
  Record world : Type := mkWorld {
    content : src -> bytes; delay : bytes -> option nat; fork_ok : bool; exec_ok : bool;
    ends_as : option child_end; garbage_exited : bool; tty : bool }.
  Variable e : env.
  Variable w : world.

  (** The reader's settings (params.cpp:194-204). *)
  Definition config (p : params) : cfg := mkCfg (p_strict p) (p_ascii p) (p_sorted p).

  (** The bytes of an input: the text after "--" is the stringstream's (params.cpp:112-122). *)
  Definition input_bytes (p : params) (s : src) : bytes :=
    match s with
    | SArgs => match p_text p with Some t => t | None => [] end
    | _ => content w s
    end.

  (** main.cpp:29-38 and 40-65 (readFile, readOneFile): null is [None]; the
      warnings, with the file's name.  Undefined behaviour while reading ends
      the run; OutOfFuel does not occur (C02). *)
  Definition readOneFile (p : params) (input : bytes * src) : io (option (node * list (bytes * exn))) :=
    match read_doc e (Some (config p)) (input_bytes p (snd input)) with
    | Ok (Some root, s) => iret (Some (root, map (fun x => (fst input, x)) (warns s)))
    | Ok (None, _) => emit (EEof (fst input)) ~;; iret None
    | Throw x => displayException (fst input) x ~;; iret None
    | Abort _ => idie Terminated
    | UB _ => idie Undefined
    | OutOfFuel => idie Undefined
    end.

  (** main.cpp:67-81 (getOutputFile): [i] is never incremented, so the same name is
      tried for ever. *)
  Definition tmp_name (iname : bytes) (i : Z) : bytes :=
    str "/tmp/jsondifftmp" ++ dec_nonneg (hashString iname) ++ str "." ++ dec_nonneg i ++ str ".tmp".
  Definition getOutputFile (iname : bytes) : io bytes :=
    match delay w (tmp_name iname 0) with
    | Some _ => iret (tmp_name iname 0)
    | None => ([], Hang)
    end.

  (** main.cpp:92-108: prettifying the inputs.  [inl]: all files written; [inr]:
      early return.  Simplification: writing to an opened file succeeds. *)
  Fixpoint prettify (p : params) (inputs : list (bytes * src)) (names : list bytes) (ws : list (bytes * exn))
    : io (list bytes * list (bytes * exn) + list bytes) :=
    match inputs with
    | [] => iret (inl (names, ws))
    | input :: r =>
        o <~ readOneFile p input ;;
        match o with
        | None => iret (inr names)
        | Some (root, ws') =>
            fname <~ getOutputFile (fst input) ;;
            emit (ECreate fname (display (p_compress p) (erase root))) ~;;
            prettify p r (names ++ [fname]) (ws ++ ws')
        end
    end.

  (** main.cpp:118-121, parent: waitpid gives the status of the command; when it
      was killed, WIFEXITED is false, and the next waitpid calls fail and leave
      the status unchanged.  Simplification: waitpid is not interrupted. *)
  Definition wait_parent (c : option child_end) : io unit :=
    match c with
    | Some (Exited _) => iret tt
    | Some (Signaled _) => ([], Hang)
    | None => ([], Hang)
    end.

  (** main.cpp:86-123 with 125-130: the parent's run.  When execvp fails, the
      child goes on with the parent's code: it leaves the loop or not according to
      the uninitialised status, removes the files and exits with status 0. *)
  Definition unlink_all (names : list bytes) : io unit := (map EUnlink names, Val tt).
  Definition runExternalDiff (p : params) (d : diffcmd) : io unit :=
    o <~ prettify p (getInputs p) [] [] ;;
    match o with
    | inr names => unlink_all names
    | inl (names, ws) =>
        displayWarnings ws ~;;
        match computeArgv d names with
        | None => idie Undefined
        | Some _ =>
            if fork_ok w then
              emit EFork ~;;
              (if exec_ok w then wait_parent (ends_as w)
               else if garbage_exited w then unlink_all names ~;; wait_parent (Some (Exited 0)) else ([], Hang)) ~;;
              unlink_all names
            else unlink_all names
        end
    end.

  (** main.cpp:140-157: reading the inputs of a comparison; [inr]: early return. *)
  Fixpoint readAll (p : params) (inputs : list (bytes * src)) (docs : list (bytes * tree)) (ws : list (bytes * exn))
    : io (list (bytes * tree) * list (bytes * exn) + unit) :=
    match inputs with
    | [] => iret (inl (docs, ws))
    | input :: r =>
        o <~ readOneFile p input ;;
        match o with
        | None => iret (inr tt)
        | Some (root, ws') => readAll p r (docs ++ [(fst input, erase root)]) (ws ++ ws')
        end
    end.

  (** main.cpp:132-168 (runDiff); the interactive part is one event.  With three
      documents computeDiff throws (curseSplitOutput.cpp:84-85). *)
  Definition runDiff (p : params) : io unit :=
    o <~ readAll p (getInputs p) [] [] ;;
    match o with
    | inr tt => iret tt
    | inl (docs, ws) =>
        if (length docs =? 3)%nat then idie Terminated
        else emit (ECompare docs) ~;; displayWarnings ws
    end.

  (** main.cpp:175-182 (runStdout) and 196-203 (run): [show] displays a
      document; result: the warnings. *)
  Fixpoint showAll (show : bytes -> tree -> event) (p : params) (inputs : list (bytes * src)) (ws : list (bytes * exn)) : io (list (bytes * exn)) :=
    match inputs with
    | [] => iret ws
    | input :: r =>
        o <~ readOneFile p input ;;
        match o with
        | None => iret ws
        | Some (root, ws') => emit (show (fst input) (erase root)) ~;; showAll show p r (ws ++ ws')
        end
    end.

  (** main.cpp:170-188. *)
  Definition runStdout (p : params) : io unit :=
    ws <~ showAll (fun _ t => EOut (display (p_compress p) t)) p (getInputs p) [] ;; displayWarnings ws.
  (** main.cpp:190-211; the interactive part is one event per document. *)
  Definition run (p : params) : io unit :=
    ws <~ showAll EView p (getInputs p) [] ;; displayWarnings ws.

  (** main.cpp:213-248: the exit status.  Messages of read() and usage are omitted. *)
  Definition main (opens : bytes -> bool) (args : list bytes) : io Z :=
    match Params_read opens args with
    | PError _ => iret 1
    | PStop _ => iret 0
    | PNext p =>
        (match p_cmd p with
         | Some d => runExternalDiff p d
         | None =>
             if p_diff p then runDiff p
             else if negb (p_compress p) && tty w then run p else runStdout p
         end) ~;; iret 0
    end.
End Run.

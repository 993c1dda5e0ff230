(** src/params.cpp. *)
From Verif Require Export Model.DiffCmd Model.FifoMap.
Open Scope Z_scope.

(** What an input stream is: an opened file, the text after "--", standard
    input, or the null pointer a fresh map entry holds. *)
Inductive src : Type := SNull | SFile (name : bytes) | SArgs | SStdin.

(** include/params.hh:101-111 and the locals of read (params.cpp:36-41);
    [p_text]: the stringstream [input] points to, and its content. *)
Record params : Type := mkParams {
  p_strict : bool; p_ascii : bool; p_color : bool; p_sorted : bool; p_compress : bool; p_diff : bool;
  p_cmd : option diffcmd; p_inputs : list (bytes * src);
  p_inDiff : bool; p_text : option bytes; p_written : bool }.

(** params.cpp:16,36-41. *)
Definition params0 : params := mkParams true false true true false false None [] false None false.

(** Outcome of read: returned true, returned false (after printing help, the
    version or a complaint), or threw std::runtime_error. *)
Inductive perror : Type :=
| EDoubleCmd | EColor (mode : bytes) | EInvalid (arg : bytes) | ECannotOpen (f : bytes) | ESameFile (f : bytes).
Inductive pstop : Type := StHelp | StVersion | StTooMany | StTooFew.
Inductive presult (A : Type) : Type := PNext (a : A) | PStop (s : pstop) | PError (e : perror).
Arguments PNext {A}. Arguments PStop {A}. Arguments PError {A}.

(** tmp.find(p) == 0. *)
Fixpoint starts (p s : bytes) : bool :=
  match p, s with
  | [], _ => true
  | x :: p', y :: s' => Ascii.eqb x y && starts p' s'
  | _ :: _, [] => false
  end.

Section Read.
  (** Whether a file can be opened. *)
  Variable opens : bytes -> bool.

  (** params.cpp:46-101: an argument outside of --diff-cmd and before "--". *)
  Definition read_option (p : params) (tmp : bytes) : presult params :=
    let '(mkParams st asc col so com df cmd inp ind txt wr) := p in
    if beqb tmp (str "--") then
      PNext (mkParams st asc col so com df cmd (set beqb SNull inp (str "ARGS") SArgs) ind (Some []) wr)
    else if beqb tmp (str "-W") then PNext (mkParams false asc col so com df cmd inp ind txt wr)
    else if beqb tmp (str "--ascii") then PNext (mkParams st true col so com df cmd inp ind txt wr)
    else if beqb tmp (str "--color") then PNext (mkParams st asc true so com df cmd inp ind txt wr)
    else if beqb tmp (str "--diff") then PNext (mkParams st asc col so com true cmd inp ind txt wr)
    else if beqb tmp (str "--compress") then PNext (mkParams st asc col so true df cmd inp ind txt wr)
    else if beqb tmp (str "--help") || beqb tmp (str "-h") then PStop StHelp
    else if beqb tmp (str "--version") || beqb tmp (str "-v") then PStop StVersion
    else if beqb tmp (str "--keep-order") then PNext (mkParams st asc col false com df cmd inp ind txt wr)
    else if beqb tmp (str "--diff-cmd") then
      match cmd with
      | Some _ => PError EDoubleCmd
      | None => PNext (mkParams st asc col so com df (Some DiffCmd_new) inp true txt wr)
      end
    else if starts (str "--color=") tmp then
      let mode := skipn 8 tmp in
      if beqb mode (str "always") then PNext (mkParams st asc true so com df cmd inp ind txt wr)
      else if beqb mode (str "never") then PNext (mkParams st asc false so com df cmd inp ind txt wr)
      else PError (EColor mode)
    else if starts (str "-") tmp then PError (EInvalid tmp)
    else if negb (opens tmp) then PError (ECannotOpen tmp)
    else if contains beqb inp tmp then PError (ESameFile tmp)
    else PNext (mkParams st asc col so com df cmd (set beqb SNull inp tmp (SFile tmp)) ind txt wr).

  (** params.cpp:43-123: one iteration of the loop. *)
  Definition read_arg (p : params) (tmp : bytes) : presult params :=
    match p_text p, p_inDiff p with
    | None, false => read_option p tmp
    | _, true =>
        let '(mkParams st asc col so com df cmd inp ind txt wr) := p in
        if beqb tmp (str ";") then PNext (mkParams st asc col so com df cmd inp false txt wr)
        else PNext (mkParams st asc col so com df (option_map (fun d => DiffCmd_add d tmp) cmd) inp ind txt wr)
    | Some t, false =>
        let '(mkParams st asc col so com df cmd inp ind _ wr) := p in
        PNext (mkParams st asc col so com df cmd inp ind (Some (t ++ (if wr then str " " else []) ++ tmp)) true)
    end.

  Fixpoint read_args (p : params) (args : list bytes) : presult params :=
    match args with
    | [] => PNext p
    | a :: t => match read_arg p a with PNext p' => read_args p' t | r => r end
    end.

  (** params.cpp:34-140 (read) on the arguments after the program name. *)
  Definition Params_read (args : list bytes) : presult params :=
    match read_args params0 args with
    | PNext p =>
        if p_diff p then
          if (3 <? length (p_inputs p))%nat then PStop StTooMany
          else if (length (p_inputs p) <? 2)%nat then PStop StTooFew
          else PNext p
        else PNext p
    | r => r
    end.
End Read.

(** params.cpp:142-149. *)
Definition getInputs (p : params) : list (bytes * src) :=
  match p_inputs p with
  | [] => set beqb SNull [] (str "STDIN") SStdin
  | l => l
  end.

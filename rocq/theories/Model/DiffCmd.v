(** src/diffCmd.cpp. *)
From Verif Require Export Model.Bytes.
Open Scope Z_scope.

(** include/diffCmd.hh:37-38: the members; [allocated] holds the strings of
    allocatedArgv before its terminating null pointer. *)
Record diffcmd : Type := mkDiffCmd { dc_argv : list bytes; dc_alloc : option (list bytes) }.

(** diffCmd.cpp:4-5. *)
Definition DiffCmd_new : diffcmd := mkDiffCmd [] None.
(** diffCmd.cpp:22-23. *)
Definition DiffCmd_add (d : diffcmd) (s : bytes) : diffcmd := mkDiffCmd (dc_argv d ++ [s]) (dc_alloc d).
(** diffCmd.cpp:25-26; [None]: argv[0] of an empty deque (undefined). *)
Definition DiffCmd_getFile (d : diffcmd) : option bytes :=
  match dc_argv d with [] => None | f :: _ => Some f end.

(** strdup(s.c_str()): the bytes before the first NUL. *)
Fixpoint cstr (s : bytes) : bytes :=
  match s with
  | [] => []
  | c :: t => if Ascii.eqb c NUL then [] else c :: cstr t
  end.

(** diffCmd.cpp:35-44: the parameters are counted in an unsigned int. *)
Definition UINT : Z := 2 ^ 32.
Fixpoint count_params (argv : list bytes) (nfiles : Z) (n : Z) : Z :=
  match argv with
  | [] => n
  | i :: t => count_params t nfiles (if beqb i (str "{}") then (n + nfiles) mod UINT else (n + 1) mod UINT)
  end.

(** allocatedArgv[currentParam++] = ... in an array of [size] pointers; [None]
    is a write outside of it. *)
Definition put_param (size : Z) (l : list bytes) (s : bytes) : option (list bytes) :=
  if Z.of_nat (length l) <? size then Some (l ++ [s]) else None.
Fixpoint put_params (size : Z) (l : list bytes) (ss : list bytes) : option (list bytes) :=
  match ss with
  | [] => Some l
  | s :: t => match put_param size l (cstr s) with Some l' => put_params size l' t | None => None end
  end.
(** diffCmd.cpp:46-53. *)
Fixpoint fill_params (size : Z) (argv files : list bytes) (l : list bytes) : option (list bytes) :=
  match argv with
  | [] => Some l
  | i :: t =>
      match (if beqb i (str "{}") then put_params size l files else put_param size l (cstr i)) with
      | Some l' => fill_params size t files l'
      | None => None
      end
  end.

(** diffCmd.cpp:31-56 (computeArgv): the strings before the null pointer, and
    the object afterwards; [None]: a write outside the allocated array. *)
Definition computeArgv (d : diffcmd) (files : list bytes) : option (list bytes * diffcmd) :=
  match dc_alloc d with
  | Some l => Some (l, d)
  | None =>
      let nbParams := count_params (dc_argv d) (Z.of_nat (length files)) 0 in
      let size := (nbParams + 1) mod UINT in
      match fill_params size (dc_argv d) files [] with
      | Some l => if Z.of_nat (length l) <? size then Some (l, mkDiffCmd (dc_argv d) (Some l)) else None
      | None => None
      end
  end.

(** diffCmd.cpp:58-66 (hashString): unsigned long long arithmetic on signed
    characters. *)
Definition ULL : Z := 2 ^ 64.
Definition hash_step (h : Z) (c : ascii) : Z := (h * 32 + schar c) mod ULL.
Definition hashString (s : bytes) : Z := fold_left hash_step s 0.

(** What is made and deleted for the options of the program: src/params.cpp,
    src/diffCmd.cpp and the part of main (src/main.cpp:213-248) that owns them, over
    the memory of Model/Heap.v.  An object whose content does not matter here (the
    Params, a stream) is a block without elements; the DiffCmd is a block with its
    member allocatedArgv (include/diffCmd.hh:38). *)
From Verif Require Export Model.Params.
From Verif Require Export Model.Heap.
Open Scope Z_scope.
Open Scope mem_scope.

(** new of a stream or of the Params (params.cpp:48, 93; main.cpp:216). *)
Definition new_object : M Z := new_ (BInts []).
(** delete of one (params.cpp:29, 96, 101; main.cpp:226, 246), null included. *)
Definition delete_object (p : ptr) : M unit :=
  match p with Some s => delete_array s | None => mret tt end.
(** A pointer that is dereferenced (params.cpp:113, 118 and 121; main.cpp:31). *)
Definition use (p : ptr) : M unit := let! s := deref p in let! _ := get s in mret tt.

(** strdup (diffCmd.cpp:50 and 52). *)
Definition strdup (s : bytes) : M Z := new_ (BInts (map (fun c => Some (uchar c)) (cstr s) ++ [Some 0])).
(** allocatedArgv[currentParam++] = strdup(...) for each of [ss] (diffCmd.cpp:49-50, 52). *)
Fixpoint put_mem (av : Z) (ss : list bytes) (cur : Z) : M Z :=
  match ss with
  | [] => mret cur
  | s :: t => (let! c := strdup s in write_ptr av cur (Some c)) >>> put_mem av t ((cur + 1) mod UINT)
  end.
(** diffCmd.cpp:46-53. *)
Fixpoint fill_mem (av : Z) (argv files : list bytes) (cur : Z) : M Z :=
  match argv with
  | [] => mret cur
  | i :: t => let! cur := put_mem av (if beqb i (str "{}") then files else [i]) cur in fill_mem av t files cur
  end.
(** diffCmd.cpp:31-56 (computeArgv) of the DiffCmd [d] with the arguments [argv]. *)
Definition computeArgv_mem (d : Z) (argv files : list bytes) : M Z :=
  let! a := read_ptr d 0 in
  match a with
  | Some av => mret av
  | None =>
      let! av := new_ptrs ((count_params argv (Z.of_nat (length files)) 0 + 1) mod UINT) None in
      write_ptr d 0 (Some av) >>>
      let! cur := fill_mem av argv files 0 in
      write_ptr av cur None >>>
      mret av
  end.

(** diffCmd.cpp:13-17: from the element [k] on.  [fuel] is one more than the elements
    there are. *)
Fixpoint free_args (av : Z) (fuel : nat) (k : Z) : M unit :=
  match fuel with
  | O => mfail NoFuel
  | S fuel =>
      let! x := read_ptr av k in
      match x with
      | None => mret tt
      | Some s => delete_array s >>> free_args av fuel (k + 1)
      end
  end.
(** diffCmd.cpp:7-20 (~DiffCmd), and the object. *)
Definition delete_cmd (d : Z) : M unit :=
  let! a := read_ptr d 0 in
  (match a with
   | None => mret tt
   | Some av =>
       let! b := get av in
       free_args av (match b with BPtrs l => S (length l) | _ => O end) 0 >>>
       delete_array av
   end) >>>
  delete_array d.

(** include/params.hh:101-113 and params.cpp:38: the members and the local that are
    pointers.  [inputs] is a FifoMap (Model/FifoMap.v). *)
Record pmem : Type := mkPmem { m_inputs : list (bytes * ptr); m_cmd : ptr; m_text : ptr }.

(** params.cpp:43-123: what one argument makes and deletes; [p] tells the other members. *)
Definition arg_mem (opens : bytes -> bool) (p : params) (m : pmem) (tmp : bytes) : M pmem :=
  match p_text p, p_inDiff p with
  | None, false =>
      if beqb tmp (str "--") then
        let! s := new_object in
        mret (mkPmem (set beqb (None : ptr) (m_inputs m) (str "ARGS") (Some s)) (m_cmd m) (Some s))
      else if existsb (beqb tmp) (map str ["-W"; "--ascii"; "--color"; "--diff"; "--compress"; "--help"; "-h"; "--version"; "-v"; "--keep-order"]%string) then mret m
      else if beqb tmp (str "--diff-cmd") then
        match m_cmd m with
        | Some _ => mret m
        | None => let! d := new_ptrs 1 (Some None) in mret (mkPmem (m_inputs m) (Some d) (m_text m))
        end
      else if starts (str "-") tmp then mret m
      else
        let! s := new_object in
        if negb (opens tmp) then delete_object (Some s) >>> mret m
        else if contains beqb (m_inputs m) tmp then delete_object (Some s) >>> mret m
        else mret (mkPmem (set beqb (None : ptr) (m_inputs m) tmp (Some s)) (m_cmd m) (m_text m))
  | _, true => if beqb tmp (str ";") then mret m else use (m_cmd m) >>> mret m
  | Some _, false => use (m_text m) >>> mret m
  end.
(** params.cpp:43-123 *)
Fixpoint args_mem (opens : bytes -> bool) (p : params) (m : pmem) (args : list bytes) : M (presult params * pmem) :=
  match args with
  | [] => mret (PNext p, m)
  | a :: t =>
      let! m := arg_mem opens p m a in
      match read_arg opens p a with PNext p => args_mem opens p m t | r => mret (r, m) end
  end.

(** Goes through the inputs (params.cpp:28-29; main.cpp:92, 140, 175 and 196). *)
Fixpoint each (f : ptr -> M unit) (l : list (bytes * ptr)) : M unit :=
  match l with
  | [] => mret tt
  | (_, s) :: t => f s >>> each f t
  end.
(** params.cpp:26-32 (~Params), and the object. *)
Definition delete_params (self : Z) (m : pmem) : M unit :=
  each delete_object (m_inputs m) >>>
  match m_cmd m with Some d => delete_cmd d | None => mret tt end >>>
  delete_object (Some self).

(** main.cpp:213-248.  The first [n] inputs are read; [files] are the names of the
    prettified copies if the command is started (main.cpp:112). *)
Definition main_mem (opens : bytes -> bool) (args : list bytes) (n : nat) (files : option (list bytes)) : M unit :=
  let! self := new_object in
  let! rm := args_mem opens params0 (mkPmem [] None None) args in
  (match Params_read opens args with
   | PNext p =>
       each use (firstn n (m_inputs (snd rm))) >>>
       match p_cmd p, files with
       | Some d, Some files => let! c := deref (m_cmd (snd rm)) in let! _ := computeArgv_mem c (dc_argv d) files in mret tt
       | _, _ => mret tt
       end
   | _ => mret tt
   end) >>>
  delete_params self (snd rm).

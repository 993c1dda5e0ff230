(** When the terminal is in the mode of curses: src/main.cpp with the constructors
    and destructors of the viewers. *)
From Verif Require Export Model.Main.
Open Scope Z_scope.

(** newterm (curseOutput.cpp:287-300), endwin (curseSimpleOutput.cpp:526-536,
    curseSplitOutput.cpp:848-860), or what Model/Main.v tells. *)
Inductive tevent : Type := Opened | Closed | Did (e : event).

(** As [io] of Model/Main.v (for all of src/main.cpp), with these events. *)
Definition tio (A : Type) : Type := (list tevent * outcome A)%type.
Definition tret {A} (a : A) : tio A := ([], Val a).
Definition temit (e : tevent) : tio unit := ([e], Val tt).
Definition tbind {A B} (m : tio A) (k : A -> tio B) : tio B :=
  match m with
  | (l, Val a) => let '(l', o) := k a in (l ++ l', o)
  | (l, Die d) => (l, Die d)
  | (l, Hang) => (l, Hang)
  end.
(** What does not touch the terminal. *)
Definition lift {A} (m : io A) : tio A := (map Did (fst m), snd m).
Declare Scope tio_scope.
Notation "x <- m ;; k" := (tbind m (fun x => k)) (at level 61, m at next level, right associativity) : tio_scope.
Notation "m -;; k" := (tbind m (fun _ => k)) (at level 61, right associativity) : tio_scope.
Open Scope tio_scope.

Section Session.
  Variable e : env.
  Variable w : world.
  (** How the interactive part ends (curseSimpleOutput.cpp:27-33 and
      curseSplitOutput.cpp:43-72): it returns, dies, or does not end.  Three
      documents make computeDiff throw (84-85). *)
  Variable sits : list (bytes * tree) -> outcome unit.
  Definition sit (ev : event) (docs : list (bytes * tree)) : tio unit :=
    temit (Did ev) -;; ([], sits docs).

  (** main.cpp:196-203 *)
  Fixpoint viewAll (p : params) (inputs : list (bytes * src)) (ws : list (bytes * exn)) : tio (list (bytes * exn)) :=
    match inputs with
    | [] => tret ws
    | input :: r =>
        o <- lift (readOneFile e w p input) ;;
        match o with
        | None => tret ws
        | Some (root, ws') =>
            sit (EView (fst input) (erase root)) [(fst input, erase root)] -;; viewAll p r (ws ++ ws')
        end
    end.

  (** main.cpp:190-211; the constructor opens the terminal
      (curseSimpleOutput.cpp:17-20), [delete out] closes it (22-25). *)
  Definition run_session (p : params) : tio unit :=
    temit Opened -;;
    ws <- viewAll p (getInputs p) [] ;;
    temit Closed -;; lift (displayWarnings ws).

  (** main.cpp:132-168: [out] lives in a block of its own.  An exception nobody
      catches ends the program without unwinding (g++). *)
  Definition diff_session (p : params) : tio unit :=
    o <- lift (readAll e w p (getInputs p) [] []) ;;
    match o with
    | inr tt => tret tt
    | inl (docs, ws) =>
        temit Opened -;;
        (if (length docs =? 3)%nat then ([], Die Terminated) else sit (ECompare docs) docs) -;;
        temit Closed -;; lift (displayWarnings ws)
    end.

  (** main.cpp:213-248 *)
  Definition main_session (opens : bytes -> bool) (args : list bytes) : tio Z :=
    match Params_read opens args with
    | PError _ => tret 1
    | PStop _ => tret 0
    | PNext p =>
        (match p_cmd p with
         | Some d => lift (runExternalDiff e w p d)
         | None =>
             if p_diff p then diff_session p
             else if negb (p_compress p) && tty w then run_session p else lift (runStdout e w p)
         end) -;; tret 0
    end.
End Session.

(** Model of the signal handlers on the three platforms (src/lamppost/platformspecific: windows/Windows.cpp, xnix/Xnix.cpp,
    osx/Osx.cpp; CMakeLists.txt:93-103 picks one) around the program of ProgModel.v.

    What the operating system and the C library do is taken from their documentation:
    - A signal without a handler ends the process at once; this is the default for all three.
    - sigaction installs a handler for good (Xnix.cpp:24 does not pass SA_RESETHAND). Microsoft's signal installs it for one
      signal: before the handler is called the signal is back to its default.
    - abort, also as called by std::terminate, raises SIGABRT; if a handler for it returns the process ends nevertheless.

    Simplifications:
    - A handler runs as one step (see C57 for its log line). While std::terminate is under way no other signal is followed;
      neither are signals after main has returned.
    - HookSystemSignals and the two lines main prints around it are one step, as in ProgModel. *)
From Coq Require Import List Bool.
From Verif Require Import LifeModel ProgModel.
Import ListNotations.

Inductive sigkind : Type := SigInt | SigTerm | SigAbrt.
Inductive platform : Type := Xnix | Osx | Windows.

Definition kind_eqb (a b : sigkind) : bool :=
  match a, b with SigInt, SigInt | SigTerm, SigTerm | SigAbrt, SigAbrt => true | _, _ => false end.

(** HookSystemSignals: Xnix.cpp:26-27, Osx.cpp:4-7, Windows.cpp:22-24 *)
Definition hooks (p : platform) (k : sigkind) : bool :=
  match p, k with
  | Xnix, SigTerm | Xnix, SigInt => true
  | Windows, SigInt | Windows, SigTerm | Windows, SigAbrt => true
  | _, _ => false
  end.

(** signalHandler, Xnix.cpp:4-16, Windows.cpp:4-17: is it one of the cases that call HandleShutdownSignal? *)
Definition shuts_down (p : platform) (k : sigkind) : bool :=
  match p, k with
  | Xnix, SigInt | Xnix, SigTerm => true
  | Windows, SigInt | Windows, SigTerm | Windows, SigAbrt => true
  | _, _ => false
  end.

(** Is the handler still installed when it runs? (sigaction; Microsoft's signal) *)
Definition keeps (p : platform) : bool := match p with Windows => false | _ => true end.

(** How the process ended. *)
Inductive ending : Type := EndExit | EndSignal (k : sigkind) | EndAbort.

Record sproc : Type := mkSP { sp_prog : prog; sp_hook : sigkind -> bool; sp_end : option ending }.
Definition sinit : sproc := mkSP prog_init (fun _ => false) None.

Inductive slabel : Type :=
| SMain (l : plabel)        (* a step of main *)
| SSignal (k : sigkind)     (* a signal arrives, on any thread *)
| SAbort.                   (* std::terminate or abort, on any thread *)

Definition ended (s : sproc) (x : ending) : sproc := mkSP (sp_prog s) (sp_hook s) (Some x).

(** [None]: not possible here. [Some None]: undefined behaviour. *)
Definition sstep (p : platform) (l : slabel) (s : sproc) : option (option (sproc * list levent * list line)) :=
  match sp_end s with
  | Some _ => None
  | None =>
    match l with
    | SMain PSignal => None
    | SMain l' =>
        match pstep l' (sp_prog s) with
        | Some (Some (g, e, o)) =>
            Some (Some (mkSP g (match l' with PHook => hooks p | _ => sp_hook s end)
                             (match pg_pc g with PExit => Some EndExit | _ => None end), e, o))
        | Some None => Some None
        | None => None
        end
    | SSignal k =>
        match pg_pc (sp_prog s) with
        | PAbort _ => None
        | _ =>
          if sp_hook s k then
            let h := if keeps p then sp_hook s else fun k' => if kind_eqb k k' then false else sp_hook s k' in
            if shuts_down p k then
              match pstep PSignal (sp_prog s) with
              | Some (Some (g, e, o)) => Some (Some (mkSP g h None, e, o))
              | Some None => Some None
              | None => None
              end
            else Some (Some (mkSP (sp_prog s) h None, [], []))
          else Some (Some (ended s (EndSignal k), [], []))
        end
    | SAbort =>
        if sp_hook s SigAbrt && shuts_down p SigAbrt then
          match lstep LStop (pg_life (sp_prog s)) with                (* main:14-17 *)
          | Some (Some _) => Some (Some (ended s EndAbort, [], []))
          | Some None => Some None
          | None => None
          end
        else Some (Some (ended s EndAbort, [], []))
    end
  end.

Fixpoint sexec (p : platform) (ls : list slabel) (s : sproc) : option (sproc * list levent * list line) :=
  match ls with
  | [] => Some (s, [], [])
  | l :: ls' =>
      match sstep p l s with
      | Some (Some (s1, e1, o1)) => match sexec p ls' s1 with Some (s2, e2, o2) => Some (s2, e1 ++ e2, o1 ++ o2) | None => None end
      | _ => None
      end
  end.

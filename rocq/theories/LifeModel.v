(** Model of the application object's life: LampPost::Start, Stop, IsStopped (src/lamppost/LampPost.cpp,
    "LampPost"), the root bus's loop (src/lamppost/bus/Bus.cpp, "Bus"), and the program's use of them
    (src/main.cpp, "main").

    Simplifications:
    - At most one thread is in Start. Stop may come at any time, from any thread or signal handler; it
      is one step (its log line may block, see C57).
    - Of the bus we see mShouldRun and how many drained messages remain to be distributed; each
      distribution returns or throws (C27, C30). The plugins' own threads do not appear here; unloading
      returns if they do (C51), or a plugin's function throws.
    - The condition wait of Bus:143-149 ends because the predicate holds or because the time is over,
      so it can end at any time. *)
From Coq Require Import List Arith Bool.
Import ListNotations.

(** RunState.h:7-12 *)
Inductive runstate : Type := RsUnknown | RsRunning | RsStopped.

Inductive phase : Type :=
| Idle                    (* no call of Start in progress *)
| Setup                   (* LampPost:115-134 *)
| Check                   (* Bus:141, about to test mShouldRun *)
| Wait                    (* Bus:143-149 *)
| Test                    (* Bus:151, about to test mShouldRun *)
| Work (n : nat)          (* Bus:164-167, n messages left *)
| Ended                   (* LampPost:136-140, the bus has returned *)
| Detached                (* LampPost:42, about to unload the templates *)
| Unloaded                (* LampPost:45, about to drop the root bus *)
| Cleared.                (* LampPost:141-143 *)

Record life : Type := mkLife {
  lf_made : bool;         (* main:36 done *)
  lf_phase : phase;
  lf_bus : bool;          (* mRootBus is not null *)
  lf_should : bool;       (* the root bus's mShouldRun *)
  lf_run : runstate       (* mRunState *)
}.

(** main:11; nothing has been made yet *)
Definition life_init : life := mkLife false Idle false false RsUnknown.

(** Exceptions: std::runtime_error and what is derived from it, as all of LampPost's own are (Exception.h:12), or others. *)
Inductive thrown : Type := RuntimeError | OtherError.

Inductive llabel : Type :=
| LMake                   (* main:36, LampPost:6-22, Bus:8-10 *)
| LStart                  (* Start is called, LampPost:113 *)
| LRaise (x : thrown)     (* an exception leaves Setup or ReadConfigurationFile (C48), a callback (C30), or UnloadTemplates *)
| LBus                    (* LampPost:135, Bus:129 *)
| LCheck                  (* Bus:141 *)
| LWake                   (* the wait ends *)
| LTest (n : nat)         (* Bus:151-162; n messages are drained *)
| LWork                   (* Bus:166 for one message, or the end of the loop *)
| LDetach                 (* LampPost:41 *)
| LUnload                 (* LampPost:42 *)
| LClear                  (* LampPost:45 *)
| LReturn                 (* LampPost:143 *)
| LStop.                  (* main:14-17, LampPost:146-150, Bus:171-174 *)

Inductive levent : Type := EvRaised (x : thrown) | EvBusStarted | EvBusEnded | EvDetached | EvUnloaded | EvCleared | EvReturned.

(** [None]: not possible here. [Some None]: undefined behaviour, a null pointer is dereferenced. *)
Definition lstep (l : llabel) (s : life) : option (option (life * list levent)) :=
  let go p e := Some (Some (mkLife (lf_made s) p (lf_bus s) (lf_should s) (lf_run s), e)) in
  match l, lf_phase s with
  | LMake, Idle => if lf_made s then None else Some (Some (mkLife true Idle true false RsUnknown, []))
  | LStart, Idle =>
      if lf_made s then Some (Some (mkLife true Setup (lf_bus s) (lf_should s) RsRunning, [])) else None
  | LRaise x, Setup => go Idle [EvRaised x]
  | LRaise x, Work (S n) => go Idle [EvRaised x]          (* Bus:166 *)
  | LRaise x, Detached => go Idle [EvRaised x]            (* LampPost:42 *)
  | LBus, Setup =>
      if lf_bus s then Some (Some (mkLife (lf_made s) Check true true (lf_run s), [EvBusStarted])) else Some None
  | LCheck, Check => if lf_should s then go Wait [] else go Ended [EvBusEnded]
  | LWake, Wait => go Test []
  | LTest n, Test => if lf_should s then go (Work n) [] else go Ended [EvBusEnded]
  | LWork, Work 0 => go Check []
  | LWork, Work (S n) => go (Work n) []
  | LDetach, Ended => if lf_bus s then go Detached [EvDetached] else Some None
  | LUnload, Detached => go Unloaded [EvUnloaded]
  | LClear, Unloaded => Some (Some (mkLife (lf_made s) Cleared false (lf_should s) (lf_run s), [EvCleared]))
  | LReturn, Cleared => Some (Some (mkLife (lf_made s) Idle (lf_bus s) (lf_should s) RsRunning, [EvReturned]))
  | LStop, _ =>
      if lf_made s && lf_bus s
      then Some (Some (mkLife (lf_made s) (lf_phase s) (lf_bus s) false (lf_run s), [])) else Some None
  | _, _ => None
  end.

(** Executions without undefined behaviour. *)
Fixpoint lexec (ls : list llabel) (s : life) : option (life * list levent) :=
  match ls with
  | [] => Some (s, [])
  | l :: ls' =>
      match lstep l s with
      | Some (Some (s1, e1)) => match lexec ls' s1 with Some (s2, e2) => Some (s2, e1 ++ e2) | None => None end
      | _ => None
      end
  end.

(** LampPost:152-155 *)
Definition is_stopped (s : life) : bool := match lf_run s with RsStopped => true | _ => false end.

(** Model of the program: main and HandleShutdownSignal (src/main.cpp, "main"), on top of the application object's life
    (LifeModel.v).

    Simplifications:
    - Signals come as whole calls of HandleShutdownSignal (Xnix.cpp:9-25), at any time after main:24; see C57 for their log line.
    - An exception that leaves main ends the program by std::terminate: no destructor of a static object runs. When main
      returns, those of static objects run afterwards; they are not followed. *)
From Coq Require Import List Bool String.
From Verif Require Import LifeModel.
Import ListNotations.

Inductive ppc : Type :=
| PBegin                  (* main:23 *)
| PHooked                 (* main:26-35 *)
| PMade                   (* main:38 *)
| PStarted                (* main:40 *)
| PExit                   (* main:51, EXIT_SUCCESS *)
| PAbort (x : thrown).    (* std::terminate *)

(** What main itself prints. *)
Inductive line : Type := Hooking | Starting | What | Exiting.

Record prog : Type := mkProg { pg_pc : ppc; pg_life : life }.
Definition prog_init : prog := mkProg PBegin life_init.

Inductive plabel : Type :=
| PHook                   (* main:23-26 *)
| PMake                   (* main:36 *)
| PMakeFails (x : thrown) (* an exception leaves the constructor, main:36 *)
| PStart                  (* main:40 *)
| PApp (l : llabel)       (* a step of LampPost::Start *)
| PSignal.                (* main:14-17 *)

(** [None]: not possible here. [Some None]: undefined behaviour. *)
Definition pstep (l : plabel) (s : prog) : option (option (prog * list levent * list line)) :=
  match l, pg_pc s with
  | PHook, PBegin => Some (Some (mkProg PHooked (pg_life s), [], [Hooking; Starting]))
  | PMake, PHooked =>
      match lstep LMake (pg_life s) with
      | Some (Some (f, es)) => Some (Some (mkProg PMade f, es, []))
      | Some None => Some None
      | None => None
      end
  | PMakeFails x, PHooked => Some (Some (mkProg (PAbort x) (pg_life s), [], []))
  | PStart, PMade =>
      match lstep LStart (pg_life s) with
      | Some (Some (f, es)) => Some (Some (mkProg PStarted f, es, []))
      | Some None => Some None
      | None => None
      end
  | PApp l', PStarted =>
      match l' with
      | LMake | LStart | LStop => None
      | _ =>
          match lstep l' (pg_life s) with
          | Some (Some (f, es)) =>
              match l' with
              | LReturn => Some (Some (mkProg PExit f, es, [Exiting]))                                    (* main:49-51 *)
              | LRaise RuntimeError => Some (Some (mkProg (PAbort RuntimeError) f, es, [What]))           (* main:42-47 *)
              | LRaise OtherError => Some (Some (mkProg (PAbort OtherError) f, es, []))
              | _ => Some (Some (mkProg PStarted f, es, []))
              end
          | Some None => Some None
          | None => None
          end
      end
  | PSignal, PBegin | PSignal, PExit | PSignal, PAbort _ => None
  | PSignal, pc =>
      match lstep LStop (pg_life s) with
      | Some (Some (f, es)) => Some (Some (mkProg pc f, es, []))
      | Some None => Some None
      | None => None
      end
  | _, _ => None
  end.

Fixpoint pexec (ls : list plabel) (s : prog) : option (prog * list levent * list line) :=
  match ls with
  | [] => Some (s, [], [])
  | l :: ls' =>
      match pstep l s with
      | Some (Some (s1, e1, o1)) => match pexec ls' s1 with Some (s2, e2, o2) => Some (s2, e1 ++ e2, o1 ++ o2) | None => None end
      | _ => None
      end
  end.

(** Model of the Windows service, src/lamppost/platformspecific/windows/service/Service.cpp ("Service"): the thread of
    Service::Main, the thread on which the service control manager calls the control handler, and the thread of the application.

    Simplifications:
    - RegisterServiceCtrlHandlerEx succeeds; from then on the control manager may call the handler at any time, one call after
      the other, whatever controls are accepted. Only the stop control does anything.
    - The assignments to one field of mStatus and the increment of the counter are single steps; SetServiceStatus reads the
      three fields we follow at once. (The real code has data races here, that is, undefined behaviour.)
    - The application has no configuration files; no exception leaves Start. *)
From Coq Require Import List Arith NArith Bool.
From Verif Require Import LifeModel.
Import ListNotations.

(** SERVICE_START_PENDING, SERVICE_RUNNING, SERVICE_STOP_PENDING, SERVICE_STOPPED *)
Inductive svc : Type := StartPending | Running | StopPending | Stopped.

(** dwCurrentState, dwControlsAccepted is SERVICE_ACCEPT_STOP, dwCheckPoint *)
Record status : Type := mkStatus { st_state : svc; st_accept : bool; st_check : N }.

(** Where a call of ReportStatus is, Service:219-247. *)
Inductive rpc : Type := RState | RControls | RCheck | RSend.

(** What the main thread does after a report. *)
Inductive mnext : Type := ToCreate | ToSpawn | ToStop | ToEnd.
Inductive mpc : Type :=
| MReport (x : svc) (r : rpc) (k : mnext)
| MCreate                 (* Service:183 *)
| MSpawn                  (* Service:199 *)
| MTest                   (* Service:201 *)
| MWait                   (* Service:204 *)
| MStop                   (* Service:210 *)
| MJoin                   (* Service:211 *)
| MEnd.

Inductive hnext : Type := ToSet | ToIdle.
Inductive hpc : Type :=
| HIdle
| HReport (x : svc) (r : rpc) (k : hnext)
| HSet                    (* Service:260 *)
| HRead.                  (* Service:261, the argument *)

Record service : Type := mkService {
  sv_main : mpc;
  sv_hand : hpc;
  sv_status : status;     (* mStatus *)
  sv_count : N;           (* Service:221 *)
  sv_event : option bool; (* mStopEventHandle and whether the event is set *)
  sv_spawned : bool;      (* the application's thread exists and has not called Start yet *)
  sv_life : life
}.

(** Service:171 is reached; mStatus is not initialised. *)
Definition service_init : service :=
  mkService (MReport StartPending RState ToCreate) HIdle (mkStatus Stopped false 0) 1 None false (mkLife true Idle true false RsUnknown).

Inductive slabel : Type :=
| SMain                   (* the main thread goes on *)
| SCreate (ok : bool)     (* CreateEvent *)
| SControl                (* the handler is called with SERVICE_CONTROL_STOP *)
| SHand                   (* the handler goes on *)
| SApp (l : llabel).      (* the application's thread *)

Inductive sevent : Type :=
| Reported (x : status)   (* SetServiceStatus, Service:247 *)
| AppStop                 (* mLampPost.Stop(), Service:210 *)
| Joined                  (* Service:211 *)
| App (e : levent).

(** DWORD *)
Definition dword (n : N) : N := N.modulo n 4294967296.

Definition starting (x : svc) : bool := match x with StartPending => true | _ => false end.
Definition settled (x : svc) : bool := match x with Running | Stopped => true | _ => false end.

(** One step of ReportStatus(x, ...), Service:219-247: the fields, the counter, what is reported, and the next place. *)
Definition report_step (x : svc) (r : rpc) (f : status) (c : N) : status * N * list sevent * option rpc :=
  match r with
  | RState => (mkStatus x (st_accept f) (st_check f), c, [], Some RControls)                       (* 224 *)
  | RControls => (mkStatus (st_state f) (negb (starting x)) (st_check f), c, [], Some RCheck)      (* 228-235 *)
  | RCheck =>                                                                                      (* 237-244 *)
      if settled x then (mkStatus (st_state f) (st_accept f) 0, c, [], Some RSend)
      else (mkStatus (st_state f) (st_accept f) c, dword (c + 1), [], Some RSend)
  | RSend => (f, c, [Reported f], None)                                                            (* 247 *)
  end.

Definition after_main (k : mnext) : mpc :=
  match k with ToCreate => MCreate | ToSpawn => MSpawn | ToStop => MStop | ToEnd => MEnd end.
Definition after_hand (k : hnext) : hpc := match k with ToSet => HSet | ToIdle => HIdle end.

Definition with_main (p : mpc) (s : service) : service :=
  mkService p (sv_hand s) (sv_status s) (sv_count s) (sv_event s) (sv_spawned s) (sv_life s).
Definition with_hand (p : hpc) (s : service) : service :=
  mkService (sv_main s) p (sv_status s) (sv_count s) (sv_event s) (sv_spawned s) (sv_life s).
Definition with_report (f : status) (c : N) (s : service) : service :=
  mkService (sv_main s) (sv_hand s) f c (sv_event s) (sv_spawned s) (sv_life s).
Definition with_event (e : option bool) (s : service) : service :=
  mkService (sv_main s) (sv_hand s) (sv_status s) (sv_count s) e (sv_spawned s) (sv_life s).
Definition with_life (b : bool) (l : life) (s : service) : service :=
  mkService (sv_main s) (sv_hand s) (sv_status s) (sv_count s) (sv_event s) b l.

(** [None]: not possible here. [Some None]: undefined behaviour in the application. *)
Definition sstep (l : slabel) (s : service) : option (option (service * list sevent)) :=
  match l with
  | SMain =>
      match sv_main s with
      | MReport x r k =>
          let '(f, c, evs, nx) := report_step x r (sv_status s) (sv_count s) in
          Some (Some (with_main (match nx with Some r' => MReport x r' k | None => after_main k end) (with_report f c s), evs))
      | MSpawn => Some (Some (with_main MTest (with_life true (sv_life s) s), []))                 (* Service:199 *)
      | MTest => Some (Some (with_main (if is_stopped (sv_life s) then MStop else MWait) s, []))   (* Service:201 *)
      | MWait =>                                                                                   (* Service:204-205 *)
          match sv_event s with Some true => Some (Some (with_main (MReport Stopped RState ToStop) s, [])) | _ => None end
      | MStop =>                                                                                   (* Service:210 *)
          match lstep LStop (sv_life s) with
          | Some (Some (l', _)) => Some (Some (with_main MJoin (with_life (sv_spawned s) l' s), [AppStop]))
          | Some None => Some None
          | None => None
          end
      | MJoin =>                                                                                   (* Service:211 *)
          match lf_phase (sv_life s), sv_spawned s with
          | Idle, false => Some (Some (with_main MEnd s, [Joined]))
          | _, _ => None
          end
      | MCreate | MEnd => None
      end
  | SCreate ok =>                                                                                  (* Service:183-197 *)
      match sv_main s with
      | MCreate =>
          if ok then Some (Some (with_main (MReport Running RState ToSpawn) (with_event (Some false) s), []))
          else Some (Some (with_main (MReport Stopped RState ToEnd) s, []))
      | _ => None
      end
  | SControl =>                                                                                    (* Service:255-257 *)
      match sv_hand s with HIdle => Some (Some (with_hand (HReport StopPending RState ToSet) s, [])) | _ => None end
  | SHand =>
      match sv_hand s with
      | HReport x r k =>
          let '(f, c, evs, nx) := report_step x r (sv_status s) (sv_count s) in
          Some (Some (with_hand (match nx with Some r' => HReport x r' k | None => after_hand k end) (with_report f c s), evs))
      | HSet =>                                                                                    (* Service:260 *)
          Some (Some (with_hand HRead (with_event (match sv_event s with Some _ => Some true | None => None end) s), []))
      | HRead => Some (Some (with_hand (HReport (st_state (sv_status s)) RState ToIdle) s, []))     (* Service:261 *)
      | HIdle => None
      end
  | SApp l' =>                                                                                     (* Service:214-217 *)
      match l' with
      | LMake | LStop | LRaise _ => None
      | LStart =>
          if sv_spawned s then
            match lstep LStart (sv_life s) with
            | Some (Some (f, es)) => Some (Some (with_life false f s, map App es))
            | Some None => Some None
            | None => None
            end
          else None
      | _ =>
          match lstep l' (sv_life s) with
          | Some (Some (f, es)) => Some (Some (with_life (sv_spawned s) f s, map App es))
          | Some None => Some None
          | None => None
          end
      end
  end.

(** Executions without undefined behaviour. *)
Fixpoint sexec (ls : list slabel) (s : service) : option (service * list sevent) :=
  match ls with
  | [] => Some (s, [])
  | l :: ls' =>
      match sstep l s with
      | Some (Some (s1, e1)) => match sexec ls' s1 with Some (s2, e2) => Some (s2, e1 ++ e2) | None => None end
      | _ => None
      end
  end.

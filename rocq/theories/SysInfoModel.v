(** The SysInfo plugin on the bus: src/plugins/sysinfo/SysInfo.cpp over BusModel.

    BusModel leaves open how a callback ends. Here the two lambdas of SysInfo end as their code says; all other
    callbacks stay open. Any number of instances.

    Simplifications: those of BusModel. Logging (SysInfo.cpp:25, 32-35) is left out (see SayModel); it neither throws nor calls the bus.
    The worker thread (SysInfo.cpp:45-59) publishes like any other client ([hello]; see SayModel). *)
From Coq Require Import String List Arith Bool.
From Verif Require Import Prelude OMap DatagramModel DatagramSpec BusModel.
Import ListNotations.
Open Scope list_scope.

(** Which user callbacks are the lambdas of SysInfo.cpp:22-26 and of 30-40. *)
Record zconf : Type := mkConf { zc_log : nat -> bool; zc_answer : nat -> bool }.

(** datagram.Get<std::string>(), SysInfo.cpp:24 (RawDatagram.h:103-115). *)
Definition get_string (d : dg) : res string := match d with Val (DStr s) => Ok s | _ => Throw InvalidOperation end.

(** SysInfo.cpp:37 and 51. *)
Definition reply : dg := Val (DStr "This is the response message.").
Definition hello : dg := Val (DStr "Hello Bus!").

(** Where the provider's lambda is: before Respond (39), in the publication [i], behind it. *)
Inductive zpc : Type := ZBefore | ZFlying (i : nat) | ZDone (r : res unit).

(** [z_pc r]: the lambda on the bus thread of [r], meaningful while it runs. *)
Record zstate : Type := mkZ { z_bus : state; z_pc : nat -> zpc }.
Definition zinit : zstate := mkZ init (fun _ => ZBefore).

Inductive zlabel : Type :=
| ZBus (l : label)
| ZRespond (r : nat).        (* SysInfo.cpp:39 on the bus thread of [r] *)

Definition pc_set (f : nat -> zpc) (r : nat) (x : zpc) : nat -> zpc := fun r' => if Nat.eqb r' r then x else f r'.

(** The call the bus thread of [r] is in. *)
Definition call_at (st : state) (r : nat) : option call :=
  match get_bus st r with
  | Some x => match b_runner x with RDist _ _ c _ => c | _ => None end
  | None => None
  end.

(** May the callback the bus thread of [r] is in return, or throw [e]? *)
Definition may_return (k : zconf) (z : zstate) (r : nat) : bool :=
  match call_at (z_bus z) r with
  | Some (CallData u d) => if zc_log k u then match get_string d with Ok _ => true | _ => false end else true
  | Some (CallProvider _ _ u _) => if zc_answer k u then match z_pc z r with ZDone (Ok _) => true | _ => false end else true
  | _ => true
  end.
Definition exc_eqb (a b : exc) : bool :=
  match a, b with
  | InvalidOperation, InvalidOperation | BadFunctionCall, BadFunctionCall => true
  | KeyNotFound x, KeyNotFound y | ArgumentNull x, ArgumentNull y | DuplicateKey x, DuplicateKey y
  | OperationFailed x, OperationFailed y | OtherException x, OtherException y => String.eqb x y
  | IndexOutOfBounds x, IndexOutOfBounds y => Nat.eqb x y
  | _, _ => false
  end.
Definition may_throw (k : zconf) (z : zstate) (r : nat) (e : exc) : bool :=
  match call_at (z_bus z) r with
  | Some (CallData u d) => if zc_log k u then match get_string d with Throw e' => exc_eqb e e' | _ => false end else true
  | Some (CallProvider _ _ u _) => if zc_answer k u then match z_pc z r with ZDone (Throw e') => exc_eqb e e' | _ => false end else true
  | _ => true
  end.
Definition allowed (k : zconf) (z : zstate) (l : label) : bool :=
  match l with LReturn r => may_return k z r | LThrow r e => may_throw k z r e | _ => true end.

(** A publication that ends is that of the lambda waiting for it. *)
Definition note (evs : list event) (f : nat -> zpc) : nat -> zpc :=
  fold_left (fun g e => match e with
                        | EvFlight i x => fun r => match g r with ZFlying j => if Nat.eqb i j then ZDone x else g r | _ => g r end
                        | _ => g
                        end) evs f.

Definition zstep (k : zconf) (l : zlabel) (z : zstate) : option (zstate * list event) :=
  match l with
  | ZBus l =>
    if allowed k z l then
      match step l (z_bus z) with
      | None => None
      | Some (st', evs) =>
        let f := note evs (z_pc z) in
        Some (mkZ st' (match l with LReturn r | LThrow r _ => pc_set f r ZBefore | _ => f end), evs)
      end
    else None
  | ZRespond r =>
    match call_at (z_bus z) r, z_pc z r with
    | Some (CallProvider p id u _), ZBefore =>
      if zc_answer k u then
        match step (LRespond p id reply) (z_bus z) with
        | None => None
        | Some (st', evs) => Some (mkZ st' (note evs (pc_set (z_pc z) r (ZFlying (length (s_flights (z_bus z)))))), evs)
        end
      else None
    | _, _ => None
    end
  end.

Fixpoint zexec (k : zconf) (ls : list zlabel) (z : zstate) : option (zstate * list event) :=
  match ls with
  | [] => Some (z, [])
  | l :: ls' => match zstep k l z with
                | Some (z1, e1) => match zexec k ls' z1 with Some (z2, e2) => Some (z2, e1 ++ e2) | None => None end
                | None => None
                end
  end.

(** Initialize, SysInfo.cpp:17-43, on the instance's bus [b] with lambdas [u] and [v]; [q] is the provider it creates. *)
Definition initialize (b u v q : nat) : list label :=
  [LPub b "/sysinfo"; LSub b "/sysinfo" (Some (Some u)); LProvider b "/sysinfoaction" (Some v); LInstallProvider q].
(** Deinitialize, SysInfo.cpp:61-68, for subscriber [s] and publisher [p]. *)
Definition deinitialize (b s p : nat) : list label := [LDelSub b s; LDelPub b p].

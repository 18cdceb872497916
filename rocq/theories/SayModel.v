(** What the SysInfo plugin sends and writes: all of src/plugins/sysinfo/SysInfo.cpp ("SysInfo"), over SysInfoModel (its two
    lambdas on the bus) and with the log calls and the worker that are left out there; src/lamppost/plugin/PluginInstance.cpp
    ("PluginInstance").

    Simplifications: those of SysInfoModel. A log call is one step; that its line is written whole is C56. The sleep between
    two rounds (SysInfo:58) is the choice when to go on. Start and Stop of one instance alternate (C51). *)
From Coq Require Import String List Arith Bool NArith ZArith.
From Verif Require Import Prelude OMap DatagramModel DatagramSpec SerialSpec BusModel BusSpec SysInfoModel LogModel.
From Verif Require Import BusModel.
Import ListNotations.
Open Scope list_scope.

(** An instance: its identifier, which is also its log's prefix (PluginInstance:10); its lambdas of SysInfo:22-26 and 30-40; its
    publisher of SysInfo:19; mSendDatagram. *)
Record yinst : Type := mkInst { yi_name : string; yi_hear : nat; yi_answer : nat; yi_pub : nat; yi_send : bool }.

(** SysInfo:42 *)
Definition send_flag (h : heap) (conf : loc) : res bool :=
  res_map (fun v => match v with DBool b => b | _ => false end) (dg_path h conf TyBool "send-datagram" (DBool false)).

Definition lambdas (is : list yinst) : zconf :=
  mkConf (fun u => existsb (fun i => Nat.eqb (yi_hear i) u) is) (fun u => existsb (fun i => Nat.eqb (yi_answer i) u) is).

(** Where a worker is, SysInfo:45-59. *)
Inductive wpos : Type :=
| WNone                   (* there is none, or Run has returned *)
| WTest                   (* 47 *)
| WPublish                (* 53 *)
| WIn (i : nat)           (* inside publication i *)
| WSay                    (* 54 *)
| WDead.                  (* an exception has left Run *)

(** [y_said r]: the lambda on the bus thread of [r] has made its log call. *)
Record ystate : Type := mkYS { y_z : zstate; y_said : nat -> bool; y_run : nat -> bool; y_pos : nat -> wpos }.
Definition yinit : ystate := mkYS zinit (fun _ => false) (fun _ => false) (fun _ => WNone).

Inductive ylabel : Type :=
| YBus (l : zlabel)       (* any step on the bus *)
| YLog (r : nat)          (* the lambda on the bus thread of r makes its log call, SysInfo:25, 35 *)
| YStart (k : nat)        (* PluginInstance:35-41 *)
| YStop (k : nat)         (* PluginInstance:43-54 *)
| YWork (k : nat).        (* the worker goes on *)

Inductive source : Type := Thread (r : nat) | Worker.
Inductive yevent : Type :=
| YEv (e : event)
| YPub (k i : nat)                                        (* the worker of instance k calls Publish: publication i *)
| YLine (k : nat) (w : source) (c : LogModel.call).       (* a log call of instance k *)

Definition fset {A} (f : nat -> A) (k : nat) (x : A) : nat -> A := fun k' => if Nat.eqb k' k then x else f k'.

Section Text.
  Variables (double_text : N -> string) (other_text : string -> string -> string) (is : list yinst).

  Fixpoint index (p : yinst -> bool) (l : list yinst) (k : nat) : option (nat * yinst) :=
    match l with
    | [] => None
    | i :: l' => if p i then Some (k, i) else index p l' (S k)
    end.

  (** The log call a callback makes. SysInfo:24-25; SysInfo:32-35, Datagram.h:102-107 (the text is that of C16). *)
  Definition says (c : BusModel.call) : option (nat * LogModel.call) :=
    match c with
    | CallData u d =>
        match index (fun i => Nat.eqb (yi_hear i) u) is 0, get_string d with
        | Some (k, i), Ok s => Some (k, mkCall (yi_name i) ("Got it: " ++ s)%string 0%Z)
        | _, _ => None
        end
    | CallProvider _ _ u d =>
        match index (fun i => Nat.eqb (yi_answer i) u) is 0 with
        | Some (k, i) => Some (k, mkCall (yi_name i) ("Received action request: " ++ render double_text other_text d)%string 0%Z)
        | None => None
        end
    | _ => None
    end.

  (** Is the bus thread of [r] in a lambda that has its log call still to make? *)
  Definition owes (y : ystate) (r : nat) : option (nat * LogModel.call) :=
    match call_at (z_bus (y_z y)) r with
    | Some c => if y_said y r then None else says c
    | None => None
    end.

  (** The workers whose publication returns or throws. *)
  Definition wnote (evs : list event) (f : nat -> wpos) : nat -> wpos :=
    fold_left (fun g e => match e with
                          | EvFlight i x => fun k => match g k with
                                                     | WIn j => if Nat.eqb i j then match x with Ok _ => WSay | _ => WDead end else g k
                                                     | p => p
                                                     end
                          | _ => g
                          end) evs f.

  (** The lambdas end, and Respond is called, only after the log call. *)
  Definition waits (y : ystate) (l : zlabel) : bool :=
    match l with
    | ZBus (LReturn r) | ZBus (LThrow r _) | ZRespond r => match owes y r with Some _ => true | None => false end
    | _ => false
    end.

  Definition bus_step (l : zlabel) (f : nat -> wpos) (y : ystate) : option (ystate * list yevent) :=
    match zstep (lambdas is) l (y_z y) with
    | Some (z, evs) =>
        let said := match l with ZBus (LReturn r) | ZBus (LThrow r _) => fset (y_said y) r false | _ => y_said y end in
        Some (mkYS z said (y_run y) (wnote evs f), map YEv evs)
    | None => None
    end.

  Definition ystep (l : ylabel) (y : ystate) : option (ystate * list yevent) :=
    match l with
    | YBus l => if waits y l then None else bus_step l (y_pos y) y
    | YLog r =>
        match owes y r with
        | Some (k, c) => Some (mkYS (y_z y) (fset (y_said y) r true) (y_run y) (y_pos y), [YLine k (Thread r) c])
        | None => None
        end
    | YStart k =>
        match nth_error is k, y_pos y k with
        | Some _, WNone => Some (mkYS (y_z y) (y_said y) (fset (y_run y) k true) (fset (y_pos y) k WTest), [])
        | _, _ => None
        end
    | YStop k => Some (mkYS (y_z y) (y_said y) (fset (y_run y) k false) (y_pos y), [])
    | YWork k =>
        match nth_error is k with
        | None => None
        | Some i =>
            match y_pos y k with
            | WTest =>                                                                                           (* 47-49 *)
                Some (mkYS (y_z y) (y_said y) (y_run y)
                        (fset (y_pos y) k (if y_run y k then if yi_send i then WPublish else WTest else WNone)), [])
            | WPublish =>                                                                                        (* 51-53 *)
                let n := length (s_flights (z_bus (y_z y))) in
                match bus_step (ZBus (LPublish (yi_pub i) hello)) (fset (y_pos y) k (WIn n)) y with
                | Some (y', evs) => Some (y', YPub k n :: evs)
                | None => None
                end
            | WSay =>                                                                                            (* 54 *)
                Some (mkYS (y_z y) (y_said y) (y_run y) (fset (y_pos y) k WTest), [YLine k Worker (mkCall (yi_name i) "Sent datagram" 0%Z)])
            | _ => None
            end
        end
    end.

  Fixpoint yexec (ls : list ylabel) (y : ystate) : option (ystate * list yevent) :=
    match ls with
    | [] => Some (y, [])
    | l :: ls' => match ystep l y with
                  | Some (y1, e1) => match yexec ls' y1 with Some (y2, e2) => Some (y2, e1 ++ e2) | None => None end
                  | None => None
                  end
    end.
End Text.

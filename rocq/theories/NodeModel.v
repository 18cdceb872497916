(** Model of a process with link plugins on its bus: the transition system of BusModel, with the steps of the links
    (src/plugins/link/Link.cpp, "Link") added.

    Simplifications: whatever a link's socket delivers is chosen by the environment (see C58 for the frames). The
    links have been initialised; their callbacks are installed by the bus steps that SetMessageCallback stands for.
    A callback sends at the moment it is entered (Link:73-97); it returns by the step LReturn. *)
From Coq Require Import String List Arith Bool.
From Verif Require Import Prelude BusModel LinkModel.
Import ListNotations.
Open Scope list_scope.

Inductive nlabel : Type :=
| NBus (l : label)                               (* any step of the bus model *)
| NReceive (k : nat) (r : role) (m : bmsg).      (* link k takes m from its socket: Link:161-171 or 175-183 *)

Inductive nevent : Type :=
| NEv (e : event)
| NSent (k : nat) (r : role) (root : nat) (p : pubn)      (* link k sends out the message of publication p *)
| NReceived (k : nat) (r : role) (m : bmsg) (i : nat).    (* link k took m from its socket and begins publication i *)

Definition indexed {A} (l : list A) : list (nat * A) := combine (seq 0 (length l)) l.

(** Link:72-97 for every link whose callback is called. *)
Definition transmit (ks : list link) (e : event) : list nevent :=
  match e with
  | EvInvoke root _ p (CallMsg u m) =>
      flat_map (fun x => if Nat.eqb (lk_cb (snd x)) u then map (fun r => NSent (fst x) r root p) (on_message (snd x) m) else []) (indexed ks)
  | _ => []
  end.

Definition observe (ks : list link) (evs : list event) : list nevent := flat_map (fun e => NEv e :: transmit ks e) evs.

Definition nstep (ks : list link) (l : nlabel) (st : state) : option (state * list nevent) :=
  match l with
  | NBus l' => match step l' st with Some (st', evs) => Some (st', observe ks evs) | None => None end
  | NReceive k r m =>
      match nth_error ks k with
      | Some lk =>
          if lk_socket lk (sub_socket r) then                 (* Link:194 *)
            match step (LPublishMsg (lk_bus lk) (on_receive lk m)) st with
            | Some (st', evs) => Some (st', NReceived k r m (length (s_flights st)) :: observe ks evs)
            | None => None
            end
          else None
      | None => None
      end
  end.

Fixpoint nexec (ks : list link) (ls : list nlabel) (st : state) : option (state * list nevent) :=
  match ls with
  | [] => Some (st, [])
  | l :: ls' =>
      match nstep ks l st with
      | Some (st', e) => match nexec ks ls' st' with Some (st'', e') => Some (st'', e ++ e') | None => None end
      | None => None
      end
  end.

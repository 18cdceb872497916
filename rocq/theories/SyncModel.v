(** The synchronous Request (src/lamppost/bus/ActionConsumer.cpp:42-71) on the bus: BusModel and RequestModel put
    together. Both describe the same threads; what they have in common happens at once in both.

    - RequestAsync (ActionConsumer.cpp:22-40, called from 52) is the step [LRequest] of the bus; it registers the lambda
      of lines 54-62. Its publication is the flight it creates; line 39 returns or throws when that flight ends.
    - The lambda is entered when the bus thread invokes the callback of that request, and ends when that callback
      returns.
    - Everything else Request and the lambda do is theirs alone.

    Simplifications: those of the two models. The lambda does not throw (copying a datagram may run out of memory). *)
From Coq Require Import String List Arith Bool.
From Verif Require Import Prelude DatagramModel DatagramSpec BusModel RequestModel.
Import ListNotations.
Open Scope list_scope.

(** The call of Request: its consumer, the invocation id it drew, the number of its lambda. *)
Record skey : Type := mkKey { k_c : nat; k_id : string; k_u : nat }.

Definition same (k : skey) (c : nat) (id : string) (u : nat) : bool :=
  Nat.eqb c (k_c k) && String.eqb id (k_id k) && Nat.eqb u (k_u k).

(** [j_pub]: the publication of the request. *)
Record jstate : Type := mkJ { j_bus : state; j_q : qmach; j_pub : option nat }.
Definition jinit : jstate := mkJ init qinit None.

Inductive jlabel : Type := JBus (l : label) | JLocal (l : qlabel).
Inductive jevent : Type := JB (e : event) | JQ (e : qevent).

(** What an event of the bus is to Request. *)
Definition sync_event (k : skey) (i : option nat) (e : event) : list qlabel :=
  match e with
  | EvRequest c id u _ => if same k c id u then [QRegister] else []                       (* ActionConsumer.cpp:33 *)
  | EvInvoke _ _ _ (CallRequest c id u d) => if same k c id u then [QEnter d] else []     (* 77 *)
  | EvFlight n r =>                                                                       (* 39 *)
      match i with
      | Some n' => if Nat.eqb n n' then match r with Ok _ => [QPublish] | Throw e => [QFail e] | _ => [] end else []
      | None => []
      end
  | _ => []
  end.

(** Is the bus thread of [r] inside the lambda? *)
Definition in_lambda (k : skey) (st : state) (r : nat) : bool :=
  match get_bus st r with
  | Some x => match b_runner x with RDist _ _ (Some (CallRequest c id u _)) _ => same k c id u | _ => false end
  | None => false
  end.

(** What a step of the bus is to Request before it happens: the lambda ends when the callback does. *)
Definition sync_label (k : skey) (st : state) (l : label) : list qlabel :=
  match l with LReturn r => if in_lambda k st r then [QEnd] else [] | _ => [] end.
(** The lambda does not throw. *)
Definition lambda_throws (k : skey) (st : state) (l : label) : bool :=
  match l with LThrow r _ => in_lambda k st r | _ => false end.

Definition pub_of (k : skey) (st : state) (l : label) (i : option nat) : option nat :=
  match l with LRequest c id _ (Some u) => if same k c id u then Some (length (s_flights st)) else i | _ => i end.

(** Steps of Request and the lambda that are not the bus's. *)
Definition own_step (l : qlabel) : bool :=
  match l with QRegister | QPublish | QFail _ | QEnter _ | QEnd => false | _ => true end.

(** Nothing follows undefined behaviour. *)
Definition jstep (k : skey) (l : jlabel) (j : jstate) : option (jstate * list jevent) :=
  match j_q j with
  | QUndef => None
  | QLive _ =>
    match l with
    | JBus l =>
        if lambda_throws k (j_bus j) l then None
        else match step l (j_bus j) with
             | None => None
             | Some (st', evs) =>
               let i := pub_of k (j_bus j) l (j_pub j) in
               match qexec (sync_label k (j_bus j) l ++ flat_map (sync_event k i) evs) (j_q j) with
               | Some (q', es) => Some (mkJ st' q' i, map JB evs ++ map JQ es)
               | None => None
               end
             end
    | JLocal l =>
        if own_step l then
          match qstep l (j_q j) with
          | Some (q', es) => Some (mkJ (j_bus j) q' (j_pub j), map JQ es)
          | None => None
          end
        else None
    end
  end.

Fixpoint jexec (k : skey) (ls : list jlabel) (j : jstate) : option (jstate * list jevent) :=
  match ls with
  | [] => Some (j, [])
  | l :: ls' => match jstep k l j with
                | Some (j1, e1) => match jexec k ls' j1 with Some (j2, e2) => Some (j2, e1 ++ e2) | None => None end
                | None => None
                end
  end.

(** Vocabulary of the theorems on SyncModel. *)
From Coq Require Import String List Arith Bool.
From Verif Require Import Prelude DatagramSpec BusModel BusSpec BusProofs RequestModel SyncModel.
Import ListNotations.
Open Scope list_scope.

(** The two projections of an execution and of its trace. *)
Definition bus_labels (ls : list jlabel) : list label := flat_map (fun l => match l with JBus l => [l] | JLocal _ => [] end) ls.
Definition bus_of (tr : list jevent) : list event := flat_map (fun e => match e with JB e => [e] | JQ _ => [] end) tr.
Definition req_of (tr : list jevent) : list qevent := flat_map (fun e => match e with JQ e => [e] | JB _ => [] end) tr.

(** The bus invokes the request callback [u] of consumer [c] under [id], with [d]. *)
Definition calls (k : skey) (tr : list event) : list dg :=
  flat_map (fun e => match e with EvInvoke _ _ _ (CallRequest c id u d) => if same k c id u then [d] else [] | _ => [] end) tr.

(** Consumer [c] was created on a bus under [r], and its response subscriber is registered. *)
Definition consumer_under (st : state) (r c : nat) : Prop :=
  exists y b x, nth_error (s_conss st) c = Some y /\ get_bus st b = Some x /\ In (co_sub y) (b_subs x) /\ below st r b.

(** Request [k] has not been made yet, and no callback for its id is running. *)
Definition before (k : skey) (j : jstate) : Prop :=
  reach (j_bus j) /\ j_q j = qinit /\ forall r b u d, ~ calling (j_bus j) r b (CallRequest (k_c k) (k_id k) u d).

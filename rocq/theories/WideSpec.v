(** Vocabulary of C94: what the callbacks of subscribers on any process of a cluster are called with. *)
From Coq Require Import String List Arith Bool.
From Verif Require Import Prelude BusModel BusSpec LinkModel NodeModel NetModel ClusterModel.
Import ListNotations.
Open Scope list_scope.

(** The calls of the callback of subscriber [s] of process [i], in order. *)
Definition calls (T : list (nat * nevent)) (i s : nat) : list call :=
  flat_map (fun x => match x with (j, NEv (EvInvoke _ s' _ c)) => if Nat.eqb j i && Nat.eqb s' s then [c] else [] | _ => [] end) T.

(** The messages accepted by the root bus [r] of process [i], in order. *)
Definition queued (T : list (nat * nevent)) (i r : nat) : list bmsg :=
  flat_map (fun x => match x with (j, NEv (EvAccept r' _ p)) => if Nat.eqb j i && Nat.eqb r' r then [snd p] else [] | _ => [] end) T.

(** A subscription for [topic] is for messages with topic [t]. *)
Definition wants (topic t : string) : bool := String.eqb topic t || String.eqb topic "/**/*".

(** On process [i], subscriber [s] is registered for [topic] with callback [cb] on bus [b], under the root [r], and all of these run. *)
Definition subscribed (i r b s : nat) (topic : string) (cb : cbk) (c : cluster) : Prop :=
  serving r b s (cl_nodes c i) /\ nth_error (s_subs (cl_nodes c i)) s = Some (mkSub topic (Some cb)).

(** The messages for which the callback of subscriber [s] of process [i] is called, in order. *)
Definition heard (T : list (nat * nevent)) (i s : nat) : list bmsg :=
  flat_map (fun x => match x with (j, NEv (EvInvoke _ s' p _)) => if Nat.eqb j i && Nat.eqb s' s then [snd p] else [] | _ => [] end) T.

(** A server, process 0, with [k] clients, joined by one link plugin called [name] in each: links that are servers have the two sockets of
    the server role, the others those of the client role, and clients are connected to the server. *)
Definition a_star (k : nat) (name : string) (n : net) : Prop :=
  (forall i, match nt_links n i with
             | [] => k < i
             | [lk] => i <= k /\ lk_id lk = name /\
                 forall s, lk_socket lk s = match s with ServerPub | ServerSub => Nat.eqb i 0 | ClientPub | ClientSub => negb (Nat.eqb i 0) end
             | _ => False
             end) /\
  forall i j r, i <= k -> nt_wires n i j r = match i, j, r with
                                   | 0, 0, Server => map (fun c => (c, 0)) (seq 1 k)
                                   | S _, 0, Client => [(0, 0)]
                                   | _, _, _ => []
                                   end.

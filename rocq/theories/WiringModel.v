(** Model of who is connected to whom: what the zmq calls of the link plugins (src/plugins/link/Link.cpp, "Link") of several processes amount to.

    Simplifications, all about ZeroMQ and from its documentation:
    - Binding and connecting succeed, and connections are made before the first message. An endpoint is an address and, after the
      last colon, a port. A connecting socket reaches a bound one if the ports are the same text and the address of the one leads to the address
      of the other; the latter is a parameter, as it depends on the network and on where the processes run.
    - A publishing socket delivers to a subscribing socket it is connected with, in whichever direction the connection was made,
      if the latter has subscribed to a prefix of the message's first frame. Sockets of other kinds do not exchange anything. *)
From Coq Require Import String Ascii List Arith Bool.
From Verif Require Import Prelude LinkModel NodeModel NetModel.
Import ListNotations.
Open Scope list_scope.

(** A link plugin that runs: its name, its bus, its callback (Link:73-97) and the calls made by Initialize (Link:27-69). *)
Record plug : Type := mkPlug { pl_name : string; pl_bus : nat; pl_cb : nat; pl_calls : list zcall }.

Definition sock_eqb (a b : sock) : bool :=
  match a, b with
  | ServerPub, ServerPub | ServerSub, ServerSub | ClientPub, ClientPub | ClientSub, ClientSub => true
  | _, _ => false
  end.

(** Link:41, 44, 63, 66 *)
Definition opened (l : list zcall) (s : sock) : bool := existsb (fun c => match c with ZSocket k => sock_eqb k s | _ => false end) l.
(** Link:42, 45 *)
Definition binds (l : list zcall) (s : sock) : list string := flat_map (fun c => match c with ZBind k e => if sock_eqb k s then [e] else [] | _ => [] end) l.
(** Link:64, 67 *)
Definition connects (l : list zcall) (s : sock) : list string := flat_map (fun c => match c with ZConnect k e => if sock_eqb k s then [e] else [] | _ => [] end) l.
(** Link:46, 68; the first frame of a message is "A" (Link:255). *)
Definition subscribes (l : list zcall) (s : sock) : bool := existsb (fun c => match c with ZSubscribe k p => sock_eqb k s && prefix p "A" | _ => false end) l.

(** An endpoint's address and port. *)
Fixpoint split_last (s : string) : option (string * string) :=
  match s with
  | EmptyString => None
  | String c s' =>
      match split_last s' with
      | Some (a, p) => Some (String c a, p)
      | None => if Ascii.eqb c ":" then Some (EmptyString, s') else None
      end
  end.

(** [leads i a j b]: for process [i], address [a] is where process [j] is when it binds to [b]. *)
Definition reaches (leads : nat -> string -> nat -> string -> bool) (i : nat) (e : string) (j : nat) (f : string) : bool :=
  match split_last e, split_last f with
  | Some (a, p), Some (b, q) => String.eqb p q && leads i a j b
  | _, _ => false
  end.

(** Socket [s] of a link of process [i] and socket [s'] of a link of process [j] are connected. *)
Definition connected (leads : nat -> string -> nat -> string -> bool) (i : nat) (x : list zcall) (s : sock) (j : nat) (y : list zcall) (s' : sock) : bool :=
  existsb (fun e => existsb (fun f => reaches leads i e j f) (binds y s')) (connects x s) ||
  existsb (fun e => existsb (fun f => reaches leads j e i f) (binds x s)) (connects y s').

(** The messages a link of process [i] sends over role [r] come to a link of process [j] that listens on the socket of role [r']. *)
Definition fed (leads : nat -> string -> nat -> string -> bool) (i : nat) (x : list zcall) (r : role) (j : nat) (y : list zcall) (r' : role) : bool :=
  connected leads i x (pub_socket r) j y (sub_socket r') && subscribes y (sub_socket r').

(** [count] processes, each with its link plugins. *)
Definition network (leads : nat -> string -> nat -> string -> bool) (count : nat) (setup : nat -> list plug) : net :=
  mkNet (fun i => if Nat.ltb i count then map (fun p => mkLink (pl_name p) (pl_bus p) (pl_cb p) (opened (pl_calls p))) (setup i) else [])
        (fun i k r =>
           if Nat.ltb i count then
             match nth_error (setup i) k with
             | Some x => flat_map (fun j => flat_map (fun yb => flat_map (fun r' => if fed leads i (pl_calls x) r j (pl_calls (snd yb)) r' then [(j, fst yb)] else []) [Server; Client])
                                                     (indexed (setup j))) (seq 0 count)
             | None => []
             end
           else []).

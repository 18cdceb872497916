(** Model of several processes with link plugins (src/plugins/link/Link.cpp, "Link") and the messages on the way between
    them: each process is a node of NodeModel, with its whole bus.

    Simplifications:
    - zmq delivers every message that was sent, once, to every peer, in any order; all connections exist
      before the first message is sent.
    - A message on the way is a [bmsg]; C58 and C83 are about its bytes.
    - What is on the way to a link that does not exist or has no such socket is never taken. *)
From Coq Require Import String List Arith Bool.
From Verif Require Import Prelude BusModel LinkModel NodeModel NetModel.
Import ListNotations.
Open Scope list_scope.

(** What is published by a server is received by clients, and the other way round: Link:35-69. *)
Definition opposite (r : role) : role := match r with Server => Client | Client => Server end.

(** A message on its way: to which node, which link, which socket. *)
Definition parcel : Type := (nat * nat * role * bmsg)%type.

Record cluster : Type := mkCl { cl_nodes : nat -> state; cl_wire : list parcel }.
Definition cl_init : cluster := mkCl (fun _ => init) [].

Inductive clabel : Type :=
| CBus (i : nat) (l : label)              (* any step of the bus of node i *)
| CTake (p : nat).                        (* the message number p on the way is taken from its socket: Link:155-187 *)

Definition put_node (i : nat) (st : state) (f : nat -> state) : nat -> state := fun j => if Nat.eqb j i then st else f j.

(** Link:78-95: what a link sends goes to all that are connected to the socket. *)
Definition outgoing (n : net) (i : nat) (e : nevent) : list parcel :=
  match e with
  | NSent k r _ p => map (fun w => (fst w, snd w, opposite r, snd p)) (nt_wires n i k r)
  | _ => []
  end.

Definition cstep (n : net) (l : clabel) (c : cluster) : option (cluster * list (nat * nevent)) :=
  match l with
  | CBus i x =>
      match nstep (nt_links n i) (NBus x) (cl_nodes c i) with
      | Some (st, evs) => Some (mkCl (put_node i st (cl_nodes c)) (cl_wire c ++ flat_map (outgoing n i) evs), map (pair i) evs)
      | None => None
      end
  | CTake p =>
      match take p (cl_wire c) with
      | Some ((i, k, r, m), rest) =>
          match nstep (nt_links n i) (NReceive k r m) (cl_nodes c i) with
          | Some (st, evs) => Some (mkCl (put_node i st (cl_nodes c)) (rest ++ flat_map (outgoing n i) evs), map (pair i) evs)
          | None => None
          end
      | None => None
      end
  end.

Fixpoint cexec (n : net) (ls : list clabel) (c : cluster) : option (cluster * list (nat * nevent)) :=
  match ls with
  | [] => Some (c, [])
  | l :: ls' =>
      match cstep n l c with
      | Some (c', e) => match cexec n ls' c' with Some (c'', e') => Some (c'', e ++ e') | None => None end
      | None => None
      end
  end.

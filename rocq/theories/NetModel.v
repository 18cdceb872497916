(** Model of several processes joined by link plugins (src/plugins/link/Link.cpp, "Link"), message by message.

    Simplifications:
    - zmq delivers every message that was sent, once, to every peer, in any order; all connections exist
      before the first publication.
    - A node distributes every message published on it once, and every link of the node sees it: C20_every, C59_all and
      C59_once for a node whose root bus runs throughout. Distribution is one step; what the links send out
      follows C59_sends. C91 derives this for whole processes.
    - Messages may overtake each other everywhere: a step takes any item that is pending. *)
From Coq Require Import String List Arith Bool.
From Verif Require Import Prelude BusModel LinkModel NodeModel.
Import ListNotations.
Open Scope list_scope.

(** [nt_links i]: the link plugins of node [i]. [nt_wires i k r]: the (node, link) pairs that receive what link [k]
    of node [i] sends over role [r]. *)
Record net : Type := mkNet { nt_links : nat -> list link; nt_wires : nat -> nat -> role -> list (nat * nat) }.

Inductive item : Type :=
| Dist (i : nat) (m : bmsg)               (* accepted by the root queue of node i *)
| Arrive (i k : nat) (m : bmsg).          (* at a socket of link k of node i *)

(** A message that is distributed on a node. *)
Definition delivery : Type := (nat * bmsg)%type.

(** Link:75-97 for all links of the node. *)
Definition forward (n : net) (i : nat) (m : bmsg) : list item :=
  flat_map (fun x => flat_map (fun r => map (fun w => Arrive (fst w) (snd w) m) (nt_wires n i (fst x) r)) (on_message (snd x) m))
    (indexed (nt_links n i)).

(** What becomes of a pending item. A link that does not exist receives nothing. *)
Definition process (n : net) (x : item) : list delivery * list item :=
  match x with
  | Dist i m => ([(i, m)], forward n i m)
  | Arrive i k m =>                                                   (* Link:161-183 *)
      match nth_error (nt_links n i) k with
      | Some lk => ([], [Dist i (on_receive lk m)])
      | None => ([], [])
      end
  end.

Inductive wlabel : Type :=
| WPublish (i : nat) (m : bmsg)           (* something on node i publishes m *)
| WTake (p : nat).                        (* the pending item number p is processed *)

(** Pending items and the deliveries so far. *)
Definition wstate : Type := (list item * list delivery)%type.

Fixpoint take {A} (p : nat) (l : list A) : option (A * list A) :=
  match l, p with
  | [], _ => None
  | x :: l', 0 => Some (x, l')
  | x :: l', S p' => match take p' l' with Some (y, l'') => Some (y, x :: l'') | None => None end
  end.

Definition wstep (n : net) (l : wlabel) (s : wstate) : option wstate :=
  match l with
  | WPublish i m => Some (fst s ++ [Dist i m], snd s)
  | WTake p =>
      match take p (fst s) with
      | Some (x, rest) => let (ds, xs) := process n x in Some (rest ++ xs, snd s ++ ds)
      | None => None
      end
  end.

Fixpoint wexec (n : net) (ls : list wlabel) (s : wstate) : option wstate :=
  match ls with
  | [] => Some s
  | l :: ls' => match wstep n l s with Some s' => wexec n ls' s' | None => None end
  end.

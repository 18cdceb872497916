(** Vocabulary of C91: what the processes of a cluster distribute and where it comes from. *)
From Coq Require Import String List Arith Bool.
From Verif Require Import Prelude BusModel BusSpec LinkModel NodeModel NetModel ClusterModel.
Import ListNotations.
Open Scope list_scope.

(** The messages whose distribution began, with their nodes, in order. *)
Definition distributed (T : list (nat * nevent)) : list delivery :=
  flat_map (fun x => match x with (i, NEv (EvBegin _ p)) => [(i, snd p)] | _ => [] end) T.

(** Publication [f] of node [i] was begun by a link that had received something. *)
Definition foreign (T : list (nat * nevent)) (i f : nat) : bool :=
  existsb (fun x => match x with (j, NReceived _ _ _ g) => Nat.eqb j i && Nat.eqb g f | _ => false end) T.

(** The messages accepted by root buses, other than those published by links, in order. *)
Definition local (T : list (nat * nevent)) : list delivery :=
  flat_map (fun x => match x with (i, NEv (EvAccept _ f p)) => if foreign T i f then [] else [(i, snd p)] | _ => [] end) T.

(** [P] holds before and after every step. *)
Fixpoint calways (P : cluster -> Prop) (n : net) (ls : list clabel) (c : cluster) : Prop :=
  P c /\ match ls with
         | [] => True
         | l :: ls' => match cstep n l c with Some (c', _) => calways P n ls' c' | None => True end
         end.

(** Every link's callback is set on one subscriber only, its own. *)
Definition own_callbacks (n : net) (ls : list clabel) : Prop :=
  forall i k lk, nth_error (nt_links n i) k = Some lk -> exists s, forall s', In (CBus i (LSetMsg s' (Some (lk_cb lk)))) ls -> s' = s.

(** Every link is on the air: its subscriber, on a running bus below the root [rt i], takes everything, and its own bus leads to this root. *)
Definition attached (n : net) (rt : nat -> nat) (pos : nat -> nat -> nat * nat) (c : cluster) : Prop :=
  forall i k lk, nth_error (nt_links n i) k = Some lk ->
    serving (rt i) (fst (pos i k)) (snd (pos i k)) (cl_nodes c i) /\
    nth_error (s_subs (cl_nodes c i)) (snd (pos i k)) = Some (mkSub "/**/*" (Some (CbMsg (lk_cb lk)))) /\
    exists x, get_bus (cl_nodes c i) (lk_bus lk) = Some x /\ b_fn x = Some (ToQueue (rt i)).

(** Nothing is on the way, no publication is going on, and no root bus holds a message. *)
Definition at_rest (c : cluster) : Prop :=
  cl_wire c = [] /\
  forall i, (forall f x, nth_error (s_flights (cl_nodes c i)) f = Some x -> x = FlyDone) /\
            (forall r x, get_bus (cl_nodes c i) r = Some x -> current x = [] /\ pending x = []).

(** No root bus but [rt i] accepts messages on node [i], and none discards any. *)
Definition one_root (rt : nat -> nat) (T : list (nat * nevent)) : Prop :=
  forall i r p, (forall f, In (i, NEv (EvAccept r f p)) T -> r = rt i) /\ ~ In (i, NEv (EvDrop r p)) T /\ ~ In (i, NEv (EvLost r p)) T.

(** Connections lead from servers to links with a client's subscribing socket, and from clients to links with a server's. *)
Definition matched (n : net) : Prop := forall i k r j l, In (j, l) (nt_wires n i k r) ->
  exists lk, nth_error (nt_links n j) l = Some lk /\ lk_socket lk (match r with Server => ClientSub | Client => ServerSub end) = true.

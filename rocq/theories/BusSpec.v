(** Vocabulary of the bus theorems: projections of traces, and the sequential
    account of what distributing one message means. Except for [always],
    [enabled], [passes] and [ran_with], which follow executions, nothing here refers to the step
    functions of the model. *)
From Coq Require Import String List Arith Bool.
From Verif Require Import Prelude OMap DatagramSpec BusModel.
Import ListNotations.
Open Scope list_scope.

(** ** Projections of a trace *)

(** Messages accepted by the queue of root [r], in order. *)
Definition accepted (r : nat) (tr : list event) : list pubn :=
  flat_map (fun e => match e with EvAccept r' _ m => if Nat.eqb r' r then [m] else [] | _ => [] end) tr.

(** Messages whose distribution by root [r] began / was completed, in order. *)
Definition begun (r : nat) (tr : list event) : list pubn :=
  flat_map (fun e => match e with EvBegin r' m => if Nat.eqb r' r then [m] else [] | _ => [] end) tr.
Definition completed (r : nat) (tr : list event) : list pubn :=
  flat_map (fun e => match e with EvEnd r' m => if Nat.eqb r' r then [m] else [] | _ => [] end) tr.

(** Messages discarded by root [r]: skipped because it had been stopped, or destroyed when an
    exception left the run. *)
Definition discarded (r : nat) (tr : list event) : list pubn :=
  flat_map (fun e => match e with
                     | EvDrop r' m | EvLost r' m => if Nat.eqb r' r then [m] else []
                     | _ => [] end) tr.

(** Completed or discarded, in order. *)
Definition settled (r : nat) (tr : list event) : list pubn :=
  flat_map (fun e => match e with
                     | EvEnd r' m | EvDrop r' m | EvLost r' m => if Nat.eqb r' r then [m] else []
                     | _ => [] end) tr.

(** Deliveries made by root [r]: (bus, subscriber, message), in order. *)
Definition received (r : nat) (tr : list event) : list (nat * nat * pubn) :=
  flat_map (fun e => match e with EvReceive r' b s m => if Nat.eqb r' r then [(b, s, m)] else [] | _ => [] end) tr.

(** Messages delivered to subscriber [s] by root [r], in order. *)
Definition inbox (r s : nat) (tr : list event) : list pubn :=
  flat_map (fun e => match e with
                     | EvReceive r' _ s' m => if Nat.eqb r' r && Nat.eqb s' s then [m] else []
                     | _ => [] end) tr.

(** Where publication [i] handed its message over, and what Publish returned to its caller. *)
Definition handed (i : nat) (tr : list event) : list (target * bmsg) :=
  flat_map (fun e => match e with
                     | EvAccept r j m => if Nat.eqb j i then [(ToQueue r, snd m)] else []
                     | EvClient f j m => if Nat.eqb j i then [(ToClient f, m)] else []
                     | _ => [] end) tr.
Definition returned (i : nat) (tr : list event) : list (res unit) :=
  flat_map (fun e => match e with EvFlight j x => if Nat.eqb j i then [x] else [] | _ => [] end) tr.

(** Runs of root [r] that ended with an exception. *)
Definition crashes (r : nat) (tr : list event) : list exc :=
  flat_map (fun e => match e with EvStop r' (Some x) => if Nat.eqb r' r then [x] else [] | _ => [] end) tr.

(** ** State *)

(** Messages held by root [r] and not yet completed: the one being distributed, the rest of the
    batch, the queue. *)
Definition current (x : bus) : list pubn := match b_runner x with RDist m _ _ _ => [m] | _ => [] end.
Definition batch (x : bus) : list pubn :=
  match b_runner x with RBatch ms => ms | RDist _ _ _ ms => ms | _ => [] end.
Definition pending (x : bus) : list pubn := batch x ++ b_queue x.

(** [l1] is [l2] with some elements left out. *)
Inductive sublist {A : Type} : list A -> list A -> Prop :=
| sl_nil : sublist [] []
| sl_keep x l1 l2 : sublist l1 l2 -> sublist (x :: l1) (x :: l2)
| sl_skip x l1 l2 : sublist l1 l2 -> sublist l1 (x :: l2).

(** ** The hierarchy *)

(** [k] is a direct child of [b]. *)
Definition kid (st : state) (b k : nat) : Prop :=
  exists x, get_bus st b = Some x /\ In k (map snd (b_kids x)).

(** [a] is [b] or an ancestor of [b]. *)
Inductive below (st : state) (a : nat) : nat -> Prop :=
| below_refl : below st a a
| below_kid b c : below st a b -> kid st b c -> below st a c.

(** [k] is the child of [b] called [name]. *)
Definition child_named (st : state) (b : nat) (name : string) (k : nat) : Prop :=
  kid st b k /\ exists y, get_bus st k = Some y /\ b_name y = name.

(** Subscriber [s] is registered on bus [b], which lies under root [r], and [b] and all its
    ancestors are running. *)
Definition serving (r b s : nat) (st : state) : Prop :=
  (exists xb, get_bus st b = Some xb /\ In s (b_subs xb)) /\ below st r b /\
  (forall c xc, below st c b -> get_bus st c = Some xc -> b_run xc = true).

(** [P] holds before and after every step of the execution of [ls] from [st]. *)
Fixpoint always (P : state -> Prop) (ls : list label) (st : state) : Prop :=
  P st /\ match ls with
          | [] => True
          | l :: ls' => match step l st with Some (st', _) => always P ls' st' | None => True end
          end.

(** [l] can be executed now. *)
Definition enabled (l : label) (st : state) : Prop := exists st' evs, step l st = Some (st', evs).

(** The thread of root [r] is inside callback [c], called by a subscriber of bus [b]. *)
Definition calling (st : state) (r b : nat) (c : call) : Prop :=
  exists x m ss stk rest, get_bus st r = Some x /\ b_runner x = RDist m (FSubs b ss :: stk) (Some c) rest.

(** Steps other than the thread of [r] coming back from its callback. *)
Definition still_inside (r : nat) (ls : list label) : Prop :=
  Forall (fun l => l <> LReturn r /\ forall e, l <> LThrow r e) ls.

(** Some point of the execution of [ls] from [st] satisfies [P]. *)
Definition passes (P : state -> list event -> Prop) (ls : list label) (st : state) : Prop :=
  exists ls1 ls2 st1 tr1, ls = ls1 ++ ls2 /\ exec ls1 st = Some (st1, tr1) /\ P st1 tr1.

(** Steps of the bus thread of [r], including its callbacks. *)
Fixpoint own_steps (r : nat) (ls : list label) : nat :=
  match ls with
  | [] => 0
  | (LRun r' | LReturn r' | LThrow r' _) :: ls' => (if Nat.eqb r' r then 1 else 0) + own_steps r ls'
  | _ :: ls' => own_steps r ls'
  end.

(** Publication [i] goes through bus [k]: begun through a publisher created on [k], or on [k]
    itself, or already over. *)
Definition through (i k : nat) (st : state) : Prop :=
  (exists p d y, nth_error (s_flights st) i = Some (FlyPub p d) /\ nth_error (s_pubs st) p = Some y /\ p_bus y = k) \/
  (exists m, nth_error (s_flights st) i = Some (FlyBus k m)) \/
  nth_error (s_flights st) i = Some FlyDone.

(** In the execution [ls] from the start, bus [c] was running at some moment at which root [r] had
    message [m] in hand: drained from the queue and not done with. *)
Definition ran_with (r : nat) (m : pubn) (c : nat) (ls : list label) : Prop :=
  exists ls1 ls2 st1 tr1 x1 xc, ls = ls1 ++ ls2 /\ exec ls1 init = Some (st1, tr1) /\
    get_bus st1 r = Some x1 /\ In m (current x1 ++ batch x1) /\ get_bus st1 c = Some xc /\ b_run xc = true.

(** ** Distribution, sequentially *)

(** A subscription topic accepts a message topic. *)
Definition accepts (sub_topic msg_topic : string) : Prop :=
  sub_topic = msg_topic \/ sub_topic = "/**/*"%string.

(** The subscribers of a list whose topic accepts [topic]. *)
Inductive takers (st : state) (topic : string) : list nat -> list nat -> Prop :=
| tk_nil : takers st topic [] []
| tk_yes s y ss l : nth_error (s_subs st) s = Some y -> accepts (s_topic y) topic -> takers st topic ss l -> takers st topic (s :: ss) (s :: l)
| tk_no s y ss l : nth_error (s_subs st) s = Some y -> ~ accepts (s_topic y) topic -> takers st topic ss l -> takers st topic (s :: ss) l.

(** Bus [a] passes a message with topic [t] on to subscriber [s] of bus [b]: [b] is [a] or below
    it, every bus between them is running, [s] is registered on [b] and accepts the topic. *)
Definition served (st : state) (t : string) (a b s : nat) : Prop :=
  below st a b /\
  (forall c, below st a c -> below st c b -> exists xc, get_bus st c = Some xc /\ b_run xc = true) /\
  (exists xb, get_bus st b = Some xb /\ In s (b_subs xb)) /\
  (exists y, nth_error (s_subs st) s = Some y /\ accepts (s_topic y) t).

(** [delivers st topic b l]: serving bus [b] hands the message to exactly the (bus, subscriber)
    pairs [l], in this order: nothing if [b] is stopped; otherwise [b]'s own accepting
    subscribers, then what its children deliver, in the order of the child map. *)
Inductive delivers (st : state) (topic : string) : nat -> list (nat * nat) -> Prop :=
| dl_stopped b x : get_bus st b = Some x -> b_run x = false -> delivers st topic b []
| dl_running b x own below :
    get_bus st b = Some x -> b_run x = true ->
    takers st topic (b_subs x) own ->
    delivers_all st topic (map snd (b_kids x)) below ->
    delivers st topic b (map (pair b) own ++ below)
with delivers_all (st : state) (topic : string) : list nat -> list (nat * nat) -> Prop :=
| da_nil : delivers_all st topic [] []
| da_cons b bs l1 l2 : delivers st topic b l1 -> delivers_all st topic bs l2 -> delivers_all st topic (b :: bs) (l1 ++ l2).

Scheme delivers_mind := Minimality for delivers Sort Prop
with delivers_all_mind := Minimality for delivers_all Sort Prop.

(** Labels that leave topics, subscriptions, children and running flags of every bus alone. *)
Definition quiet (l : label) : Prop :=
  match l with
  | LChild _ _ | LSub _ _ _ | LDelSub _ _ | LProvider _ _ _ | LConsumer _ _ | LStart _ | LStop _ | LDetachStep _ => False
  | _ => True
  end.

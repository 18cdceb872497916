(** Model of the bus as a labelled transition system.
    Paths: include/lamppost/bus/Bus.h ("Bus.h"), src/lamppost/bus/Bus.cpp ("Bus.cpp"),
    src/lamppost/bus/{Publisher,Subscriber,ActionProvider,ActionConsumer}.cpp,
    src/lamppost/utilities/AntMatcher.cpp.

    A label is one step of some thread, or a choice of the environment (user
    callbacks return or throw at any time; random ids are arbitrary).

    Granularity and simplifications:
    - A critical section that only touches data protected by its lock is one
      step, enabled when the lock is free (create/delete/contains, enqueue,
      drain). Locks that are held for longer - by Distribute across callbacks and
      children, by Detach across children - are explicit flags.
    - mPublishersMutex, mActionProvidersMutex, mActionConsumersMutex, mQueueMutex are
      only ever held for such short sections and have no flag.
    - Publishing is three steps: test the publisher's function; call it, which
      tests the bus's function; call that.
    - At most one thread runs Start on a root bus at a time.
    - Objects are never reclaimed; the destructor (Bus.cpp:46-60) is not modelled.
    - Payloads are immutable trees: every hop copies (see C01, C02). *)
From Coq Require Import String Ascii List Arith ZArith Bool.
From Verif Require Import Prelude OMap DatagramModel DatagramSpec.
Import ListNotations.
Open Scope list_scope.

(** ** Data *)

(** Message.h:22-27 *)
Record bmsg : Type := mkM { bm_sender : string; bm_topic : string; bm_data : dg }.

(** mPublishMessageFunction, Bus.h:47: the closure of Bus.cpp:18-26 over a root bus, or a
    function supplied by the client. *)
Inductive target : Type := ToQueue (root : nat) | ToClient (f : nat).

(** Distribute on one bus, Bus.cpp:181-204: inside the subscribers loop, waiting for the
    children lock, inside the children loop. *)
Inductive frame : Type :=
| FSubs (b : nat) (todo : list nat)
| FLock (b : nat)
| FKids (b : nat) (todo : list nat).

(** User code that a bus thread is running, with its arguments. *)
Inductive call : Type :=
| CallMsg (u : nat) (m : bmsg)                          (* Subscriber.cpp:50-53 *)
| CallData (u : nat) (d : dg)                           (* Subscriber.cpp:14-24, 39-48 *)
| CallProvider (p : nat) (id : string) (u : nat) (d : dg)   (* ActionProvider.cpp:36 *)
| CallRequest (c : nat) (id : string) (u : nat) (d : dg).   (* ActionConsumer.cpp:77 *)

(** A numbered publication: the n-th message accepted by a root queue. *)
Definition pubn : Type := (nat * bmsg)%type.

(** The thread inside Start of a root bus, Bus.cpp:137-169. *)
Inductive runner : Type :=
| RIdle
| RWait                                   (* 141-151 *)
| RDrain                                  (* before 156 *)
| RBatch (ms : list pubn)                 (* 164, between messages *)
| RDist (cur : pubn) (stk : list frame) (c : option call) (rest : list pubn).

(** Bus.h:41-59 *)
Record bus : Type := mkBus {
  b_name : string;
  b_kids : omap nat;
  b_fn : option target;
  b_run : bool;
  b_root : bool;
  b_subs : list nat;
  b_pubs : list nat;
  b_slock : bool;                         (* mSubscribersMutex, long holds *)
  b_klock : bool;                         (* mChildBussesMutex, long holds *)
  b_queue : list pubn;
  b_count : nat;                          (* messages accepted so far *)
  b_runner : runner }.

(** The function wrapped in a subscriber, Subscriber.h:22: user callbacks, possibly null for
    the datagram flavour, and the closures of Bus.h:136-143 and 162-169. *)
Inductive cbk : Type :=
| CbMsg (u : nat)
| CbData (u : option nat)
| CbProvider (p : nat)
| CbConsumer (c : nat).

Record sub : Type := mkSub { s_topic : string; s_cb : option cbk }.

(** Publisher.h:22; the closure of Bus.h:109-112 captures bus and topic. *)
Record pub : Type := mkPub { p_topic : string; p_bus : nat; p_fn : bool }.

(** ActionProvider.h:23-26, ActionConsumer.h:28-31 *)
Record prov : Type := mkProv { pr_sub : nat; pr_pub : nat; pr_cb : option nat }.
Record cons : Type := mkCons { co_sub : nat; co_pub : nat; co_open : omap nat }.

(** A publication in progress: the publisher's function was found non-null, the bus's
    function was found non-null, finished. *)
Inductive flight : Type := FlyPub (p : nat) (d : dg) | FlyBus (b : nat) (m : bmsg) | FlyDone.

(** A thread inside Detach, Bus.cpp:206-216. *)
Inductive dframe : Type := DLock (b : nat) | DKids (b : nat) (todo : list nat).

Record state : Type := mkSt {
  s_buses : list bus;
  s_subs : list sub;
  s_pubs : list pub;
  s_provs : list prov;
  s_conss : list cons;
  s_flights : list flight;
  s_detaches : list (list dframe) }.

Definition init : state := mkSt [] [] [] [] [] [] [].

(** ** Events *)

Inductive apires : Type := RNone | RNew (id : nat) | RBool (x : bool).

Inductive event : Type :=
| EvRes (r : res apires)                        (* an API call returned *)
| EvAccept (root i : nat) (m : pubn)            (* a root queue accepted a message from publication i *)
| EvClient (f i : nat) (m : bmsg)               (* publication i called a client function *)
| EvBegin (root : nat) (m : pubn)               (* Distribute on the root goes ahead *)
| EvReceive (root b s : nat) (m : pubn)         (* Receive is called on a subscriber of bus b *)
| EvInvoke (root s : nat) (m : pubn) (c : call) (* a user callback is entered *)
| EvEnd (root : nat) (m : pubn)                 (* Distribute on the root returns *)
| EvDrop (root : nat) (m : pubn)                (* Distribute on the root: not running *)
| EvLost (root : nat) (m : pubn)                (* destroyed by an exception leaving Run *)
| EvStart (root : nat)                          (* Start entered *)
| EvStop (root : nat) (e : option exc)          (* Start left, by an exception if [Some] *)
| EvRequest (c : nat) (id : string) (u : nat) (d : dg)
| EvFlight (i : nat) (r : res unit).            (* Publish returned or threw *)

(** ** State access *)

Definition get_bus (st : state) (b : nat) : option bus := nth_error (s_buses st) b.

Definition set_bus (b : nat) (x : bus) (st : state) : state :=
  mkSt (list_set b x (s_buses st)) (s_subs st) (s_pubs st) (s_provs st) (s_conss st) (s_flights st) (s_detaches st).

Definition add_bus (x : bus) (st : state) : state :=
  mkSt (s_buses st ++ [x]) (s_subs st) (s_pubs st) (s_provs st) (s_conss st) (s_flights st) (s_detaches st).

Definition set_subs (l : list sub) (st : state) : state :=
  mkSt (s_buses st) l (s_pubs st) (s_provs st) (s_conss st) (s_flights st) (s_detaches st).
Definition set_pubs (l : list pub) (st : state) : state :=
  mkSt (s_buses st) (s_subs st) l (s_provs st) (s_conss st) (s_flights st) (s_detaches st).
Definition set_provs (l : list prov) (st : state) : state :=
  mkSt (s_buses st) (s_subs st) (s_pubs st) l (s_conss st) (s_flights st) (s_detaches st).
Definition set_conss (l : list cons) (st : state) : state :=
  mkSt (s_buses st) (s_subs st) (s_pubs st) (s_provs st) l (s_flights st) (s_detaches st).
Definition set_flights (l : list flight) (st : state) : state :=
  mkSt (s_buses st) (s_subs st) (s_pubs st) (s_provs st) (s_conss st) l (s_detaches st).
Definition set_detaches (l : list (list dframe)) (st : state) : state :=
  mkSt (s_buses st) (s_subs st) (s_pubs st) (s_provs st) (s_conss st) (s_flights st) l.

(** Field updates of a bus. *)
Definition with_kids k x := mkBus (b_name x) k (b_fn x) (b_run x) (b_root x) (b_subs x) (b_pubs x) (b_slock x) (b_klock x) (b_queue x) (b_count x) (b_runner x).
Definition with_fn f x := mkBus (b_name x) (b_kids x) f (b_run x) (b_root x) (b_subs x) (b_pubs x) (b_slock x) (b_klock x) (b_queue x) (b_count x) (b_runner x).
Definition with_run r x := mkBus (b_name x) (b_kids x) (b_fn x) r (b_root x) (b_subs x) (b_pubs x) (b_slock x) (b_klock x) (b_queue x) (b_count x) (b_runner x).
Definition with_subs l x := mkBus (b_name x) (b_kids x) (b_fn x) (b_run x) (b_root x) l (b_pubs x) (b_slock x) (b_klock x) (b_queue x) (b_count x) (b_runner x).
Definition with_pubs l x := mkBus (b_name x) (b_kids x) (b_fn x) (b_run x) (b_root x) (b_subs x) l (b_slock x) (b_klock x) (b_queue x) (b_count x) (b_runner x).
Definition with_slock v x := mkBus (b_name x) (b_kids x) (b_fn x) (b_run x) (b_root x) (b_subs x) (b_pubs x) v (b_klock x) (b_queue x) (b_count x) (b_runner x).
Definition with_klock v x := mkBus (b_name x) (b_kids x) (b_fn x) (b_run x) (b_root x) (b_subs x) (b_pubs x) (b_slock x) v (b_queue x) (b_count x) (b_runner x).
Definition with_queue q n x := mkBus (b_name x) (b_kids x) (b_fn x) (b_run x) (b_root x) (b_subs x) (b_pubs x) (b_slock x) (b_klock x) q n (b_runner x).
Definition with_runner r x := mkBus (b_name x) (b_kids x) (b_fn x) (b_run x) (b_root x) (b_subs x) (b_pubs x) (b_slock x) (b_klock x) (b_queue x) (b_count x) r.

Definition upd_bus (b : nat) (f : bus -> bus) (st : state) : state :=
  match get_bus st b with
  | Some x => set_bus b (f x) st
  | None => st
  end.

(** A bus as constructed: Bus.cpp:8-27 and 29-44. *)
Definition new_bus (name : string) (fn : option target) (root : bool) : bus :=
  mkBus name [] fn false root [] [] false false [] 0 RIdle.

(** ** Functions of the code *)

(** AntMatcher.cpp:8-26, Bus.cpp:176-179 *)
Definition ant_matches (pattern expression : string) : bool :=
  if String.eqb expression pattern then true
  else if String.eqb pattern "/**/*" then true
  else false.

(** static_cast<std::string>(datagram["invocationId"]), Bus.h:140 and 165; [None] is
    InvalidOperationException. *)
Definition envelope_id (d : dg) : option string :=
  match d with
  | Dct kvs => match olookup "invocationId" kvs with Some (Val (DStr s)) => Some s | _ => None end
  | _ => None
  end.

(** datagram["response"], Bus.h:166; a missing key gives an empty datagram. *)
Definition envelope_response (d : dg) : dg :=
  match d with
  | Dct kvs => match olookup "response" kvs with Some t => t | None => Emp end
  | _ => Emp
  end.

(** ActionConsumer.cpp:35-37 and ActionProvider.cpp:27-29: a fresh datagram with two keys. *)
Definition wrap (key : string) (id : string) (d : dg) : dg :=
  Dct [("invocationId"%string, Val (DStr id)); (key, d)].

(** Receive, Subscriber.cpp:26-32, with the closures it calls. *)
Inductive invocation : Type := InvSkip | InvThrow (e : exc) | InvCall (c : call).

Definition receive (st : state) (s : nat) (m : bmsg) : invocation :=
  match nth_error (s_subs st) s with
  | None => InvSkip
  | Some x =>
    match s_cb x with
    | None => InvSkip
    | Some (CbMsg u) => InvCall (CallMsg u m)
    | Some (CbData None) => InvThrow BadFunctionCall
    | Some (CbData (Some u)) => InvCall (CallData u (bm_data m))
    | Some (CbProvider p) =>
      match envelope_id (bm_data m), nth_error (s_provs st) p with
      | None, _ => InvThrow InvalidOperation
      | Some id, Some y =>
        match pr_cb y with
        | Some u => InvCall (CallProvider p id u (bm_data m))
        | None => InvThrow BadFunctionCall
        end
      | Some _, None => InvSkip
      end
    | Some (CbConsumer c) =>
      match envelope_id (bm_data m), nth_error (s_conss st) c with
      | None, _ => InvThrow InvalidOperation
      | Some id, Some y =>
        match olookup id (co_open y) with
        | Some u => InvCall (CallRequest c id u (envelope_response (bm_data m)))
        | None => InvSkip
        end
      | Some _, None => InvSkip
      end
    end
  end.

(** Stack unwinding releases every lock_guard on the stack. *)
Definition unlock_frame (f : frame) (st : state) : state :=
  match f with
  | FSubs b _ => upd_bus b (with_slock false) st
  | FLock _ => st
  | FKids b _ => upd_bus b (with_klock false) st
  end.
Definition unwind (stk : list frame) (st : state) : state := fold_left (fun s f => unlock_frame f s) stk st.

(** An exception leaves Distribute, Run and Start; the rest of the batch is a local variable
    of Run. *)
Definition abort (r : nat) (cur : pubn) (stk : list frame) (rest : list pubn) (e : exc) (st : state)
  : state * list event :=
  (upd_bus r (with_runner RIdle) (unwind stk st), map (EvLost r) (cur :: rest) ++ [EvStop r (Some e)]).

(** ** Steps *)

Inductive label : Type :=
(* constructors and bus API *)
| LNewRoot (name : string)
| LNewCustom (name : string) (f : option nat)
| LChild (b : nat) (name : string)
| LGetChild (b : nat) (name : string)
| LSub (b : nat) (topic : string) (cb : option (option nat))  (* None: no callback argument *)
| LSetData (s : nat) (u : option nat)
| LSetMsg (s : nat) (u : option nat)
| LDelSub (b s : nat)
| LHasSub (b s : nat)
| LPub (b : nat) (topic : string)
| LDelPub (b p : nat)
| LHasPub (b p : nat)
| LProvider (b : nat) (topic : string) (u : option nat)
| LInstallProvider (p : nat)
| LResetProvider (p : nat)
| LConsumer (b : nat) (topic : string)
| LInstallConsumer (c : nat)
| LStart (b : nat)
| LStop (b : nat)
| LDetach (b : nat)
| LDetachStep (i : nat)
(* publishing *)
| LPublish (p : nat) (d : dg)
| LPublishMsg (b : nat) (m : bmsg)
| LFly (i : nat)
| LRequest (c : nat) (id : string) (d : dg) (u : option nat)
| LRespond (p : nat) (id : string) (d : dg)
(* the bus thread and user callbacks *)
| LRun (r : nat)
| LReturn (r : nat)
| LThrow (r : nat) (e : exc).

(** Publisher::Publish, Publisher.cpp:20-26, up to and including the test. *)
Definition begin_publish (p : nat) (d : dg) (st : state) : option (state * list event) :=
  match nth_error (s_pubs st) p with
  | None => None
  | Some x =>
    Some (if p_fn x then (set_flights (s_flights st ++ [FlyPub p d]) st, [])
          else (set_flights (s_flights st ++ [FlyDone]) st, [EvFlight (length (s_flights st)) (Ok tt)]))
  end.

(** Bus::Publish, Bus.cpp:99-105, up to and including the test. *)
Definition test_bus_fn (b : nat) (m : bmsg) (st : state) : flight * list event :=
  match get_bus st b with
  | Some x => match b_fn x with Some _ => (FlyBus b m, []) | None => (FlyDone, []) end
  | None => (FlyDone, [])
  end.

(** Calling mPublishMessageFunction: Bus.cpp:18-26 for a queue. *)
Definition call_target (t : target) (i : nat) (m : bmsg) (st : state) : state * list event :=
  match t with
  | ToQueue r =>
    match get_bus st r with
    | Some x =>
      (set_bus r (with_queue (b_queue x ++ [(b_count x, m)]) (S (b_count x)) x) st, [EvAccept r i (b_count x, m)])
    | None => (st, [])
    end
  | ToClient f => (st, [EvClient f i m])
  end.

(** The next step of publication [i]. *)
Definition fly_step (i : nat) (st : state) : option (state * list event) :=
  let set f s := set_flights (list_set i f (s_flights s)) s in
  match nth_error (s_flights st) i with
  | Some (FlyPub p d) =>
    match nth_error (s_pubs st) p with
    | None => None
    | Some x =>
      if p_fn x then
        match get_bus st (p_bus x) with
        | None => None
        | Some y =>                                     (* Bus.h:109-112, Bus.cpp:94-97 *)
          let m := mkM (b_name y) (p_topic x) d in
          match test_bus_fn (p_bus x) m st with
          | (FlyDone, _) => Some (set FlyDone st, [EvFlight i (Ok tt)])
          | (f, _) => Some (set f st, [])
          end
        end
      else Some (set FlyDone st, [EvFlight i (Throw BadFunctionCall)])
    end
  | Some (FlyBus b m) =>
    match get_bus st b with
    | None => None
    | Some y =>
      match b_fn y with
      | None => Some (set FlyDone st, [EvFlight i (Throw BadFunctionCall)])
      | Some t => let (st', evs) := call_target t i m st in Some (set FlyDone st', evs ++ [EvFlight i (Ok tt)])
      end
    end
  | _ => None
  end.

(** The next step of a thread inside Detach; the first frame is the innermost call. *)
Definition detach_step (i : nat) (st : state) : option (state * list event) :=
  let set f s := set_detaches (list_set i f (s_detaches s)) s in
  match nth_error (s_detaches st) i with
  | Some (DLock b :: stk) =>                            (* Bus.cpp:210 *)
    match get_bus st b with
    | Some x => if b_klock x then None
                else Some (set (DKids b (map snd (b_kids x)) :: stk) (set_bus b (with_klock true x) st), [])
    | None => None
    end
  | Some (DKids b [] :: stk) =>                         (* 216 *)
    Some (set stk (upd_bus b (with_klock false) st),
          match stk with [] => [EvRes (Ok RNone)] | _ => [] end)
  | Some (DKids b (k :: ks) :: stk) =>                  (* 213-214, 208 *)
    Some (set (DLock k :: DKids b ks :: stk) (upd_bus k (fun x => with_fn None (with_run false x)) st), [])
  | _ => None
  end.

(** The next step of the thread inside Start of root bus [r]. *)
Definition run_step (r : nat) (st : state) : option (state * list event) :=
  match get_bus st r with
  | None => None
  | Some x =>
    let set y s := upd_bus r (with_runner y) s in
    match b_runner x with
    | RIdle => None
    | RWait =>                                          (* 141-154; woken up or timed out *)
      if b_run x then Some (set RDrain st, [])
      else Some (set RIdle st, [EvStop r None])
    | RDrain =>                                         (* 156-162 *)
      Some (set (RBatch (b_queue x)) (upd_bus r (with_queue [] (b_count x)) st), [])
    | RBatch [] => Some (set RWait st, [])
    | RBatch (m :: ms) =>                               (* 164-167, 183-186 *)
      if b_run x then
        if b_slock x then None
        else Some (set (RDist m [FSubs r (b_subs x)] None ms) (upd_bus r (with_slock true) st), [EvBegin r m])
      else Some (set (RBatch ms) st, [EvDrop r m])
    | RDist _ _ (Some _) _ => None                 (* inside a callback *)
    | RDist m [] None rest => Some (set (RBatch rest) st, [EvEnd r m])
    | RDist m (FSubs b [] :: stk) None rest =>          (* 194 *)
      Some (set (RDist m (FLock b :: stk) None rest) (upd_bus b (with_slock false) st), [])
    | RDist m (FSubs b (s :: ss) :: stk) None rest =>   (* 187-193 *)
      match nth_error (s_subs st) s with
      | None => None
      | Some y =>
        if ant_matches (s_topic y) (bm_topic (snd m)) then
          match receive st s (snd m) with
          | InvSkip => Some (set (RDist m (FSubs b ss :: stk) None rest) st, [EvReceive r b s m])
          | InvThrow e =>
            let (st', evs) := abort r m (FSubs b ss :: stk) rest e st in Some (st', EvReceive r b s m :: evs)
          | InvCall c =>
            Some (set (RDist m (FSubs b ss :: stk) (Some c) rest) st, [EvReceive r b s m; EvInvoke r s m c])
          end
        else Some (set (RDist m (FSubs b ss :: stk) None rest) st, [])
      end
    | RDist m (FLock b :: stk) None rest =>             (* 197 *)
      match get_bus st b with
      | Some y => if b_klock y then None
                  else Some (set (RDist m (FKids b (map snd (b_kids y)) :: stk) None rest) (upd_bus b (with_klock true) st), [])
      | None => None
      end
    | RDist m (FKids b [] :: stk) None rest =>          (* 202 *)
      Some (set (RDist m stk None rest) (upd_bus b (with_klock false) st), [])
    | RDist m (FKids b (k :: ks) :: stk) None rest =>   (* 198-201, 183-186 *)
      match get_bus st k with
      | Some y =>
        if b_run y then
          if b_slock y then None
          else Some (set (RDist m (FSubs k (b_subs y) :: FKids b ks :: stk) None rest) (upd_bus k (with_slock true) st), [])
        else Some (set (RDist m (FKids b ks :: stk) None rest) st, [])
      | None => None
      end
    end
  end.

(** A callback returns. ActionConsumer.cpp:78: the answered request is erased. *)
Definition after_call (c : call) (st : state) : state :=
  match c with
  | CallRequest c id _ _ =>
    match nth_error (s_conss st) c with
    | Some x => set_conss (list_set c (mkCons (co_sub x) (co_pub x) (oremove id (co_open x))) (s_conss st)) st
    | None => st
    end
  | _ => st
  end.

Definition return_step (r : nat) (st : state) : option (state * list event) :=
  match get_bus st r with
  | Some x =>
    match b_runner x with
    | RDist m stk (Some c) rest => Some (after_call c (upd_bus r (with_runner (RDist m stk None rest)) st), [])
    | _ => None
    end
  | None => None
  end.

Definition throw_step (r : nat) (e : exc) (st : state) : option (state * list event) :=
  match get_bus st r with
  | Some x =>
    match b_runner x with
    | RDist m stk (Some c) rest => Some (abort r m stk rest e st)
    | _ => None
    end
  | None => None
  end.

Definition ok (st : state) (x : apires) : option (state * list event) := Some (st, [EvRes (Ok x)]).
Definition raise (st : state) (e : exc) : option (state * list event) := Some (st, [EvRes (Throw e)]).

(** Bus.h:116-120 with Subscriber.cpp:8-24. *)
Definition add_sub (b : nat) (x : bus) (y : sub) (st : state) : state :=
  set_subs (s_subs st ++ [y]) (set_bus b (with_subs (b_subs x ++ [length (s_subs st)]) x) st).
(** Bus.h:102-114 *)
Definition add_pub (b : nat) (topic : string) (st : state) : state :=
  set_pubs (s_pubs st ++ [mkPub topic b true])
    (upd_bus b (fun x => with_pubs (b_pubs x ++ [length (s_pubs st)]) x) st).

Definition set_cb (s : nat) (cb : option cbk) (st : state) : option state :=
  match nth_error (s_subs st) s with
  | Some x => Some (set_subs (list_set s (mkSub (s_topic x) cb) (s_subs st)) st)
  | None => None
  end.

Definition step (l : label) (st : state) : option (state * list event) :=
  match l with
  | LNewRoot name =>                                    (* Bus.cpp:8-27 *)
    if String.eqb name "" then raise st (ArgumentNull "name")
    else let r := length (s_buses st) in ok (add_bus (new_bus name (Some (ToQueue r)) true) st) (RNew r)
  | LNewCustom name f =>                                (* 29-44 *)
    if String.eqb name "" then raise st (ArgumentNull "name")
    else match f with
         | None => raise st (ArgumentNull "name")
         | Some g => ok (add_bus (new_bus name (Some (ToClient g)) false) st) (RNew (length (s_buses st)))
         end
  | LChild b name =>                                    (* 62-81 *)
    match get_bus st b with
    | None => None
    | Some x =>
      if String.eqb name "" then raise st (ArgumentNull "name")
      else if b_klock x then None
      else match olookup name (b_kids x) with
           | Some _ => raise st (DuplicateKey name)
           | None =>
             match b_fn x with
             | None => raise st (ArgumentNull "name")
             | Some t =>
               let c := length (s_buses st) in
               ok (add_bus (with_run true (new_bus name (Some t) false))
                     (set_bus b (with_kids (oinsert name c (b_kids x)) x) st)) (RNew c)
             end
           end
    end
  | LGetChild b name =>                                 (* 83-92 *)
    match get_bus st b with
    | None => None
    | Some x =>
      if b_klock x then None
      else match olookup name (b_kids x) with
           | Some c => ok st (RNew c)
           | None => raise st (KeyNotFound name)
           end
    end
  | LSub b topic cb =>
    match get_bus st b with
    | None => None
    | Some x =>
      if b_slock x then None
      else ok (add_sub b x (mkSub topic (option_map CbData cb)) st) (RNew (length (s_subs st)))
    end
  | LSetData s u =>                                     (* Subscriber.cpp:39-48 *)
    match set_cb s (Some (CbData u)) st with Some st' => ok st' RNone | None => None end
  | LSetMsg s u =>                                      (* 50-53 *)
    match set_cb s (option_map CbMsg u) st with Some st' => ok st' RNone | None => None end
  | LDelSub b s =>                                      (* Bus.cpp:107-110, Bus.h:75-81 *)
    match get_bus st b with
    | None => None
    | Some x =>
      if b_slock x then None
      else match set_cb s None (set_bus b (with_subs (filter (fun y => negb (Nat.eqb y s)) (b_subs x)) x) st) with
           | Some st' => ok st' RNone
           | None => None
           end
    end
  | LHasSub b s =>                                      (* Bus.cpp:117-120, Bus.h:83-88 *)
    match get_bus st b with
    | None => None
    | Some x => if b_slock x then None else ok st (RBool (existsb (Nat.eqb s) (b_subs x)))
    end
  | LPub b topic =>
    match get_bus st b with
    | None => None
    | Some x => ok (add_pub b topic st) (RNew (length (s_pubs st)))
    end
  | LDelPub b p =>                                      (* Bus.cpp:112-115, Publisher.cpp:28-31 *)
    match get_bus st b, nth_error (s_pubs st) p with
    | Some x, Some y =>
      ok (set_pubs (list_set p (mkPub (p_topic y) (p_bus y) false) (s_pubs st))
            (set_bus b (with_pubs (filter (fun z => negb (Nat.eqb z p)) (b_pubs x)) x) st)) RNone
    | _, _ => None
    end
  | LHasPub b p =>
    match get_bus st b with
    | None => None
    | Some x => ok st (RBool (existsb (Nat.eqb p) (b_pubs x)))
    end
  | LProvider b topic u =>                              (* Bus.h:122-134 *)
    match get_bus st b with
    | None => None
    | Some x =>
      if b_slock x then None
      else
        let st1 := add_sub b x (mkSub (topic ++ "/request") None) st in
        let st2 := add_pub b (topic ++ "/response") st1 in
        ok (set_provs (s_provs st2 ++ [mkProv (length (s_subs st)) (length (s_pubs st)) u]) st2) (RNew (length (s_provs st)))
    end
  | LInstallProvider p =>                               (* Bus.h:136-143 *)
    match nth_error (s_provs st) p with
    | Some y => match set_cb (pr_sub y) (Some (CbProvider p)) st with Some st' => ok st' RNone | None => None end
    | None => None
    end
  | LResetProvider p =>                                 (* ActionProvider.cpp:20-23 *)
    match nth_error (s_provs st) p with
    | Some y => ok (set_provs (list_set p (mkProv (pr_sub y) (pr_pub y) None) (s_provs st)) st) RNone
    | None => None
    end
  | LConsumer b topic =>                                (* Bus.h:148-160 *)
    match get_bus st b with
    | None => None
    | Some x =>
      if b_slock x then None
      else
        let st1 := add_sub b x (mkSub (topic ++ "/response") None) st in
        let st2 := add_pub b (topic ++ "/request") st1 in
        ok (set_conss (s_conss st2 ++ [mkCons (length (s_subs st)) (length (s_pubs st)) []]) st2) (RNew (length (s_conss st)))
    end
  | LInstallConsumer c =>                               (* Bus.h:162-169 *)
    match nth_error (s_conss st) c with
    | Some y => match set_cb (co_sub y) (Some (CbConsumer c)) st with Some st' => ok st' RNone | None => None end
    | None => None
    end
  | LStart b =>                                         (* Bus.cpp:127-135 *)
    match get_bus st b with
    | None => None
    | Some x =>
      if b_root x then
        match b_runner x with
        | RIdle => Some (set_bus b (with_runner RWait (with_run true x)) st, [EvStart b])
        | _ => None
        end
      else ok (set_bus b (with_run true x) st) RNone
    end
  | LStop b =>                                          (* 171-174 *)
    match get_bus st b with
    | None => None
    | Some x => ok (set_bus b (with_run false x) st) RNone
    end
  | LDetach b =>                                        (* 206-208 *)
    match get_bus st b with
    | None => None
    | Some x => Some (set_detaches (s_detaches st ++ [[DLock b]]) (set_bus b (with_fn None x) st), [])
    end
  | LDetachStep i => detach_step i st
  | LPublish p d => begin_publish p d st
  | LPublishMsg b m =>
    match get_bus st b with
    | None => None
    | Some x =>
      match test_bus_fn b m st with
      | (FlyDone, _) => Some (set_flights (s_flights st ++ [FlyDone]) st, [EvFlight (length (s_flights st)) (Ok tt)])
      | (f, _) => Some (set_flights (s_flights st ++ [f]) st, [])
      end
    end
  | LFly i => fly_step i st
  | LRequest c id d u =>                                (* ActionConsumer.cpp:22-40 *)
    match nth_error (s_conss st) c with
    | None => None
    | Some x =>
      match u with
      | None => raise st (ArgumentNull "callback")
      | Some v =>
        let st1 := set_conss (list_set c (mkCons (co_sub x) (co_pub x) (oinsert id v (co_open x))) (s_conss st)) st in
        match begin_publish (co_pub x) (wrap "request" id d) st1 with
        | Some (st2, evs) => Some (st2, EvRequest c id v d :: evs)
        | None => None
        end
      end
    end
  | LRespond p id d =>                                  (* ActionProvider.cpp:25-32 *)
    match nth_error (s_provs st) p with
    | None => None
    | Some y => begin_publish (pr_pub y) (wrap "response" id d) st
    end
  | LRun r => run_step r st
  | LReturn r => return_step r st
  | LThrow r e => throw_step r e st
  end.

(** Executing a list of labels; [None] when one of them is not enabled. *)
Fixpoint exec (ls : list label) (st : state) : option (state * list event) :=
  match ls with
  | [] => Some (st, [])
  | l :: ls' =>
    match step l st with
    | None => None
    | Some (st', evs) =>
      match exec ls' st' with
      | None => None
      | Some (st'', evs') => Some (st'', evs ++ evs')
      end
    end
  end.

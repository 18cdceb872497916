(** Which members every step of BusModel reads and writes, under which mutexes.
    Paths as in BusModel.v.

    - mShouldRun is atomic (Bus.h:48) and left out. Names and topics do not change after construction.
    - What belongs to one thread alone (the locals of Run, of a publication, of Detach) is left out.
    - A step reads or writes what the code reads or writes between the two points that the step joins.
    - mActionProviders and mActionConsumers (Bus.h:56-59) are only appended to, under their mutexes, and read nowhere;
      BusModel does not have them.
    - A call of a std::function is one read of it, at the start of the call. Replacing the function while it runs
      is not shown here, see C84. *)
From Coq Require Import String List Arith Bool.
From Verif Require Import Prelude OMap DatagramModel DatagramSpec BusModel.
Import ListNotations.
Open Scope list_scope.

Inductive member : Type :=
| MCallback (s : nat)        (* Subscriber::mCallback, Subscriber.h:22 *)
| MPubFn (p : nat)           (* Publisher::mPublishingFunction, Publisher.h:22 *)
| MBusFn (b : nat)           (* Bus::mPublishMessageFunction, Bus.h:47 *)
| MProvCb (p : nat)          (* ActionProvider::mCallback, ActionProvider.h:26 *)
| MOpen (c : nat)            (* ActionConsumer::mOpenRequests, ActionConsumer.h:31 *)
| MSubs (b : nat)            (* Bus::mSubscribers, Bus.h:54 *)
| MPubs (b : nat)            (* Bus::mPublishers, Bus.h:52 *)
| MKids (b : nat)            (* Bus::mChildBusses, Bus.h:41 *)
| MQueue (r : nat).          (* Bus::mQueuedMessages, Bus.h:44 *)

Inductive mutex : Type :=
| KSubs (b : nat)            (* mSubscribersMutex, Bus.h:53 *)
| KPubs (b : nat)            (* mPublishersMutex, Bus.h:51 *)
| KKids (b : nat)            (* mChildBussesMutex, Bus.h:42 *)
| KQueue (r : nat).          (* mQueueMutex, Bus.h:43 *)

Record access : Type := mkAcc { a_mem : member; a_write : bool; a_locks : list mutex }.
Definition rd (k : list mutex) (x : member) : access := mkAcc x false k.
Definition wr (k : list mutex) (x : member) : access := mkAcc x true k.

(** The lock_guards on the stack of a thread inside Distribute, Bus.cpp:186 and 197. *)
Definition frame_locks (f : frame) : list mutex :=
  match f with FSubs b _ => [KSubs b] | FLock _ => [] | FKids b _ => [KKids b] end.
Definition locks_of (stk : list frame) : list mutex := flat_map frame_locks stk.
(** The same inside Detach, Bus.cpp:210. *)
Definition dlocks_of (stk : list dframe) : list mutex :=
  flat_map (fun f => match f with DLock _ => [] | DKids b _ => [KKids b] end) stk.

(** Receive with the closures it calls, Subscriber.cpp:26-32. A call of operator[] on a map counts as a write
    (the standard counts it among the modifying members). *)
Definition receive_accesses (st : state) (k : list mutex) (s : nat) (m : bmsg) : list access :=
  rd k (MCallback s) ::                                                   (* Subscriber.cpp:28-31 *)
  match nth_error (s_subs st) s with
  | Some x =>
    match s_cb x, envelope_id (bm_data m) with
    | Some (CbProvider p), Some _ => [rd k (MProvCb p)]                   (* ActionProvider.cpp:36 *)
    | Some (CbConsumer c), Some id =>
      match nth_error (s_conss st) c with
      | Some y => match olookup id (co_open y) with
                  | Some _ => [rd k (MOpen c); wr k (MOpen c)]            (* ActionConsumer.cpp:75-77 *)
                  | None => [rd k (MOpen c)]                              (* 75 *)
                  end
      | None => []
      end
    | _, _ => []
    end
  | None => []
  end.

(** The thread inside Start, Bus.cpp:137-204. *)
Definition run_accesses (st : state) (r : nat) : list access :=
  match get_bus st r with
  | None => []
  | Some x =>
    match b_runner x with
    | RWait => [rd [KQueue r] (MQueue r)]                                 (* 147-148 *)
    | RDrain => [rd [KQueue r] (MQueue r); wr [KQueue r] (MQueue r)]      (* 158-161 *)
    | RBatch (_ :: _) => if b_run x then [rd [KSubs r] (MSubs r)] else [] (* 183-187 *)
    | RDist m (FSubs b (s :: ss) :: stk) None _ =>                        (* 187-193 *)
      let k := locks_of (FSubs b (s :: ss) :: stk) in
      rd k (MSubs b) ::
      match nth_error (s_subs st) s with
      | Some y => if ant_matches (s_topic y) (bm_topic (snd m)) then receive_accesses st k s (snd m) else []
      | None => []
      end
    | RDist _ (FLock b :: stk) None _ => [rd (KKids b :: locks_of stk) (MKids b)]   (* 197-198 *)
    | RDist _ (FKids b (c :: ks) :: stk) None _ =>                        (* 198-200, 183-187 *)
      let k := locks_of (FKids b (c :: ks) :: stk) in
      rd k (MKids b) ::
      match get_bus st c with
      | Some y => if b_run y then [rd (KSubs c :: k) (MSubs c)] else []
      | None => []
      end
    | _ => []
    end
  end.

(** A callback returns; ActionConsumer.cpp:78. *)
Definition return_accesses (st : state) (r : nat) : list access :=
  match get_bus st r with
  | Some x => match b_runner x with
              | RDist _ stk (Some (CallRequest c _ _ _)) _ => [wr (locks_of stk) (MOpen c)]
              | _ => []
              end
  | None => []
  end.

(** Publish, Publisher.cpp:20-26 and Bus.cpp:94-105, 18-26. *)
Definition fly_accesses (st : state) (i : nat) : list access :=
  match nth_error (s_flights st) i with
  | Some (FlyPub p _) =>
    rd [] (MPubFn p) ::                                                   (* Publisher.cpp:24 *)
    match nth_error (s_pubs st) p with
    | Some x => if p_fn x then [rd [] (MBusFn (p_bus x))] else []         (* Bus.cpp:101 *)
    | None => []
    end
  | Some (FlyBus b _) =>
    rd [] (MBusFn b) ::                                                   (* 103 *)
    match get_bus st b with
    | Some y => match b_fn y with Some (ToQueue r) => [wr [KQueue r] (MQueue r)] | _ => [] end   (* 21-22 *)
    | None => []
    end
  | _ => []
  end.

(** Detach, Bus.cpp:206-216. *)
Definition detach_accesses (st : state) (i : nat) : list access :=
  match nth_error (s_detaches st) i with
  | Some (DLock b :: stk) => [rd (KKids b :: dlocks_of stk) (MKids b)]    (* 210-211 *)
  | Some (DKids b (c :: ks) :: stk) =>                                    (* 211-214, 208 *)
    let k := dlocks_of (DKids b (c :: ks) :: stk) in [rd k (MKids b); wr k (MBusFn c)]
  | _ => []
  end.

Definition accesses (st : state) (l : label) : list access :=
  match l with
  | LNewRoot _ | LNewCustom _ _ | LStart _ | LStop _ | LThrow _ _ => []
  | LChild b name =>                                                      (* Bus.cpp:64-80 *)
    if String.eqb name "" then []
    else rd [KKids b] (MKids b) ::
         match get_bus st b with
         | Some x => match olookup name (b_kids x) with
                     | Some _ => []
                     | None => rd [KKids b] (MBusFn b) ::
                               match b_fn x with Some _ => [wr [KKids b] (MKids b)] | None => [] end
                     end
         | None => []
         end
  | LGetChild b _ => [rd [KKids b] (MKids b)]                             (* 85-91 *)
  | LSub b _ _ => [wr [KSubs b] (MSubs b)]                                (* Bus.h:69-70 *)
  | LHasSub b _ => [rd [KSubs b] (MSubs b)]                               (* Bus.h:86-87 *)
  | LDelSub b s => [wr [KSubs b] (MSubs b); wr [KSubs b] (MCallback s)]   (* Bus.h:78-80, Subscriber.cpp:36 *)
  | LSetData s _ | LSetMsg s _ => [wr [] (MCallback s)]                   (* Subscriber.cpp:41, 52 *)
  | LPub b _ => [wr [KPubs b] (MPubs b)]
  | LHasPub b _ => [rd [KPubs b] (MPubs b)]
  | LDelPub b p => [wr [KPubs b] (MPubs b); wr [KPubs b] (MPubFn p)]      (* Bus.h:78-80, Publisher.cpp:30 *)
  | LProvider b _ _ | LConsumer b _ => [wr [KSubs b] (MSubs b); wr [KPubs b] (MPubs b)]   (* Bus.h:125-126, 150-151 *)
  | LInstallProvider p =>                                                 (* Bus.h:136 *)
    match nth_error (s_provs st) p with Some y => [wr [] (MCallback (pr_sub y))] | None => [] end
  | LInstallConsumer c =>                                                 (* Bus.h:162 *)
    match nth_error (s_conss st) c with Some y => [wr [] (MCallback (co_sub y))] | None => [] end
  | LResetProvider p => [wr [] (MProvCb p)]                               (* ActionProvider.cpp:22 *)
  | LDetach b => [wr [] (MBusFn b)]                                       (* Bus.cpp:208 *)
  | LDetachStep i => detach_accesses st i
  | LPublish p _ => [rd [] (MPubFn p)]                                    (* Publisher.cpp:22 *)
  | LPublishMsg b _ => [rd [] (MBusFn b)]                                 (* Bus.cpp:101 *)
  | LFly i => fly_accesses st i
  | LRequest c _ _ u =>                                                   (* ActionConsumer.cpp:33, Publisher.cpp:22 *)
    match u with
    | None => []
    | Some _ => wr [] (MOpen c) :: match nth_error (s_conss st) c with Some y => [rd [] (MPubFn (co_pub y))] | None => [] end
    end
  | LRespond p _ _ =>                                                     (* ActionProvider.cpp:31 *)
    match nth_error (s_provs st) p with Some y => [rd [] (MPubFn (pr_pub y))] | None => [] end
  | LRun r => run_accesses st r
  | LReturn r => return_accesses st r
  end.

(** ** Threads *)

(** The thread inside Start of a root bus, the threads of the client, a thread inside Publish, a thread inside Detach. *)
Inductive thread : Type := TBus (r : nat) | TClient (n : nat) | TFly (i : nat) | TDetach (i : nat).

Definition in_callback (st : state) (r : nat) : bool :=
  match get_bus st r with
  | Some x => match b_runner x with RDist _ _ (Some _) _ => true | _ => false end
  | None => false
  end.

(** A call of the interface comes from a thread of the client or from a callback. *)
Definition runs (st : state) (t : thread) (l : label) : bool :=
  match l with
  | LRun r | LReturn r | LThrow r _ => match t with TBus r' => Nat.eqb r r' | _ => false end
  | LFly i => match t with TFly i' => Nat.eqb i i' | _ => false end
  | LDetachStep i => match t with TDetach i' => Nat.eqb i i' | _ => false end
  | _ => match t with TClient _ => true | TBus r => in_callback st r | _ => false end
  end.

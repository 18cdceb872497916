(** Data races, and what it means for the footprints of RaceModel.v to be complete. *)
From Coq Require Import String List Arith Bool.
From Verif Require Import Prelude OMap DatagramModel DatagramSpec BusModel BusSpec ActionSpec RaceModel.
Import ListNotations.
Open Scope list_scope.

(** Two accesses of one member, one of them a write, with no mutex in common. *)
Definition conflict (a1 a2 : access) (x : member) : Prop :=
  a_mem a1 = x /\ a_mem a2 = x /\ (a_write a1 = true \/ a_write a2 = true) /\
  (forall k, In k (a_locks a1) -> ~ In k (a_locks a2)).

(** Two threads may do conflicting accesses next, in either order. *)
Definition race (st : state) (t1 : thread) (l1 : label) (t2 : thread) (l2 : label) (x : member) : Prop :=
  t1 <> t2 /\ runs st t1 l1 = true /\ runs st t2 l2 = true /\ enabled l1 st /\ enabled l2 st /\
  exists a1 a2, In a1 (accesses st l1) /\ In a2 (accesses st l2) /\ conflict a1 a2 x.

(** ** The contents of the members *)

Inductive content : Type :=
| VCallback (c : option cbk)
| VPubFn (set : bool)
| VBusFn (t : option target)
| VProvCb (u : option nat)
| VOpen (o : omap nat)
| VList (l : list nat)
| VKids (o : omap nat)
| VQueue (q : list pubn).

Definition content_of (st : state) (x : member) : option content :=
  match x with
  | MCallback s => option_map (fun y => VCallback (s_cb y)) (nth_error (s_subs st) s)
  | MPubFn p => option_map (fun y => VPubFn (p_fn y)) (nth_error (s_pubs st) p)
  | MBusFn b => option_map (fun y => VBusFn (b_fn y)) (get_bus st b)
  | MProvCb p => option_map (fun y => VProvCb (pr_cb y)) (nth_error (s_provs st) p)
  | MOpen c => option_map (fun y => VOpen (co_open y)) (nth_error (s_conss st) c)
  | MSubs b => option_map (fun y => VList (b_subs y)) (get_bus st b)
  | MPubs b => option_map (fun y => VList (b_pubs y)) (get_bus st b)
  | MKids b => option_map (fun y => VKids (b_kids y)) (get_bus st b)
  | MQueue r => option_map (fun y => VQueue (b_queue y)) (get_bus st r)
  end.

(** The same state with another content in one member. *)
Fixpoint mapi {A} (f : nat -> A -> A) (n : nat) (l : list A) : list A :=
  match l with [] => [] | x :: l' => f n x :: mapi f (S n) l' end.

Definition put_sub (x : member) (v : content) (s : nat) (y : sub) : sub :=
  match x, v with MCallback s', VCallback c => if Nat.eqb s s' then mkSub (s_topic y) c else y | _, _ => y end.
Definition put_pub (x : member) (v : content) (p : nat) (y : pub) : pub :=
  match x, v with MPubFn p', VPubFn f => if Nat.eqb p p' then mkPub (p_topic y) (p_bus y) f else y | _, _ => y end.
Definition put_prov (x : member) (v : content) (p : nat) (y : prov) : prov :=
  match x, v with MProvCb p', VProvCb u => if Nat.eqb p p' then mkProv (pr_sub y) (pr_pub y) u else y | _, _ => y end.
Definition put_cons (x : member) (v : content) (c : nat) (y : BusModel.cons) : BusModel.cons :=
  match x, v with MOpen c', VOpen o => if Nat.eqb c c' then mkCons (co_sub y) (co_pub y) o else y | _, _ => y end.
Definition put_bus (x : member) (v : content) (b : nat) (y : bus) : bus :=
  match x, v with
  | MBusFn b', VBusFn t => if Nat.eqb b b' then with_fn t y else y
  | MSubs b', VList l => if Nat.eqb b b' then with_subs l y else y
  | MPubs b', VList l => if Nat.eqb b b' then with_pubs l y else y
  | MKids b', VKids o => if Nat.eqb b b' then with_kids o y else y
  | MQueue b', VQueue q => if Nat.eqb b b' then with_queue q (b_count y) y else y
  | _, _ => y
  end.

Definition put (x : member) (v : content) (st : state) : state :=
  mkSt (mapi (put_bus x v) 0 (s_buses st)) (mapi (put_sub x v) 0 (s_subs st)) (mapi (put_pub x v) 0 (s_pubs st))
       (mapi (put_prov x v) 0 (s_provs st)) (mapi (put_cons x v) 0 (s_conss st)) (s_flights st) (s_detaches st).

(** ** Who races *)

(** The mutexes a thread holds between its steps. *)
Definition holds (st : state) (t : thread) : list mutex :=
  match t with
  | TBus r => match get_bus st r with
              | Some x => match b_runner x with RDist _ stk _ _ => locks_of stk | _ => [] end
              | None => []
              end
  | TDetach i => match nth_error (s_detaches st) i with Some ds => dlocks_of ds | None => [] end
  | _ => []
  end.

(** The bus thread of [r] is about to call Receive on [s] with [m]. *)
Definition receives (st : state) (r s : nat) (m : pubn) : Prop :=
  exists st' evs b, step (LRun r) st = Some (st', evs) /\ In (EvReceive r b s m) evs.

(** The calls that replace the content of a member without a mutex that all users of it hold. *)
Definition writer (st : state) (l : label) (x : member) : Prop :=
  match x with
  | MCallback s =>
    (exists u, l = LSetData s u) \/ (exists u, l = LSetMsg s u) \/ (exists b, l = LDelSub b s) \/
    (exists p y, l = LInstallProvider p /\ nth_error (s_provs st) p = Some y /\ pr_sub y = s) \/
    (exists c y, l = LInstallConsumer c /\ nth_error (s_conss st) c = Some y /\ co_sub y = s)
  | MPubFn p => exists b, l = LDelPub b p
  | MBusFn b =>
    l = LDetach b \/
    (exists i a ks stk, l = LDetachStep i /\ nth_error (s_detaches st) i = Some (DKids a (b :: ks) :: stk))
  | MProvCb p => l = LResetProvider p
  | MOpen c => exists id d u, l = LRequest c id d (Some u)
  | MSubs _ | MPubs _ | MKids _ | MQueue _ => False
  end.

(** The calls and steps that use it. *)
Definition user (st : state) (l : label) (x : member) : Prop :=
  match x with
  | MCallback s => exists r m, l = LRun r /\ receives st r s m
  | MPubFn p =>
    (exists d, l = LPublish p d) \/
    (exists c id d u y, l = LRequest c id d (Some u) /\ nth_error (s_conss st) c = Some y /\ co_pub y = p) \/
    (exists q id d y, l = LRespond q id d /\ nth_error (s_provs st) q = Some y /\ pr_pub y = p) \/
    (exists i d, l = LFly i /\ nth_error (s_flights st) i = Some (FlyPub p d))
  | MBusFn b =>
    (exists m, l = LPublishMsg b m) \/
    (exists name y, l = LChild b name /\ name <> ""%string /\ get_bus st b = Some y /\ olookup name (b_kids y) = None) \/
    (exists i m, l = LFly i /\ nth_error (s_flights st) i = Some (FlyBus b m)) \/
    (exists i p d y, l = LFly i /\ nth_error (s_flights st) i = Some (FlyPub p d) /\ nth_error (s_pubs st) p = Some y /\
       p_fn y = true /\ p_bus y = b)
  | MProvCb p => exists r s m id, l = LRun r /\ provider_on st p s /\ receives st r s m /\ has_id (bm_data (snd m)) id
  | MOpen c =>
    (exists r s m id, l = LRun r /\ consumer_on st c s /\ receives st r s m /\ has_id (bm_data (snd m)) id) \/
    (exists r b id u d, l = LReturn r /\ calling st r b (CallRequest c id u d))
  | MSubs _ | MPubs _ | MKids _ | MQueue _ => False
  end.

(** Two deletions through the same bus take turns. *)
Definition same_delete (l1 l2 : label) (x : member) : Prop :=
  match x with
  | MCallback s => exists b, l1 = LDelSub b s /\ l2 = LDelSub b s
  | MPubFn p => exists b, l1 = LDelPub b p /\ l2 = LDelPub b p
  | _ => False
  end.

(** ** A way to use the bus without races *)

(** Neither callbacks nor functions are replaced; subscribers are deleted on the bus they are on; requests are made by
    callbacks of the bus thread that calls the consumer's subscriber. *)
Definition orderly (st : state) (t : thread) (l : label) : Prop :=
  match l with
  | LSetData _ _ | LSetMsg _ _ | LInstallProvider _ | LInstallConsumer _ | LResetProvider _ | LDelPub _ _ | LDetach _ | LDetachStep _ => False
  | LDelSub b s => exists x, get_bus st b = Some x /\ In s (b_subs x)
  | LRequest c _ _ _ => exists r y b x, t = TBus r /\ nth_error (s_conss st) c = Some y /\ get_bus st b = Some x /\ In (co_sub y) (b_subs x) /\ below st r b
  | _ => True
  end.

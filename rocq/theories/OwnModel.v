(** Model of who keeps whom alive: the std::shared_ptr references between buses, publishers, subscribers, action
    providers and action consumers, and the raw [this] pointers their functions capture.
    "Bus" is src/lamppost/bus/Bus.cpp, "Bus.h" is include/lamppost/bus/Bus.h.

    Simplifications:
    - One thread; a callback's effects are calls like any others, made while it runs.
    - Names, topics and messages are left out (C26, C20-C22 are about them); so creating a child never fails for its
      name. Buses with a client's own publishing function (Bus:29-45) are left out.
    - An object is freed when the last shared_ptr to it goes away; when several go at once, the one created first goes
      first. References from objects that were freed are gone.
    - What a client's callback captures is a list of objects. Captured raw pointers of clients are their own affair. *)
From Coq Require Import List Arith Bool.
From Verif Require Import Prelude.
Import ListNotations.
Open Scope list_scope.

Inductive obj : Type :=
| BusO (fn : option nat)        (* mPublishMessageFunction: null, or pushing to the queue of this root bus (raw pointer, Bus:17-25) *)
       (kids : list nat)        (* mChildBusses *)
       (parts : list nat)       (* mPublishers, mSubscribers, mActionProviders, mActionConsumers *)
| SubO (caps : list nat)        (* Subscriber: what mCallback captured *)
| PubO (fn : option nat)        (* Publisher: mPublishingFunction, null or calling this bus (raw pointer, Bus.h:108-111) *)
| ProvO (sub pub : nat) (caps : list nat)          (* ActionProvider.h:20-23 *)
| ConsO (sub pub : nat) (open : list (list nat))   (* ActionConsumer.h:27-30, with what each open request's callback captured *)
| Dead.

(** The shared_ptr members of an object. *)
Definition refs (o : obj) : list nat :=
  match o with
  | BusO _ kids parts => kids ++ parts
  | SubO caps => caps
  | PubO _ => []
  | ProvO s p caps => s :: p :: caps
  | ConsO s p open => s :: p :: concat open
  | Dead => []
  end.

Record own : Type := mkOwn { w_heap : list obj; w_held : list nat (* the client's own shared_ptr variables *) }.
Definition own0 : own := mkOwn [] [].

Definition mem (x : nat) (l : list nat) : bool := existsb (Nat.eqb x) l.
Fixpoint remove1 (x : nat) (l : list nat) : list nat :=
  match l with [] => [] | y :: l' => if Nat.eqb x y then l' else y :: remove1 x l' end.
Definition remove_all (x : nat) (l : list nat) : list nat := filter (fun y => negb (Nat.eqb x y)) l.
Definition get (x : nat) (h : list obj) : obj := nth x h Dead.
Definition allocated (x : nat) (h : list obj) : bool := match get x h with Dead => false | _ => true end.

(** Bus:204-214. The bound is the number of objects (a child is created after its parent). *)
Fixpoint detach (n : nat) (x : nat) (h : list obj) : list obj :=
  match n with
  | O => h
  | S n' =>
      match get x h with
      | BusO _ kids parts => fold_left (fun h' k => detach n' k h') kids (list_set x (BusO None kids parts) h)
      | _ => h
      end
  end.

(** ~Bus (Bus:47-60) detaches the children; the other destructors only drop members. *)
Definition free (x : nat) (h : list obj) : list obj :=
  list_set x Dead
    (match get x h with
     | BusO _ kids _ => fold_left (fun h' k => detach (length h) k h') kids h
     | _ => h
     end).

(** An object without any shared_ptr to it. *)
Definition garbage (st : own) : option nat :=
  find (fun x => allocated x (w_heap st) && negb (mem x (w_held st ++ flat_map refs (w_heap st)))) (seq 0 (length (w_heap st))).
Fixpoint collect (n : nat) (st : own) : own :=
  match n with
  | O => st
  | S n' => match garbage st with
            | Some x => collect n' (mkOwn (free x (w_heap st)) (w_held st))
            | None => st
            end
  end.
Definition settle (st : own) : own := collect (length (w_heap st)) st.

(** What a client does. Objects are named by number; a client can only use what it holds. *)
Inductive oop : Type :=
| NewBus                                  (* make_shared<Bus>(name) *)
| NewChild (b : nat)                      (* CreateChildBus *)
| FindChild (b k : nat)                   (* GetChildBus, which finds [k] *)
| NewPub (b : nat)                        (* CreatePublisher *)
| NewSub (b : nat) (caps : list nat)      (* CreateSubscriber, with or without a callback *)
| NewProv (b : nat) (caps : list nat)     (* CreateActionProvider *)
| NewCons (b : nat)                       (* CreateActionConsumer *)
| Request (c : nat) (caps : list nat)     (* RequestAsync *)
| Answer (c i : nat)                      (* ProcessResponse for the [i]-th open request *)
| SetCallback (s : nat) (caps : list nat) (* SetDatagramCallback, SetMessageCallback *)
| Take (x y : nat)                        (* a running callback of [x] copies a captured pointer; an action callback is given its provider *)
| Reset (x : nat)                         (* Reset of a participant *)
| DeleteSub (b s : nat) | DeletePub (b p : nat)
| Detach (b : nat)
| PublishBus (b : nat)                    (* Bus::Publish *)
| Publish (p : nat)                       (* Publisher::Publish *)
| Respond (a : nat)                       (* ActionProvider::Respond *)
| Copy (x : nat) | Drop (x : nat).        (* the client copies a pointer, lets one go *)

Inductive ores : Type := Fine | New (x : nat) | Refused (* an exception *) | Undef (* undefined behaviour *).

Definition holds (x : nat) (st : own) : bool := mem x (w_held st).
Definition subset (l : list nat) (st : own) : bool := forallb (fun x => holds x st) l.

(** Bus:105-111: the function is called if there is one; it works on the root bus. *)
Definition publish_bus (h : list obj) (b : nat) : ores :=
  match get b h with
  | BusO (Some r) _ _ => if allocated r h then Fine else Undef
  | BusO None _ _ => Fine
  | _ => Undef
  end.
(** Publisher.cpp:19-25 with Bus.h:108-111 and Bus:100-103 *)
Definition publish (h : list obj) (p : nat) : ores :=
  match get p h with
  | PubO (Some b) => publish_bus h b
  | PubO None => Fine
  | _ => Undef
  end.

Definition add_part (b : nat) (l : list nat) (h : list obj) : list obj :=
  match get b h with BusO f k ps => list_set b (BusO f k (ps ++ l)) h | _ => h end.

Definition is_bus (b : nat) (st : own) : bool := holds b st && match get b (w_heap st) with BusO _ _ _ => true | _ => false end.

(** None: not possible (an object is used that the client does not hold, or that has another type). *)
Definition ostep (o : oop) (st : own) : option (own * ores) :=
  let h := w_heap st in
  let held := w_held st in
  let n := length h in
  match o with
  | NewBus => Some (mkOwn (h ++ [BusO (Some n) [] []]) (held ++ [n]), New n)                     (* Bus:8-27 *)
  | NewChild b =>                                                                               (* Bus:62-81 *)
      if is_bus b st then
        match get b h with
        | BusO (Some r) k ps => Some (mkOwn (list_set b (BusO (Some r) (k ++ [n]) ps) h ++ [BusO (Some r) [] []]) (held ++ [n]), New n)
        | _ => Some (st, Refused)                                                               (* Bus:41-44 *)
        end
      else None
  | FindChild b k =>                                                                            (* Bus:83-92 *)
      if is_bus b st then match get b h with BusO _ ks _ => if mem k ks then Some (mkOwn h (held ++ [k]), New k) else Some (st, Refused) | _ => None end
      else None
  | NewPub b =>                                                                                 (* Bus.h:101-113 *)
      if is_bus b st then Some (mkOwn (add_part b [n] h ++ [PubO (Some b)]) (held ++ [n]), New n) else None
  | NewSub b caps =>                                                                            (* Bus.h:115-119 *)
      if is_bus b st && subset caps st then Some (mkOwn (add_part b [n] h ++ [SubO caps]) (held ++ [n]), New n) else None
  | NewProv b caps =>                                                                           (* Bus.h:121-145 *)
      if is_bus b st && subset caps st then
        Some (mkOwn (add_part b [n; S n; S (S n)] h ++ [SubO [S (S n)]; PubO (Some b); ProvO n (S n) caps]) (held ++ [S (S n)]), New (S (S n)))
      else None
  | NewCons b =>                                                                                (* Bus.h:147-172 *)
      if is_bus b st then
        Some (mkOwn (add_part b [S n; n; S (S n)] h ++ [SubO [S (S n)]; PubO (Some b); ConsO n (S n) []]) (held ++ [S (S n)]), New (S (S n)))
      else None
  | Request c caps =>                                                                           (* ActionConsumer.cpp:22-40 *)
      if holds c st && subset caps st then
        match get c h with
        | ConsO s p op => Some (mkOwn (list_set c (ConsO s p (op ++ [caps])) h) held, publish h p)
        | _ => None
        end
      else None
  | Answer c i =>                                                                               (* ActionConsumer.cpp:73-81 *)
      match get c h with
      | ConsO s p op => Some (settle (mkOwn (list_set c (ConsO s p (firstn i op ++ skipn (S i) op)) h) held), Fine)
      | _ => None
      end
  | SetCallback s caps =>                                                                       (* Subscriber.cpp:37-52 *)
      if holds s st && subset caps st then
        match get s h with
        | SubO _ => Some (settle (mkOwn (list_set s (SubO caps) h) held), Fine)
        | _ => None
        end
      else None
  | Take x y =>
      if match get x h with
         | SubO caps => mem y caps
         | ProvO _ _ caps => mem y caps
         | ConsO _ _ op => mem y (concat op)
         | _ => false
         end
      then Some (mkOwn h (held ++ [y]), New y) else None
  | Reset x =>
      if holds x st then
        match get x h with
        | SubO _ => Some (settle (mkOwn (list_set x (SubO []) h) held), Fine)                    (* Subscriber.cpp:32-35 *)
        | PubO _ => Some (mkOwn (list_set x (PubO None) h) held, Fine)                           (* Publisher.cpp:27-30 *)
        | ProvO s p _ => Some (settle (mkOwn (list_set x (ProvO s p []) h) held), Fine)          (* ActionProvider.cpp:20-23 *)
        | ConsO _ _ _ => Some (st, Fine)                                                        (* ActionConsumer.cpp:18-20 *)
        | _ => None
        end
      else None
  | DeleteSub b s =>                                                                            (* Bus.h:77-83 *)
      if is_bus b st && holds s st then
        match get b h, get s h with
        | BusO f k ps, SubO _ => Some (settle (mkOwn (list_set s (SubO []) (list_set b (BusO f k (remove_all s ps)) h)) held), Fine)
        | _, _ => None
        end
      else None
  | DeletePub b p =>
      if is_bus b st && holds p st then
        match get b h, get p h with
        | BusO f k ps, PubO _ => Some (settle (mkOwn (list_set p (PubO None) (list_set b (BusO f k (remove_all p ps)) h)) held), Fine)
        | _, _ => None
        end
      else None
  | Detach b => if is_bus b st then Some (mkOwn (detach n b h) held, Fine) else None             (* Bus:204-214 *)
  | PublishBus b => if is_bus b st then Some (st, publish_bus h b) else None
  | Publish p => if holds p st then match get p h with PubO _ => Some (st, publish h p) | _ => None end else None
  | Respond a => if holds a st then match get a h with ProvO _ p _ => Some (st, publish h p) | _ => None end else None
  | Copy x => if holds x st then Some (mkOwn h (held ++ [x]), Fine) else None
  | Drop x => if holds x st then Some (settle (mkOwn h (remove1 x held)), Fine) else None
  end.

(** Nothing follows undefined behaviour. *)
Fixpoint oexec (os : list oop) (st : own) : option own :=
  match os with
  | [] => Some st
  | o :: os' => match ostep o st with
                | Some (_, Undef) => None
                | Some (st', _) => oexec os' st'
                | None => None
                end
  end.

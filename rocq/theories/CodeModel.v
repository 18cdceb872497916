(** Model of whose code is run when plugin libraries are closed at shutdown: LampPost::Teardown and ~LampPost
    (src/lamppost/LampPost.cpp, "LampPost"), PluginManager::UnloadTemplates and ~PluginManager
    (src/lamppost/plugin/PluginManager.cpp, "Manager"), on top of the ownership model (OwnModel.v).

    The functions that make publishers, subscribers, providers and consumers are templates in
    include/lamppost/bus/Bus.h ("Bus.h", 66-75 and 101-172): what they make (shared_ptr control block, lambdas) is
    compiled into the library that calls them, and so is the code that destroys it.

    Simplifications:
    - Closing the last handle really removes the code, and a library runs its own copy of what is compiled into it (it
      is opened with dlopen(path, RTLD_NOW), Manager:48, by a program that exports nothing, CMakeLists.txt:105-112).
    - Destroying a bus is not counted as library code. The bus of an instance is made by the program; a bus a plugin
      creates itself is made by the copy of Bus.cpp in the library if liblamppost is static (CMakeLists.txt:72 and
      134-139), and by the program's otherwise.
    - Those of OwnModel.v. A plugin makes no root bus of its own. Calls that dangle (C73) are not followed.
    - The root bus runs from the beginning until [End]; no callback runs afterwards (C25). Publishing does not matter here.
    - Bus pointers get to a plugin only by its configuration (Manager:211-222, PluginTemplate.cpp:33-36), and no call hands
      something to another library; so whatever a library holds it made, or got for itself.
    - A library is closed when its last handle is (C45); before that its instances are stopped, deinitialised and
      destroyed (C46, C51), so it holds nothing and calls nothing any more.
    - Values inside messages left in the queue are left out. *)
From Coq Require Import List Arith Bool.
From Verif Require Import Prelude OwnModel.
Import ListNotations.
Open Scope list_scope.

(** Number 0 is the program, the others are libraries. Object 0 is the root bus. *)
Record cstate : Type := mkC {
  c_heap : list obj;
  c_owner : list nat;            (* for each object: who made it (a bus: for whom it was made) *)
  c_who : list (nat * nat);      (* (who, object): the shared_ptr variables *)
  c_up : bool;                   (* the root bus is running *)
  c_closed : list nat            (* libraries that have been closed *)
}.

(** LampPost:9 and LampPost:32: mRootBus and mPluginManager.mConfiguration.mBus *)
Definition c_init : cstate := mkC [BusO (Some 0) [] []] [0] [(0, 0); (0, 0)] true [].

Definition owner (st : cstate) (x : nat) : nat := nth x (c_owner st) 0.
Definition own_of (st : cstate) : own := mkOwn (c_heap st) (map snd (c_who st)).
Definition has (l x : nat) (st : cstate) : bool := existsb (fun p => Nat.eqb (fst p) l && Nat.eqb (snd p) x) (c_who st).
Fixpoint remove_who (l x : nat) (w : list (nat * nat)) : list (nat * nat) :=
  match w with
  | [] => []
  | p :: w' => if Nat.eqb (fst p) l && Nat.eqb (snd p) x then w' else p :: remove_who l x w'
  end.

(** The objects a call is made on and those its callback captures. *)
Definition uses (o : oop) : list nat :=
  match o with
  | NewBus => []
  | NewChild b | NewPub b | NewCons b | FindChild b _ | Detach b | PublishBus b => [b]
  | NewSub b caps | NewProv b caps => b :: caps
  | Request c caps => c :: caps
  | Answer c _ => [c]
  | SetCallback s caps => s :: caps
  | Take x _ => [x]
  | Reset x | Copy x | Drop x => [x]
  | DeleteSub b s => [b; s]
  | DeletePub b p => [b; p]
  | Publish p => [p]
  | Respond a => [a]
  end.

Inductive clabel : Type :=
| Instantiate (l : nat)          (* Manager:203-230, PluginTemplate.cpp:24-39: an instance gets a new child of the root bus *)
| By (l : nat) (o : oop)         (* code of library [l] makes a call *)
| Call (o : oop)                 (* the bus thread runs a callback: [Answer] or [Take] *)
| End                            (* LampPost:136, the root bus has stopped *)
| DetachRoot                     (* LampPost:41 *)
| Close (l : nat)                (* Manager:193 *)
| DropRoot.                      (* LampPost:45, LampPost:26, Manager:35: one of the program's two pointers *)

(** Objects whose functions are called or destroyed by the call, and objects that are freed. *)
Definition operands (o : oop) : list nat :=
  match o with
  | Answer c _ => [c]                                   (* ActionConsumer.cpp:73-81 *)
  | Take x _ => [x]
  | SetCallback s _ => [s]                              (* Subscriber.cpp:37-52 *)
  | Reset x => [x]
  | DeleteSub _ s => [s]                                (* Bus.h:77-83 *)
  | DeletePub _ p => [p]
  | _ => []
  end.
Definition is_busO (o : obj) : bool := match o with BusO _ _ _ => true | _ => false end.
Definition freed (h h' : list obj) : list nat :=
  filter (fun x => allocated x h && negb (allocated x h')) (seq 0 (length h)).
(** Library code that is run: (object, library). *)
Definition events (st : cstate) (o : oop) (h' : list obj) : list (nat * nat) :=
  map (fun x => (x, owner st x)) (filter (fun x => negb (is_busO (get x (c_heap st)))) (operands o ++ freed (c_heap st) h')).

(** A call by [l]; the pointer it returns belongs to [l']. *)
Definition perform (l l' : nat) (o : oop) (st : cstate) : option (cstate * ores * list (nat * nat)) :=
  match ostep o (own_of st) with
  | Some (_, Undef) => None
  | Some (w, r) =>
      Some (mkC (w_heap w)
              (c_owner st ++ repeat l' (length (w_heap w) - length (c_heap st)))
              (match r, o with
               | New x, _ => c_who st ++ [(l', x)]
               | _, Copy x => c_who st ++ [(l', x)]
               | _, Drop x => remove_who l x (c_who st)
               | _, _ => c_who st
               end)
              (c_up st) (c_closed st), r, events st o (w_heap w))
  | None => None
  end.

(** None: not possible here. *)
Definition cstep (lb : clabel) (st : cstate) : option (cstate * ores * list (nat * nat)) :=
  match lb with
  | Instantiate l =>
      if c_up st && Nat.ltb 0 l && has 0 0 st then perform 0 l (NewChild 0) st else None
  | By l o =>
      match o with
      | NewBus | Answer _ _ | Take _ _ => None
      | _ =>
          if Nat.ltb 0 l && negb (mem l (c_closed st)) && forallb (fun x => has l x st) (uses o) then perform l l o st else None
      end
  | Call o =>
      match o with
      | Answer x _ | Take x _ => if c_up st then perform (owner st x) (owner st x) o st else None
      | _ => None
      end
  | End => if c_up st then Some (mkC (c_heap st) (c_owner st) (c_who st) false (c_closed st), Fine, []) else None
  | DetachRoot => if negb (c_up st) && has 0 0 st then perform 0 0 (Detach 0) st else None
  | Close l =>
      if negb (c_up st) && Nat.ltb 0 l && negb (mem l (c_closed st)) && negb (existsb (fun p => Nat.eqb (fst p) l) (c_who st)) && has 0 0 st
      then Some (mkC (c_heap st) (c_owner st) (c_who st) (c_up st) (l :: c_closed st), Fine, []) else None
  | DropRoot =>
      (* the last one goes when no plugin instance exists any more, Manager:32-36 *)
      if negb (c_up st) && has 0 0 st &&
         (forallb (fun p => Nat.eqb (fst p) 0) (c_who st) || Nat.ltb 1 (length (filter (fun p => Nat.eqb (fst p) 0) (c_who st))))
      then perform 0 0 (Drop 0) st else None
  end.

(** An execution: what was done with what result, and the library code that was run. *)
Fixpoint cexec (ls : list clabel) (st : cstate) : option (cstate * list (clabel * ores) * list (nat * nat)) :=
  match ls with
  | [] => Some (st, [], [])
  | lb :: ls' =>
      match cstep lb st with
      | Some (st1, r, e1) =>
          match cexec ls' st1 with Some (st2, lg, e2) => Some (st2, (lb, r) :: lg, e1 ++ e2) | None => None end
      | None => None
      end
  end.

(** Model of the plugins' worker threads next to the thread that ends the program: src/lamppost/plugin/PluginInstance.cpp
    ("PluginInstance"), PluginTemplate.cpp ("PluginTemplate"), PluginManager.cpp ("PluginManager"), src/lamppost/LampPost.cpp
    ("LampPost"), src/plugins/sysinfo/SysInfo.cpp ("SysInfo") and src/plugins/link/Link.cpp ("Link"), over BusModel.

    Simplifications:
    - Of Run only the test of mShouldRun and the publications matter: a round makes at most [wk_round] of them (SysInfo: one;
      Link: two). Sleeping, receiving from sockets and logging are the choice when to go on and what to publish.
    - Deinitialize of a plugin is a list of calls to the bus. What else it does (Link) is not here.
    - Run does not catch exceptions; one that leaves it calls std::terminate. The other exceptions of Run (a received message
      that is not one, Link:236) are not here. *)
From Coq Require Import String List Arith Bool.
From Verif Require Import Prelude OMap DatagramModel DatagramSpec BusModel BusSpec.
Import ListNotations.
Open Scope list_scope.

(** SysInfo:55 publishes through a publisher, Link:170 and 182 directly on a bus. *)
Inductive how : Type := ByPub (p : nat) | ByBus (b : nat).
Inductive payload : Type := PayD (d : dg) | PayM (m : bmsg).

Inductive pos : Type :=
| AtTest                  (* SysInfo:49, Link:138 *)
| Body (n : nat)          (* in a round that may still make n publications *)
| Inside (i n : nat)      (* inside publication i *)
| Over.                   (* Run has returned *)

Record worker : Type := mkWorker {
  wk_how : how;
  wk_round : nat;
  wk_run : bool;          (* mShouldRun, PluginInstance.h:58 *)
  wk_pos : pos
}.

(** What the ending thread still has to do. *)
Inductive op : Type :=
| ODetach (b : nat)       (* calls Detach on bus b *)
| ODetaching (i : nat)    (* is inside it *)
| OStop (w : nat)         (* calls Stop on the plugin of worker w, PluginInstance:36-47 *)
| OJoin (w : nat)         (* is at PluginInstance:44 *)
| OCall (l : label).      (* another call to the bus *)

Record world : Type := mkWorld { wd_bus : state; wd_workers : list worker; wd_ctl : list op; wd_dead : bool (* std::terminate *) }.

(** PluginTemplate:41-68: Stop for every instance, then Deinitialize for every instance. *)
Definition unload_template (t : list nat * list label) : list op := map OStop (fst t) ++ map OCall (snd t).
(** PluginManager:195-211 *)
Definition unload_templates (ts : list (list nat * list label)) : list op := flat_map unload_template ts.
(** LampPost:38-46 *)
Definition teardown (root : nat) (ts : list (list nat * list label)) : list op := ODetach root :: unload_templates ts.

Inductive wlabel : Type :=
| WWork (w : nat) (x : option payload)   (* worker w goes on; x: what it publishes now, if anything *)
| WFly (w : nat)                         (* worker w goes on inside its publication *)
| WCtl                                   (* the ending thread goes on *)
| WOther (l : label).                    (* any other thread *)

Definition set_worker (w : nat) (x : worker) (s : world) : world :=
  mkWorld (wd_bus s) (list_set w x (wd_workers s)) (wd_ctl s) (wd_dead s).
Definition set_wbus (st : state) (s : world) : world := mkWorld st (wd_workers s) (wd_ctl s) (wd_dead s).
Definition set_ctl (k : list op) (s : world) : world := mkWorld (wd_bus s) (wd_workers s) k (wd_dead s).
Definition die (s : world) : world := mkWorld (wd_bus s) (wd_workers s) (wd_ctl s) true.
Definition goes (p : pos) (x : worker) : worker := mkWorker (wk_how x) (wk_round x) (wk_run x) p.

(** SysInfo:55, Link:170, 182 *)
Definition publication (h : how) (x : payload) : option label :=
  match h, x with
  | ByPub p, PayD d => Some (LPublish p d)
  | ByBus b, PayM m => Some (LPublishMsg b m)
  | _, _ => None
  end.

Definition work (w : nat) (o : option payload) (s : world) : option world :=
  match nth_error (wd_workers s) w with
  | None => None
  | Some x =>
    match wk_pos x, o with
    | AtTest, None => Some (set_worker w (goes (if wk_run x then Body (wk_round x) else Over) x) s)
    | Body 0, None => Some (set_worker w (goes AtTest x) s)
    | Body (S n), None => Some (set_worker w (goes (Body n) x) s)
    | Body (S n), Some d =>
      match publication (wk_how x) d with
      | None => None
      | Some l =>
        let i := length (s_flights (wd_bus s)) in
        match step l (wd_bus s) with
        | None => None
        | Some (st', evs) =>
          Some (set_worker w (goes (match returned i evs with [] => Inside i n | _ => Body n end) x) (set_wbus st' s))
        end
      end
    | _, _ => None
    end
  end.

Definition fly (w : nat) (s : world) : option world :=
  match nth_error (wd_workers s) w with
  | None => None
  | Some x =>
    match wk_pos x with
    | Inside i n =>
      match step (LFly i) (wd_bus s) with
      | None => None
      | Some (st', evs) =>
        match returned i evs with
        | [] => Some (set_wbus st' s)
        | Ok _ :: _ => Some (set_worker w (goes (Body n) x) (set_wbus st' s))
        | _ :: _ => Some (die (set_wbus st' s))
        end
      end
    | _ => None
    end
  end.

Definition ctl (s : world) : option world :=
  match wd_ctl s with
  | [] => None
  | ODetach b :: k =>                                                          (* LampPost:41 *)
    match step (LDetach b) (wd_bus s) with
    | Some (st', _) => Some (set_ctl (ODetaching (length (s_detaches (wd_bus s))) :: k) (set_wbus st' s))
    | None => None
    end
  | ODetaching i :: k =>
    match nth_error (s_detaches (wd_bus s)) i with
    | Some [] => Some (set_ctl k s)
    | _ => match step (LDetachStep i) (wd_bus s) with Some (st', _) => Some (set_wbus st' s) | None => None end
    end
  | OStop w :: k =>                                                            (* PluginInstance:38-40 *)
    match nth_error (wd_workers s) w with
    | Some x => if wk_run x
                then Some (set_ctl (OJoin w :: k) (set_worker w (mkWorker (wk_how x) (wk_round x) false (wk_pos x)) s))
                else Some (set_ctl k s)
    | None => None
    end
  | OJoin w :: k =>                                                            (* PluginInstance:42-45 *)
    match nth_error (wd_workers s) w with
    | Some x => match wk_pos x with Over => Some (set_ctl k s) | _ => None end
    | None => None
    end
  | OCall l :: k => match step l (wd_bus s) with Some (st', _) => Some (set_ctl k (set_wbus st' s)) | None => None end
  end.

(** The publications of the workers are theirs. *)
Definition flown_by (i : nat) (x : worker) : bool := match wk_pos x with Inside j _ => Nat.eqb i j | _ => false end.
Definition other (l : label) (s : world) : option world :=
  match l with
  | LFly i => if existsb (flown_by i) (wd_workers s) then None
              else match step l (wd_bus s) with Some (st', _) => Some (set_wbus st' s) | None => None end
  | _ => match step l (wd_bus s) with Some (st', _) => Some (set_wbus st' s) | None => None end
  end.

Definition wstep (l : wlabel) (s : world) : option world :=
  if wd_dead s then None
  else match l with
       | WWork w x => work w x s
       | WFly w => fly w s
       | WCtl => ctl s
       | WOther l' => other l' s
       end.

Fixpoint wexec (ls : list wlabel) (s : world) : option world :=
  match ls with
  | [] => Some s
  | l :: ls' => match wstep l s with Some s1 => wexec ls' s1 | None => None end
  end.

(** Vocabulary of the theorems on SysInfoModel. *)
From Coq Require Import String List Arith Bool.
From Verif Require Import Prelude DatagramModel DatagramSpec BusModel BusSpec SysInfoModel.
Import ListNotations.
Open Scope list_scope.

(** What the thread inside Start of root [r] does. *)
Definition by_thread (r : nat) (e : event) : bool :=
  match e with
  | EvBegin r' _ | EvReceive r' _ _ _ | EvInvoke r' _ _ _ | EvEnd r' _ | EvDrop r' _ | EvLost r' _ | EvStop r' _ => Nat.eqb r' r
  | _ => false
  end.
Definition silent (r : nat) (tr : list event) : Prop := forall e, In e tr -> by_thread r e = false.

Definition is_string (d : dg) : Prop := exists s, d = Val (DStr s).

(** [s] is the subscriber of a SysInfo instance. *)
Definition logs (k : zconf) (s : nat) (st : state) : Prop :=
  exists y u, nth_error (s_subs st) s = Some y /\ s_topic y = "/sysinfo"%string /\ s_cb y = Some (CbData (Some u)) /\ zc_log k u = true.

(** [P] holds before and after every step. *)
Fixpoint zalways (k : zconf) (P : state -> Prop) (ls : list zlabel) (z : zstate) : Prop :=
  P (z_bus z) /\ match ls with
                 | [] => True
                 | l :: ls' => match zstep k l z with Some (z', _) => zalways k P ls' z' | None => True end
                 end.

(** How often a SysInfo lambda on the bus thread of [r] calls Respond, and how often that thread enters one. *)
Definition responds (r : nat) (ls : list zlabel) : nat :=
  length (filter (fun l => match l with ZRespond r' => Nat.eqb r' r | _ => false end) ls).
Definition asked (k : zconf) (r : nat) (tr : list event) : nat :=
  length (filter (fun e => match e with EvInvoke r' _ _ (CallProvider _ _ u _) => Nat.eqb r' r && zc_answer k u | _ => false end) tr).

(** The thread of [r] is inside such a lambda, with this request. *)
Definition answering (k : zconf) (st : state) (r p : nat) (id : string) : Prop :=
  exists b u d, calling st r b (CallProvider p id u d) /\ zc_answer k u = true.

(** Vocabulary for the statements about worker threads. *)
From Coq Require Import String List Arith Bool.
From Verif Require Import Prelude OMap DatagramModel DatagramSpec BusModel BusSpec BusProofs BusFlight WorkerModel.
Import ListNotations.
Open Scope list_scope.

(** Nothing has been detached and no publisher deleted so far. *)
Definition untouched (st : state) : Prop :=
  (forall b, ~ detached b st) /\ (forall p, ~ reset p st) /\ (forall i ds, nth_error (s_detaches st) i = Some ds -> ds = []).

(** The calls that make publications fail, for a worker that publishes this way. *)
Definition cuts (h : how) (o : op) : Prop :=
  match o, h with
  | ODetach _, _ => True
  | OCall (LDelPub _ p), ByPub q => p = q
  | _, _ => False
  end.
Definition deletes (h : how) (o : op) : Prop :=
  match o, h with OCall (LDelPub _ p), ByPub q => p = q | _, _ => False end.

(** Wherever [P] holds in the program [k], worker [w] has been stopped before. *)
Definition stopped_before (w : nat) (P : op -> Prop) (k : list op) : Prop :=
  forall a o c, k = a ++ o :: c -> P o -> In (OStop w) a.

(** What a program of the ending thread is made of. *)
Definition plain (o : op) : Prop :=
  match o with
  | ODetach _ | OStop _ => True
  | OCall l => (exists b s, l = LDelSub b s) \/ (exists b p, l = LDelPub b p)
  | _ => False
  end.

(** The plugins have been started, the program has not begun to end. *)
Definition begun (s : world) : Prop :=
  reach (wd_bus s) /\ untouched (wd_bus s) /\ Forall plain (wd_ctl s) /\ wd_dead s = false /\
  Forall (fun x => wk_run x = true /\ wk_pos x = AtTest) (wd_workers s).

(** Other threads neither detach buses nor delete publishers. *)
Definition calm_other (l : wlabel) : Prop :=
  match l with
  | WOther (LDetach _) | WOther (LDetachStep _) | WOther (LDelPub _ _) => False
  | _ => True
  end.

(** Worker [w] publishes on bus [b], and could: neither bus nor publisher has been cut off. *)
Definition publishes_on (x : worker) (b : nat) (st : state) : Prop :=
  match wk_how x with
  | ByBus b' => b' = b
  | ByPub p => exists y, nth_error (s_pubs st) p = Some y /\ p_bus y = b /\ p_fn y = true
  end.

(** The steps of worker [w] in [ls]. *)
Definition owned (w : nat) (l : wlabel) : bool := match l with WWork w' _ | WFly w' => Nat.eqb w' w | _ => false end.
Definition own (w : nat) (ls : list wlabel) : nat := length (filter (owned w) ls).

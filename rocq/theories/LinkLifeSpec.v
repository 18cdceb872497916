(** Vocabulary for the statements about a link plugin's life. *)
From Coq Require Import List Arith Bool.
From Verif Require Import LinkModel LinkLifeModel.
Import ListNotations.

(** Calls in order: Initialize and Deinitialize alternate; Start comes after Initialize and when there is no worker; Initialize
    comes when there is none. Stop may come at any time. [up]: initialised; [running]: started and not stopped. *)
Fixpoint ordered (up running : bool) (ls : list lklabel) : Prop :=
  match ls with
  | [] => True
  | KCall (KInit _ _) :: ls' => up = false /\ running = false /\ ordered true running ls'
  | KCall KStart :: ls' => up = true /\ running = false /\ ordered up true ls'
  | KCall KStop :: ls' => ordered up false ls'
  | KCall KDeinit :: ls' => up = true /\ ordered false running ls'
  | _ :: ls' => ordered up running ls'
  end.

(** Thread [t] has begun to use socket [h] and not ended. *)
Definition inside (t : thread) (h : nat) (tr : list lkevent) : Prop :=
  exists tr1 tr2, tr = tr1 ++ EvCall t h :: tr2 /\ ~ In (EvRet t h) tr2.

(** Socket [h] exists and no thread is using it. *)
Definition usable_by_one (h : nat) (tr : list lkevent) : Prop :=
  (exists c, In (EvSocket h c) tr) /\ ~ In (EvClose h) tr /\ forall t, ~ inside t h tr.

(** Only existing sockets are used, each by one thread at a time, and closed once, by nobody else's use; a context is terminated
    once, when its sockets have been closed, and no socket is created in it afterwards; nothing worse happens. *)
Definition sound (tr : list lkevent) : Prop :=
  forall tr1 e tr2, tr = tr1 ++ e :: tr2 ->
  match e with
  | EvCall _ h | EvClose h => usable_by_one h tr1
  | EvSocket _ c => In (EvCtx c) tr1 /\ ~ In (EvTerm c) tr1
  | EvTerm c => In (EvCtx c) tr1 /\ ~ In (EvTerm c) tr1 /\ forall h, In (EvSocket h c) tr1 -> In (EvClose h) tr1
  | EvNull | EvAbort => False
  | EvCtx _ | EvRet _ _ => True
  end.

(** The last call of Initialize or Deinitialize was Initialize. *)
Fixpoint is_up (up : bool) (ls : list lklabel) : bool :=
  match ls with
  | [] => up
  | KCall (KInit _ _) :: ls' => is_up true ls'
  | KCall KDeinit :: ls' => is_up false ls'
  | _ :: ls' => is_up up ls'
  end.

(** Nothing is left: every socket closed, every context terminated. *)
Definition released (tr : list lkevent) : Prop :=
  (forall h c, In (EvSocket h c) tr -> In (EvClose h) tr) /\ (forall c, In (EvCtx c) tr -> In (EvTerm c) tr).

Definition quiet (l : lklabel) : Prop := match l with KCall _ | KMsg _ => False | _ => True end.
Definition no_call (l : lklabel) : Prop := match l with KCall _ => False | _ => True end.

(** The last call of Start or Stop was Start. *)
Fixpoint is_running (r : bool) (ls : list lklabel) : bool :=
  match ls with
  | [] => r
  | KCall KStart :: ls' => is_running true ls'
  | KCall KStop :: ls' => is_running false ls'
  | _ :: ls' => is_running r ls'
  end.

(** The uses of sockets by thread [t], in order. *)
Definition uses (t : thread) (tr : list lkevent) : list lkevent :=
  filter (fun e => match e, t with EvCall TCtl _, TCtl | EvRet TCtl _, TCtl | EvCall TWork _, TWork | EvRet TWork _, TWork | EvCall TBus _, TBus | EvRet TBus _, TBus => true | _, _ => false end) tr.

(** Using, one after the other, those of the sockets [ks] that there are. *)
Definition visits (t : thread) (sk : sock -> option nat) (ks : list sock) : list lkevent :=
  flat_map (fun k => match sk k with Some h => [EvCall t h; EvRet t h] | None => [] end) ks.

(** Vocabulary of C97. *)
From Coq Require Import String List Arith Bool.
From Verif Require Import Prelude DatagramSpec BusModel BusSpec RequestModel SyncModel LinkModel NodeModel NetModel ClusterModel AskModel.
Import ListNotations.
Open Scope list_scope.

(** The processes' part of an execution and of its trace. *)
Definition net_labels (ls : list alabel) : list clabel := flat_map (fun l => match l with ANet l => [l] | ALocal _ => [] end) ls.
Definition net_of (tr : list aevent) : list (nat * nevent) := flat_map (fun e => match e with AN x => [x] | AQ _ => [] end) tr.

(** Request returned [v]. *)
Definition returned (v : dg) (tr : list aevent) : Prop := In (AQ (QeReturn v)) tr.

(** In [ls], the callback that runs on root [r] of process [i] does not end. *)
Definition inside (i r : nat) (ls : list alabel) : Prop :=
  ~ In (ANet (CBus i (LReturn r))) ls /\ forall e, ~ In (ANet (CBus i (LThrow r e))) ls.

(** Request has returned or thrown. *)
Definition is_over (tr : list aevent) : Prop := (exists v, In (AQ (QeReturn v)) tr) \/ exists e, In (AQ (QeThrow e)) tr.

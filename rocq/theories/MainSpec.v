(** Vocabulary of C92. *)
From Coq Require Import String List Bool.
From Verif Require Import Prelude PluginModel AppModel LifeModel ProgModel MainModel.
Import ListNotations.
Open Scope list_scope.

(** The parts of a whole run's events: the phases, the output, what the application object did. *)
Definition phases (T : list mevent) : list levent := flat_map (fun e => match e with MLife x => [x] | _ => [] end) T.
Definition output (T : list mevent) : list line := flat_map (fun e => match e with MLine x => [x] | _ => [] end) T.
Definition deeds (T : list mevent) : list aevent := flat_map (fun e => match e with MApp x => [x] | _ => [] end) T.

(** The plugin manager's events among those of the application object. *)
Definition manager (S : list aevent) : list pevent := flat_map (fun e => match e with AePlugin x => [x] | _ => [] end) S.

(** The instances that were made, those whose worker was started, and the buses made for instances. *)
Definition made (S : list aevent) : list inst := flat_map (fun e => match e with AePlugin (PeCreate _ i) => [i] | _ => [] end) S.
Definition set_going (S : list aevent) : list inst := flat_map (fun e => match e with AeStart i => [i] | _ => [] end) S.
Definition buses (S : list aevent) : list string := flat_map (fun e => match e with AePlugin (PeBus _ name _) => [name] | _ => [] end) S.

(** The events of a run up to the start of the bus, during which [S] was done; after the bus has ended; and at the end. *)
Definition begun (S : list aevent) : list mevent := MLine Hooking :: MLine Starting :: map MApp S.
Definition running (S : list aevent) : list mevent := begun S ++ [MLife EvBusStarted].
Definition detached (S : list aevent) : list mevent := running S ++ [MLife EvBusEnded; MLife EvDetached].
Definition complete (S U : list aevent) : list mevent :=
  detached S ++ map MApp U ++ [MLife EvUnloaded; MLife EvCleared; MLife EvReturned; MLine Exiting].

(** The end by an exception: main prints its text if it is a std::runtime_error. *)
Definition raised (x : thrown) : list mevent :=
  MLife (EvRaised x) :: match x with RuntimeError => [MLine What] | OtherError => [] end.

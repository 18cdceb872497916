(** Vocabulary of C95: what the configuration of a link plugin asks for. *)
From Coq Require Import String List Arith ZArith Bool.
From Verif Require Import Prelude DatagramModel DatagramSpec DatagramStmt PluginModel LinkModel LinkProps NetModel WiringModel.
Import ListNotations.
Open Scope list_scope.

Record wish : Type := mkWish {
  w_server : bool; w_spub : Z; w_ssub : Z; w_interface : string;
  w_client : bool; w_cpub : Z; w_csub : Z; w_host : string }.

(** Configuration [t] asks for [w]: the values at these places, where they are of the right type, or else the defaults. *)
Definition asks (t : dg) (w : wish) : Prop :=
  chosen t ["server-role"; "enabled"]%string (DBool false) (DBool (w_server w)) /\
  chosen t ["server-role"; "port-pub"]%string (DInt 6967) (DInt (w_spub w)) /\
  chosen t ["server-role"; "port-sub"]%string (DInt 6968) (DInt (w_ssub w)) /\
  chosen t ["server-role"; "interface"]%string (DStr "*") (DStr (w_interface w)) /\
  chosen t ["client-role"; "enabled"]%string (DBool false) (DBool (w_client w)) /\
  chosen t ["client-role"; "port-pub"]%string (DInt 6968) (DInt (w_cpub w)) /\
  chosen t ["client-role"; "port-sub"]%string (DInt 6967) (DInt (w_csub w)) /\
  chosen t ["client-role"; "server-host"]%string (DStr "127.0.0.1") (DStr (w_host w)).

(** Initialize of a link plugin with configuration [t] makes these calls. *)
Definition configured (t : dg) (calls : list zcall) : Prop := exists h l, denotes h l t /\ link_setup h l = Ok calls.

(** Link plugin [p] runs with a configuration that asks for [w]. *)
Definition runs_as (p : plug) (w : wish) : Prop := exists t, asks t w /\ configured t (pl_calls p).

(** The link plugins among the instances of a process. *)
Inductive links_of : list inst -> list plug -> Prop :=
| lo_none : links_of [] []
| lo_link i l p ps k : in_name i = ("Link" ++ to_string k)%string -> pl_name p = in_name i -> pl_bus p = in_bus i -> configured (in_conf i) (pl_calls p) ->
    links_of l ps -> links_of (i :: l) (p :: ps)
| lo_other i l ps : (forall k, in_name i <> ("Link" ++ to_string k)%string) -> links_of l ps -> links_of (i :: l) ps.

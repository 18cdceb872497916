(** The synchronous Request (src/lamppost/bus/ActionConsumer.cpp:42-71) on one of several processes joined by link plugins (src/plugins/link/Link.cpp, "Link"):
    ClusterModel and SyncModel put together.

    Every step of the bus of that process is a step of both: also the publication of a message that a link has taken from its socket (Link:155-187). Steps of other processes
    concern Request only through what is sent. After undefined behaviour in Request, that process does nothing more.

    Simplifications: those of the two models. *)
From Coq Require Import String List Arith Bool.
From Verif Require Import Prelude DatagramSpec BusModel RequestModel SyncModel LinkModel NodeModel NetModel ClusterModel.
Import ListNotations.
Open Scope list_scope.

(** The process that a step happens on, and what it is on the bus there: Link:161-171 and 175-183 publish what was received. *)
Definition on_bus (n : net) (l : clabel) (c : cluster) : option (nat * label) :=
  match l with
  | CBus i x => Some (i, x)
  | CTake p =>
      match take p (cl_wire c) with
      | Some ((i, k, _, m), _) => match nth_error (nt_links n i) k with Some lk => Some (i, LPublishMsg (lk_bus lk) (on_receive lk m)) | None => None end
      | None => None
      end
  end.

(** The processes; the call of Request (RequestModel) with the publication it made (SyncModel). *)
Record astate : Type := mkA { a_cl : cluster; a_q : qmach; a_pub : option nat }.
Definition ainit : astate := mkA cl_init qinit None.

Inductive alabel : Type :=
| ANet (l : clabel)       (* a step of the processes and links *)
| ALocal (l : qlabel).    (* a step of Request or its lambda that is not one of the bus *)
Inductive aevent : Type := AN (x : nat * nevent) | AQ (e : qevent).

(** What of a joint step of SyncModel is not the bus's. *)
Definition asked (es : list jevent) : list aevent := flat_map (fun e => match e with JQ e => [AQ e] | JB _ => [] end) es.

(** Request is called on process [i]. *)
Definition astep (n : net) (i : nat) (k : skey) (l : alabel) (s : astate) : option (astate * list aevent) :=
  let j := mkJ (cl_nodes (a_cl s) i) (a_q s) (a_pub s) in
  match l with
  | ANet l =>
      match cstep n l (a_cl s), on_bus n l (a_cl s) with
      | Some (c, T), Some (i', x) =>
          if Nat.eqb i' i then
            match jstep k (JBus x) j with
            | Some (j', es) => Some (mkA c (j_q j') (j_pub j'), map AN T ++ asked es)
            | None => None
            end
          else Some (mkA c (a_q s) (a_pub s), map AN T)
      | _, _ => None
      end
  | ALocal l =>
      match jstep k (JLocal l) j with
      | Some (j', es) => Some (mkA (a_cl s) (j_q j') (j_pub j'), asked es)
      | None => None
      end
  end.

Fixpoint aexec (n : net) (i : nat) (k : skey) (ls : list alabel) (s : astate) : option (astate * list aevent) :=
  match ls with
  | [] => Some (s, [])
  | l :: ls' =>
      match astep n i k l s with
      | Some (s1, e1) => match aexec n i k ls' s1 with Some (s2, e2) => Some (s2, e1 ++ e2) | None => None end
      | None => None
      end
  end.

(** Vocabulary of C96: actions whose provider and consumer are on different processes. *)
From Coq Require Import String List Arith Bool.
From Verif Require Import Prelude OMap DatagramModel DatagramSpec BusModel BusSpec LinkModel NodeModel NetModel ClusterModel ActionSpec.
Import ListNotations.
Open Scope list_scope.

(** In [ls] a thread of some process published topic and data of [m] itself: the data through a publisher, or both as a message. *)
Definition published_there (ls : list clabel) (m : bmsg) : Prop :=
  exists j, (exists p, In (CBus j (LPublish p (bm_data m))) ls) \/
            (exists b sender, In (CBus j (LPublishMsg b (mkM sender (bm_topic m) (bm_data m)))) ls).

(** In [ls] a provider of some process responded with the data of [m]. *)
Definition responded_there (ls : list clabel) (m : bmsg) : Prop :=
  exists j p id d, In (CBus j (LRespond p id d)) ls /\ bm_data m = response_of id d.

(** In [ls] a consumer of some process requested with the data of [m]. *)
Definition requested_there (ls : list clabel) (m : bmsg) : Prop :=
  exists j c id d u, In (CBus j (LRequest c id d (Some u))) ls /\ bm_data m = request_of id d.

(** In [ls], on no process, a provider responded under [id] or a thread published something that carries [id]. *)
Definition unused (ls : list clabel) (id : string) : Prop :=
  (forall j p d, ~ In (CBus j (LRespond p id d)) ls) /\
  (forall j p d, In (CBus j (LPublish p d)) ls -> ~ has_id d id) /\
  (forall j b m, In (CBus j (LPublishMsg b m)) ls -> ~ has_id (bm_data m) id).

(** What the bus of process [i] did. *)
Definition events_of (i : nat) (T : list (nat * nevent)) : list event :=
  flat_map (fun x => match x with (j, NEv e) => if Nat.eqb j i then [e] else [] | _ => [] end) T.

(** On process [i], provider [p] has the callback [v]. *)
Definition offers (i p v : nat) (c : cluster) : Prop :=
  exists y, nth_error (s_provs (cl_nodes c i)) p = Some y /\ pr_cb y = Some v.

(** On process [i], the response subscriber [s] of consumer [co], for [topic], is registered on bus [b] under the root [r], and all of these run. *)
Definition consumes (i r b s : nat) (topic : string) (co : nat) (c : cluster) : Prop :=
  serving r b s (cl_nodes c i) /\ consumer_on (cl_nodes c i) co s /\
  exists q, nth_error (s_subs (cl_nodes c i)) s = Some q /\ s_topic q = topic.

(** On process [i], the request [id] of consumer [co] with callback [u] is open, and is not being answered. *)
Definition waits (i co : nat) (id : string) (u : nat) (c : cluster) : Prop :=
  open_request (cl_nodes c i) co id u /\ forall r b v d, ~ calling (cl_nodes c i) r b (CallRequest co id v d).

(** [k] is what the callback [v] of provider [p] is called with for the message [m]. *)
Definition provided (p v : nat) (m : bmsg) (k : call) : Prop :=
  exists id, has_id (bm_data m) id /\ k = CallProvider p id v (bm_data m).

(** Process [i] hears what is said on process [j], in a star: it is the same, or one of them is the server. *)
Definition hears (i j : nat) : Prop := i = j \/ i = 0 \/ j = 0.

(** Vocabulary of the action theorems. Except for [never_throws], which follows executions,
    nothing here refers to the step functions of the model. *)
From Coq Require Import String List Arith Bool.
From Verif Require Import Prelude OMap DatagramModel DatagramSpec BusModel BusSpec.
Import ListNotations.
Open Scope list_scope.

(** ** Projections of a trace *)

(** Requests registered on consumer [c]: (invocation id, callback), in order. *)
Definition requests (c : nat) (tr : list event) : list (string * nat) :=
  flat_map (fun e => match e with EvRequest c' id u _ => if Nat.eqb c' c then [(id, u)] else [] | _ => [] end) tr.

(** Request callbacks of consumer [c] invoked: (invocation id, callback), in order. *)
Definition answered (c : nat) (tr : list event) : list (string * nat) :=
  flat_map (fun e => match e with
                     | EvInvoke _ _ _ (CallRequest c' id u _) => if Nat.eqb c' c then [(id, u)] else []
                     | _ => [] end) tr.

(** The callback of the latest request registered on [c] under [id]. *)
Fixpoint latest (id : string) (l : list (string * nat)) : option nat :=
  match l with
  | [] => None
  | (i, u) :: l' => match latest id l' with
                    | Some v => Some v
                    | None => if String.eqb id i then Some u else None
                    end
  end.

(** ** Envelopes *)

(** A dictionary with a string under "invocationId". *)
Definition has_id (d : dg) (id : string) : Prop :=
  exists kvs, d = Dct kvs /\ olookup "invocationId" kvs = Some (Val (DStr id)).

(** Such a dictionary with [p] under "response"; a missing entry counts as empty. *)
Definition answer (d : dg) (id : string) (p : dg) : Prop :=
  exists kvs, d = Dct kvs /\ olookup "invocationId" kvs = Some (Val (DStr id)) /\
    (olookup "response" kvs = Some p \/ olookup "response" kvs = None /\ p = Emp).

(** What Respond and RequestAsync send. *)
Definition response_of (id : string) (d : dg) : dg := Dct [("invocationId"%string, Val (DStr id)); ("response"%string, d)].
Definition request_of (id : string) (d : dg) : dg := Dct [("invocationId"%string, Val (DStr id)); ("request"%string, d)].

(** ** Where messages come from *)

(** In [ls] some thread published [m] itself: through a publisher, or as a message. *)
Definition published (ls : list label) (m : bmsg) : Prop :=
  (exists p, In (LPublish p (bm_data m)) ls) \/ (exists b, In (LPublishMsg b m) ls).

(** In [ls] some provider responded with the contents of [m]. *)
Definition responded (ls : list label) (m : bmsg) : Prop :=
  exists p id d, In (LRespond p id d) ls /\ bm_data m = response_of id d.

(** In [ls] some consumer requested with the contents of [m]. *)
Definition requested (ls : list label) (m : bmsg) : Prop :=
  exists c id d u, In (LRequest c id d (Some u)) ls /\ bm_data m = request_of id d.

(** ** State *)

(** Consumer [c] has an open request [id] with callback [u]. *)
Definition open_request (st : state) (c : nat) (id : string) (u : nat) : Prop :=
  exists y, nth_error (s_conss st) c = Some y /\ olookup id (co_open y) = Some u.

(** [s] is the response subscriber of consumer [c] / the request subscriber of provider [p], with
    its callback in place. *)
Definition consumer_on (st : state) (c s : nat) : Prop :=
  exists y q, nth_error (s_conss st) c = Some y /\ co_sub y = s /\ nth_error (s_subs st) s = Some q /\ s_cb q = Some (CbConsumer c).
Definition provider_on (st : state) (p s : nat) : Prop :=
  exists y q, nth_error (s_provs st) p = Some y /\ pr_sub y = s /\ nth_error (s_subs st) s = Some q /\ s_cb q = Some (CbProvider p).

(** In the execution [ls] from the start no request callback of consumer [c] throws. *)
Definition never_throws (c : nat) (ls : list label) : Prop :=
  forall ls1 r e ls2 st1 tr1, ls = ls1 ++ LThrow r e :: ls2 -> exec ls1 init = Some (st1, tr1) ->
  forall b id u d, ~ calling st1 r b (CallRequest c id u d).

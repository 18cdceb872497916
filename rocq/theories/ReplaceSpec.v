(** What happens to the std::function that a bus thread is executing. *)
From Coq Require Import String List Arith Bool.
From Verif Require Import Prelude OMap DatagramModel DatagramSpec BusModel BusSpec.
Import ListNotations.
Open Scope list_scope.

(** The std::function objects through which the call [c] of subscriber [s] goes still hold what was called: the callback of
    the subscriber (Subscriber.h:22), and for the answer of a provider its callback (ActionProvider.h:26), for the response to
    a request the callback stored for it (ActionConsumer.h:31). *)
Definition in_place (st : state) (s : nat) (c : call) : Prop :=
  exists y, nth_error (s_subs st) s = Some y /\
    match c with
    | CallMsg u _ => s_cb y = Some (CbMsg u)
    | CallData u _ => s_cb y = Some (CbData (Some u))
    | CallProvider p _ u _ => s_cb y = Some (CbProvider p) /\ exists z, nth_error (s_provs st) p = Some z /\ pr_cb z = Some u
    | CallRequest k id u _ => s_cb y = Some (CbConsumer k) /\ exists z, nth_error (s_conss st) k = Some z /\ olookup id (co_open z) = Some u
    end.

(** The steps that assign to one of these objects: setting a callback of the subscriber, deleting the subscriber through another
    bus than [b], the end of the construction of the provider or consumer that owns the subscriber (the owner is the one it has in
    [st]), the reset of the called provider, and a request with the id of the answered one. *)
Definition assigns (st : state) (b s : nat) (c : call) (l : label) : Prop :=
  match l with
  | LSetData s' _ | LSetMsg s' _ => s' = s
  | LDelSub b' s' => s' = s /\ b' <> b
  | LInstallProvider p => exists y, nth_error (s_provs st) p = Some y /\ pr_sub y = s
  | LInstallConsumer k => exists y, nth_error (s_conss st) k = Some y /\ co_sub y = s
  | LResetProvider p => match c with CallProvider p' _ _ _ => p' = p | _ => False end
  | LRequest k id _ (Some _) => match c with CallRequest k' id' _ _ => k' = k /\ id' = id | _ => False end
  | _ => False
  end.

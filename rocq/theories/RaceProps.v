(** C76, C77: data races on the members of buses and their participants. *)
From Coq Require Import String List Arith Bool Lia.
From Verif Require Import Prelude OMap DatagramModel DatagramSpec BusModel BusSpec BusProofs ActionSpec ActionProofs RaceModel RaceSpec RaceProofs.
Import ListNotations.
Open Scope list_scope.
Open Scope string_scope.

(** * C76: which members are raced *)

(** A step does not depend on members outside its footprint: with another content there it does the same and leaves
    that content alone. *)
Theorem C76_reads : forall st l x v,
  content_of st x <> None -> (forall a, In a (accesses st l) -> a_mem a <> x) ->
  step l (put x v st) = match step l st with Some (st', evs) => Some (put x v st', evs) | None => None end.
Proof.
  intros st l x v T A. rewrite step_put; auto. unfold then_put. destruct (step l st) as [[s e]|]; reflexivity.
Qed.
Print Assumptions C76_reads.

(** What a step changes is in its footprint as a write. *)
Theorem C76_writes : forall st l st' evs x v,
  step l st = Some (st', evs) -> content_of st x = Some v -> content_of st' x <> Some v ->
  exists a, In a (accesses st l) /\ a_mem a = x /\ a_write a = true.
Proof.
  intros st l st' evs x v E C N. destruct (existsb (fun a => a_write a && if member_dec (a_mem a) x then true else false) (accesses st l)) eqn:X.
  - apply existsb_exists in X as (a & I & B). apply andb_true_iff in B as (W & M). destruct (member_dec (a_mem a) x); [|discriminate]. eauto.
  - exfalso. apply N. apply (step_writes _ _ _ _ _ E); auto. intros (a & I & M & W).
    assert (existsb (fun a => a_write a && if member_dec (a_mem a) x then true else false) (accesses st l) = true) as Y; [|congruence].
    apply existsb_exists. exists a. split; auto. rewrite W. simpl. destruct (member_dec (a_mem a) x); auto.
Qed.
Print Assumptions C76_writes.

(** Who runs what: a bus thread the distribution on its bus, and calls of the interface while it is in a callback; a thread that
    publishes or detaches its own call; the threads of the client any calls. *)
Theorem C76_threads : forall st t,
  (forall r, runs st t (LRun r) = true <-> t = TBus r) /\
  (forall r, runs st t (LReturn r) = true <-> t = TBus r) /\
  (forall r x, runs st t (LThrow r x) = true <-> t = TBus r) /\
  (forall i, runs st t (LFly i) = true <-> t = TFly i) /\
  (forall i, runs st t (LDetachStep i) = true <-> t = TDetach i) /\
  (forall l, (forall r, l <> LRun r /\ l <> LReturn r /\ forall x, l <> LThrow r x) -> (forall i, l <> LFly i /\ l <> LDetachStep i) ->
     (runs st t l = true <-> (exists c, t = TClient c) \/
        exists r y i m s' k, t = TBus r /\ get_bus st r = Some y /\ b_runner y = RDist i m (Some s') k)).
Proof.
  intros st t. assert (forall a b, Nat.eqb a b = true <-> a = b) as E by (intros; apply Nat.eqb_eq).
  do 5 (split; [intros; simpl; split; [destruct t; try discriminate; intros H; apply E in H; congruence|intros ->; now apply E]|]).
  intros l N1 N2. assert (runs st t l = match t with TClient _ => true | TBus r => in_callback st r | _ => false end) as ->.
  { destruct l; try reflexivity; exfalso; try (edestruct N1 as (A & B & C); (now apply A) || (now apply B) || (now eapply C)); edestruct N2 as (A & B); (now apply A) || now apply B. }
  unfold in_callback. destruct t as [r|i|i|c].
  all: split; [intros H|intros [(c' & H)|(r' & y & i' & m & s' & k & H & G & R)]; try discriminate H; auto; try (injection H as <-; rewrite G, R; reflexivity)]; try discriminate H; eauto.
  right. destruct (get_bus st r) as [y|] eqn:G; [|discriminate]. destruct (b_runner y) as [| | | |i m [s'|] k] eqn:R; try discriminate. eauto 12.
Qed.
Print Assumptions C76_threads.

(** Mutexes exclude: what an enabled step has locked, no other thread holds. *)
Theorem C76_exclusive : forall st t l a k t',
  reach st -> runs st t l = true -> enabled l st -> In a (accesses st l) -> In k (a_locks a) ->
  t' <> t -> ~ In k (holds st t').
Proof.
  intros st t l a k t' Rc Ru En I K Ne H. destruct (acc_locks _ _ _ _ _ Ru En I K) as [A|A].
  - apply A. eapply holds_taken; eauto.
  - apply Ne. eapply holds_unique; eauto.
Qed.
Print Assumptions C76_exclusive.

(** The lists of subscribers, publishers and children and the queue are never raced. *)
Theorem C76_guarded : forall st t1 l1 t2 l2 x,
  reach st -> race st t1 l1 t2 l2 x ->
  (exists s, x = MCallback s) \/ (exists p, x = MPubFn p) \/ (exists b, x = MBusFn b) \/ (exists p, x = MProvCb p) \/ (exists c, x = MOpen c).
Proof.
  intros st t1 l1 t2 l2 x Rc R. destruct (race_kinds _ _ _ _ _ _ Rc R) as [(W & _)|(W & _)]; destruct x; simpl in W; try contradiction; eauto 10.
Qed.
Print Assumptions C76_guarded.

(** The others are raced exactly when one thread replaces the member and another replaces or uses it. *)
Theorem C76_exact : forall st t1 l1 t2 l2 x,
  reach st -> t1 <> t2 -> runs st t1 l1 = true -> runs st t2 l2 = true -> enabled l1 st -> enabled l2 st ->
  (race st t1 l1 t2 l2 x <->
   ((writer st l1 x /\ (writer st l2 x \/ user st l2 x)) \/ (writer st l2 x /\ (writer st l1 x \/ user st l1 x))) /\
   ~ same_delete l1 l2 x).
Proof.
  intros st t1 l1 t2 l2 x Rc Ne R1 R2 E1 E2. split.
  - intros R. split; [now apply (race_kinds st t1 l1 t2 l2)|eapply race_not_same; eauto].
  - intros ([(W & O)|(W & O)] & Ns); [now apply kinds_race|]. apply race_sym. apply kinds_race; auto. intros S. apply Ns. now apply same_delete_sym.
Qed.
Print Assumptions C76_exact.

(** * C77: using the bus without races *)

Theorem C77_orderly : forall st t1 l1 t2 l2 x,
  reach st -> orderly st t1 l1 -> orderly st t2 l2 -> ~ race st t1 l1 t2 l2 x.
Proof.
  intros st t1 l1 t2 l2 x Rc O1 O2 R. destruct (race_kinds _ _ _ _ _ _ Rc R) as [(W & O)|(W & O)].
  - exact (orderly_no_race _ _ _ _ _ _ Rc O1 O2 W O R).
  - exact (orderly_no_race _ _ _ _ _ _ Rc O2 O1 W O (race_sym _ _ _ _ _ _ R)).
Qed.
Print Assumptions C77_orderly.

(** Creating an action provider or consumer puts its subscriber on the bus first and sets its callback afterwards. A bus
    thread that delivers to it in between races with that. *)
Theorem C77_creating : forall st r m n p y,
  reach st -> nth_error (s_provs st) p = Some y -> receives st r (pr_sub y) m ->
  race st (TClient n) (LInstallProvider p) (TBus r) (LRun r) (MCallback (pr_sub y)).
Proof.
  intros st r m n p y Rc Ny Re. destruct (receives_acc _ _ _ _ Rc Re) as (x & b & ss & stk & rest & z & G & R & Nz & _).
  apply kinds_race; auto; try discriminate.
  - simpl. apply Nat.eqb_refl.
  - unfold enabled. cbn [step]. rewrite Ny. unfold set_cb. rewrite Nz. unfold ok. eauto.
  - destruct Re as (st' & evs & b' & E & _). eexists. eauto.
  - simpl. right. right. right. left. eauto.
  - right. simpl. eauto.
  - simpl. intros (b' & E & _). discriminate.
Qed.
Print Assumptions C77_creating.

Theorem C77_creating_consumer : forall st r m n c y,
  reach st -> nth_error (s_conss st) c = Some y -> receives st r (co_sub y) m ->
  race st (TClient n) (LInstallConsumer c) (TBus r) (LRun r) (MCallback (co_sub y)).
Proof.
  intros st r m n p y Rc Ny Re. destruct (receives_acc _ _ _ _ Rc Re) as (x & b & ss & stk & rest & z & G & R & Nz & _).
  apply kinds_race; auto; try discriminate.
  - simpl. apply Nat.eqb_refl.
  - unfold enabled. cbn [step]. rewrite Ny. unfold set_cb. rewrite Nz. unfold ok. eauto.
  - destruct Re as (st' & evs & b' & E & _). eexists. eauto.
  - simpl. right. right. right. right. eauto.
  - right. simpl. eauto.
  - simpl. intros (b' & E & _). discriminate.
Qed.
Print Assumptions C77_creating_consumer.

(** Two threads that make requests on one consumer race, whatever the state. *)
Theorem C77_requests : forall st c y n1 id1 d1 u1 n2 id2 d2 u2,
  reach st -> nth_error (s_conss st) c = Some y -> n1 <> n2 ->
  race st (TClient n1) (LRequest c id1 d1 (Some u1)) (TClient n2) (LRequest c id2 d2 (Some u2)) (MOpen c).
Proof.
  intros st c y n1 id1 d1 u1 n2 id2 d2 u2 Rc Ny Ne. apply kinds_race; auto; try (eapply request_enabled; eauto).
  - congruence.
  - simpl. eauto.
  - left. simpl. eauto.
Qed.
Print Assumptions C77_requests.

(** A request made by a thread of the client races with the delivery of any response to the consumer. *)
Theorem C77_response : forall st c s r m n id id' d u,
  reach st -> consumer_on st c s -> receives st r s m -> has_id (bm_data (snd m)) id' ->
  race st (TClient n) (LRequest c id d (Some u)) (TBus r) (LRun r) (MOpen c).
Proof.
  intros st c s r m n id id' d u Rc Co Re Hi. pose proof Co as (y & q & Ny & _). apply kinds_race; auto; try discriminate.
  - simpl. apply Nat.eqb_refl.
  - eapply request_enabled; eauto.
  - destruct Re as (st' & evs & b' & E & _). eexists. eauto.
  - simpl. eauto.
  - right. simpl. left. exists r, s, m, id'. auto.
Qed.
Print Assumptions C77_response.

(** * Concrete cases *)

(** A message for the provider is waiting when the provider is created; the bus thread gets to it before the callback of
    the subscriber is set. *)
Definition race_setup : list label :=
  [LNewRoot "b"; LPub 0 "x/request"; LStart 0; LPublish 0 (request_of "i" Emp); LFly 0; LFly 0; LProvider 0 "x" (Some 0); LRun 0; LRun 0; LRun 0].

Example C77_creating_case : exists st tr y m,
  exec race_setup init = Some (st, tr) /\ nth_error (s_provs st) 0 = Some y /\ receives st 0 (pr_sub y) m /\
  race st (TClient 0) (LInstallProvider 0) (TBus 0) (LRun 0) (MCallback 0).
Proof.
  do 4 eexists. split; [vm_compute; reflexivity|]. split; [reflexivity|].
  match goal with |- ?A /\ _ => assert A as Re; [|split; [exact Re|]] end.
  { unfold receives. do 3 eexists. split; [vm_compute; reflexivity|]. now left. }
  refine (C77_creating _ 0 _ 0 0 _ _ _ Re); [exists race_setup; eexists; vm_compute; reflexivity|reflexivity].
Qed.

(** The footprints there; the other thread has not locked anything. *)
Example C76_footprint_case : exists st tr,
  exec race_setup init = Some (st, tr) /\
  accesses st (LRun 0) = [rd [KSubs 0] (MSubs 0); rd [KSubs 0] (MCallback 0)] /\ accesses st (LInstallProvider 0) = [wr [] (MCallback 0)] /\
  holds st (TBus 0) = [KSubs 0] /\ content_of st (MOpen 0) = None /\ content_of st (MQueue 0) = Some (VQueue []) /\
  (forall a, In a (accesses st (LRun 0)) -> a_mem a <> MQueue 0).
Proof.
  do 2 eexists. split; [vm_compute; reflexivity|]. repeat split. intros a I. vm_compute in I. destruct I as [<-|[<-|[]]]; discriminate.
Qed.

(** Deleting a publisher races with its publication under way, not with that of another publisher, and not with the same
    deletion elsewhere. *)
Example C76_exact_case : exists st tr,
  exec [LNewRoot "b"; LPub 0 "t"; LPub 0 "t"; LPublish 0 Emp] init = Some (st, tr) /\
  enabled (LDelPub 0 0) st /\ enabled (LFly 0) st /\ enabled (LDelPub 0 1) st /\
  race st (TClient 0) (LDelPub 0 0) (TFly 0) (LFly 0) (MPubFn 0) /\
  (forall x, ~ race st (TClient 0) (LDelPub 0 1) (TFly 0) (LFly 0) x) /\
  (forall x, ~ race st (TClient 0) (LDelPub 0 0) (TClient 1) (LDelPub 0 0) x).
Proof.
  do 2 eexists. split; [vm_compute; reflexivity|].
  match goal with |- enabled _ ?s /\ _ => assert (reach s) as Rc by (exists [LNewRoot "b"; LPub 0 "t"; LPub 0 "t"; LPublish 0 Emp]; eexists; vm_compute; reflexivity) end.
  split; [do 2 eexists; vm_compute; reflexivity|]. split; [do 2 eexists; vm_compute; reflexivity|]. split; [do 2 eexists; vm_compute; reflexivity|].
  split; [|split].
  - apply C76_exact; auto; try discriminate; try (do 2 eexists; vm_compute; reflexivity). split.
    + left. split; [simpl; eauto|]. right. simpl. right. right. right. do 2 eexists. split; reflexivity.
    + intros (b & _ & E). discriminate.
  - intros x R. destruct (race_kinds _ _ _ _ _ _ Rc R) as [(W & O)|(W & O)]; destruct x; simpl in W, O; try contradiction;
      repeat match goal with H : _ \/ _ |- _ => destruct H | H : exists _, _ |- _ => destruct H | H : _ /\ _ |- _ => destruct H end; try discriminate; try congruence.
    match goal with E : LFly 0 = LFly _ |- _ => injection E as <- end. match goal with E : nth_error _ 0 = Some _ |- _ => simpl in E end. congruence.
  - intros x R. pose proof (race_not_same _ _ _ _ _ _ R) as Ns. destruct (race_kinds _ _ _ _ _ _ Rc R) as [(W & O)|(W & O)]; destruct x; simpl in W, O; try contradiction;
      repeat match goal with H : _ \/ _ |- _ => destruct H | H : exists _, _ |- _ => destruct H | H : _ /\ _ |- _ => destruct H end; try discriminate; try congruence;
      apply Ns; simpl; exists 0; split; congruence.
Qed.

(** A callback makes a request on a consumer of its own bus while a client thread publishes, another deletes a subscriber. *)
Example C77_orderly_case : exists st tr,
  exec [LNewRoot "b"; LConsumer 0 "c"; LInstallConsumer 0; LSub 0 "t" (Some (Some 7)); LPub 0 "t"; LStart 0; LPublish 1 Emp; LFly 0; LFly 0;
        LRun 0; LRun 0; LRun 0; LRun 0; LRun 0; LNewRoot "o"; LSub 1 "t" None] init = Some (st, tr) /\
  runs st (TBus 0) (LRequest 0 "i" Emp (Some 3)) = true /\ enabled (LRequest 0 "i" Emp (Some 3)) st /\ orderly st (TBus 0) (LRequest 0 "i" Emp (Some 3)) /\
  runs st (TClient 0) (LPublish 1 Emp) = true /\ enabled (LPublish 1 Emp) st /\ orderly st (TClient 0) (LPublish 1 Emp) /\
  runs st (TClient 1) (LDelSub 1 2) = true /\ enabled (LDelSub 1 2) st /\ orderly st (TClient 1) (LDelSub 1 2) /\
  race st (TBus 0) (LRequest 0 "i" Emp (Some 3)) (TClient 0) (LRequest 0 "j" Emp (Some 4)) (MOpen 0).
Proof.
  do 2 eexists. split; [vm_compute; reflexivity|].
  split; [reflexivity|]. split; [do 2 eexists; vm_compute; reflexivity|]. split.
  { exists 0. eexists. exists 0. eexists. split; [reflexivity|]. split; [reflexivity|]. split; [reflexivity|]. split; [simpl; auto|constructor]. }
  split; [reflexivity|]. split; [do 2 eexists; vm_compute; reflexivity|]. split; [exact I|].
  split; [reflexivity|]. split; [do 2 eexists; vm_compute; reflexivity|]. split; [eexists; split; [reflexivity|simpl; auto]|].
  repeat split; try discriminate; try (do 2 eexists; vm_compute; reflexivity).
  do 2 eexists. split; [left; reflexivity|]. split; [left; reflexivity|]. repeat split; auto.
Qed.

(** A response is about to be delivered to a consumer; on a bus where the consumer is still being created, its callback
    is not yet set. *)
Definition race_response (install : list label) : list label :=
  [LNewRoot "b"; LConsumer 0 "x"] ++ install ++
  [LPub 0 "x/response"; LStart 0; LPublish 1 (request_of "i" Emp); LFly 0; LFly 0; LRun 0; LRun 0; LRun 0].

Example C77_response_case : exists st tr m,
  exec (race_response [LInstallConsumer 0]) init = Some (st, tr) /\ consumer_on st 0 0 /\ receives st 0 0 m /\
  has_id (bm_data (snd m)) "i" /\ race st (TClient 0) (LRequest 0 "j" Emp (Some 4)) (TBus 0) (LRun 0) (MOpen 0).
Proof.
  do 3 eexists. split; [vm_compute; reflexivity|].
  match goal with |- ?A /\ _ => assert A as Co; [|split; [exact Co|]] end.
  { unfold consumer_on. do 2 eexists. split; [reflexivity|]. split; [reflexivity|]. split; reflexivity. }
  match goal with |- ?A /\ _ => assert A as Re; [|split; [exact Re|]] end.
  { unfold receives. do 3 eexists. split; [vm_compute; reflexivity|]. now left. }
  match goal with |- ?A /\ _ => assert A as Hi; [|split; [exact Hi|]] end.
  { unfold has_id. eexists. split; reflexivity. }
  refine (C77_response _ 0 0 0 _ 0 _ "i" _ _ _ Co Re Hi). exists (race_response [LInstallConsumer 0]). eexists. vm_compute. reflexivity.
Qed.

Example C77_creating_consumer_case : exists st tr y m,
  exec (race_response []) init = Some (st, tr) /\ nth_error (s_conss st) 0 = Some y /\ receives st 0 (co_sub y) m /\
  race st (TClient 0) (LInstallConsumer 0) (TBus 0) (LRun 0) (MCallback 0).
Proof.
  do 4 eexists. split; [vm_compute; reflexivity|]. split; [reflexivity|].
  match goal with |- ?A /\ _ => assert A as Re; [|split; [exact Re|]] end.
  { unfold receives. do 3 eexists. split; [vm_compute; reflexivity|]. now left. }
  refine (C77_creating_consumer _ 0 _ 0 0 _ _ _ Re); [exists (race_response []); eexists; vm_compute; reflexivity|reflexivity].
Qed.

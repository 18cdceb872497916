(** Theorems about exceptions, locks and progress of the bus thread: C30, C31, C32, C33, C63. *)
From Coq Require Import String List Arith ZArith Bool Lia.
From Verif Require Import Prelude OMap DatagramModel DatagramSpec BusModel BusSpec BusProofs BusTree BusLocks BusLocks2 BusLocks3
  BusDist BusAccount BusOnce BusServe BusFlight BusDetach BusProgress BusDeliver BusStop BusDeliveryProps.
Import ListNotations.
Open Scope list_scope.

(** * C30 *)

(** A callback can throw whatever it likes; Start then ends with that exception. *)
Theorem C30_leaves_start : forall st r x m stk c rest e,
  get_bus st r = Some x -> b_runner x = RDist m stk (Some c) rest ->
  exists st' evs, step (LThrow r e) st = Some (st', evs ++ [EvStop r (Some e)]) /\ crashes r evs = [].
Proof.
  intros st r x m stk c rest e G R. cbn [step]. unfold throw_step. rewrite G, R. unfold abort.
  exists (upd_bus r (with_runner RIdle) (unwind stk st)), (map (EvLost r) (m :: rest)). split; [reflexivity|].
  induction (m :: rest) as [|n l IH]; auto.
Qed.
Print Assumptions C30_leaves_start.

(** Whatever ended the run with an exception (a callback, or the bus's own code handling an action
    message): the thread has left Start; the message in hand and the rest of the batch are never
    delivered any more; the queue is kept; the bus thread holds no lock any more. *)
Theorem C30_effect : forall ls0 st tr0 l r x e st' evs,
  exec ls0 init = Some (st, tr0) -> get_bus st r = Some x -> step l st = Some (st', evs) -> In (EvStop r (Some e)) evs ->
  exists x' m, get_bus st' r = Some x' /\ current x = [m] /\
    b_runner x' = RIdle /\ b_queue x' = b_queue x /\
    (forall n ls st2 tr2 b s, In n (m :: batch x) -> exec ls st' = Some (st2, tr2) -> ~ In (EvReceive r b s n) tr2) /\
    (forall b y, below st' r b -> get_bus st' b = Some y -> b_slock y = false /\
       (b_klock y = true -> exists i todo, in_dstack st' i (DKids b todo))).
Proof.
  intros ls0 st tr0 l r x e st' evs X0 G H I.
  assert (reach st) as Rc by (exists ls0, tr0; auto).
  assert (reach st') as Rc' by (eapply reach_step; eauto).
  assert (runner_label l r) as RL.
  { destruct (runner_label_dec l r) as [|NR]; auto. exfalso.
    pose proof (other_events _ _ _ _ _ _ H NR I) as E. simpl in E. rewrite Nat.eqb_refl in E. discriminate. }
  destruct (run_inv' _ r _ _ _ H RL) as (x0 & rn & act & G0 & RC & E). rewrite G in G0. injection G0 as <-.
  assert (get_bus st' r = Some (mkBus (b_name x) (b_kids x) (b_fn x) (b_run x) (b_root x) (b_subs x) (b_pubs x)
      (act_s act r (b_slock x)) (act_k act r (b_klock x))
      (match act with ADrain => [] | _ => b_queue x end) (b_count x) rn)) as G'.
  { rewrite E, run_view, G. simpl. rewrite Nat.eqb_refl. reflexivity. }
  assert (exists m, current x = [m] /\ rn = RIdle /\ act <> ADrain /\ settled r evs = m :: batch x) as (m & C & -> & Na & S).
  { unfold current, batch. clear - RC I.
    assert (forall l, settled r (map (EvLost r) l ++ [EvStop r (Some e)]) = l) as SL.
    { induction l0 as [|n l0 IH]; auto. simpl. rewrite Nat.eqb_refl. simpl. now rewrite IH. }
    assert (forall l e', settled r (map (EvLost r) l ++ [EvStop r (Some e')]) = l) as SL'.
    { intros l0 e'. clear - SL. specialize (SL l0). rewrite settled_app in SL |- *. exact SL. }
    inversion RC; subst; simpl in I; try (intuition discriminate).
    - exists m. repeat split; auto; try discriminate. change (settled r (map (EvLost r) (m :: rest) ++ [EvStop r (Some e0)]) = m :: rest). apply SL'.
    - exists m. repeat split; auto; try discriminate; apply SL'. }
  eexists. exists m. split; [exact G'|]. split; [exact C|]. split; [reflexivity|]. split; [simpl; destruct act; congruence|]. split.
  - intros n ls st2 tr2 b s In2 X2. eapply settled_gone; [|exact X2|].
    + rewrite exec_app with (ls1 := ls0) (ls2 := [l]). rewrite X0. cbn [exec]. rewrite H. reflexivity.
    + rewrite settled_app. apply in_app_iff. right. rewrite app_nil_r, S. exact In2.
  - intros b y B Gy.
    pose proof (reach_tree _ Rc') as T. pose proof (reach_lock _ Rc') as K.
    assert (forall r' f, in_stack st' r' f -> frame_bus f = b -> False) as NF.
    { intros r' f Is Ef. destruct (in_stack_root _ _ _ T Is) as (z & Gz & Rz). destruct Is as (z' & Gz' & If).
      rewrite Gz in Gz'. injection Gz' as <-.
      pose proof (stack_below _ _ _ _ (k_stack _ K _ _ Gz) If) as Br. rewrite Ef in Br.
      assert (b_root x = true) as Rx.
      { eapply (t_runner _ (reach_tree _ Rc)); eauto. unfold current in C. destruct (b_runner x); discriminate. }
      assert (r' = r) as ->.
      { destruct (below_linear _ _ _ _ T Br B) as [Q|Q]; [exact (below_root _ _ _ _ T Q G' Rx)|symmetry; exact (below_root _ _ _ _ T Q Gz Rz)]. }
      rewrite G' in Gz. injection Gz as <-. contradiction. }
    split.
    + destruct (b_slock y) eqn:L; auto. exfalso. destruct (k_s _ K _ _ Gy L) as (r' & todo & Is). eapply NF; eauto.
    + intros L. destruct (k_k _ K _ _ Gy L) as [(r' & todo & Is)|Q]; auto. exfalso. eapply NF; eauto.
Qed.
Print Assumptions C30_effect.

(** Start can be called again and will then serve what is still queued. *)
Theorem C30_restart : forall ls0 st tr0 l r x e st' evs,
  exec ls0 init = Some (st, tr0) -> get_bus st r = Some x -> step l st = Some (st', evs) -> In (EvStop r (Some e)) evs ->
  exists st3 x3, exec [LStart r; LRun r; LRun r] st' = Some (st3, [EvStart r]) /\ get_bus st3 r = Some x3 /\ batch x3 = b_queue x.
Proof.
  intros ls0 st tr0 l r x e st' evs X0 G H I.
  destruct (C30_effect _ _ _ _ _ _ _ _ _ X0 G H I) as (x' & m & G' & C & R & Q & _).
  assert (b_root x' = true) as Rx.
  { assert (reach st) as Rc by (exists ls0, tr0; auto).
    destruct (step_keeps _ _ _ _ _ _ H G) as (z & Gz & Rz & _). assert (z = x') as -> by congruence. rewrite Rz.
    eapply (t_runner _ (reach_tree _ Rc)); eauto. unfold current in C. destruct (b_runner x); discriminate. }
  set (x1 := with_runner RWait (with_run true x')). set (s1 := set_bus r x1 st').
  assert (get_bus s1 r = Some x1) as G1 by (unfold s1; now rewrite get_set, Nat.eqb_refl, G').
  set (s2 := upd_bus r (with_runner RDrain) s1).
  assert (get_bus s2 r = Some (with_runner RDrain x1)) as G2 by (unfold s2; now rewrite get_upd, Nat.eqb_refl, G1).
  assert (step (LStart r) st' = Some (s1, [EvStart r])) as E1 by (cbn [step]; now rewrite G', Rx, R).
  assert (step (LRun r) s1 = Some (s2, [])) as E2 by (cbn [step]; unfold run_step; now rewrite G1).
  cbn [exec]. rewrite E1, E2. cbn [step]. unfold run_step. rewrite G2. cbn [b_runner with_runner app].
  do 2 eexists. split; [reflexivity|]. split.
  - rewrite !get_upd, Nat.eqb_refl, G2. reflexivity.
  - simpl. exact Q.
Qed.
Print Assumptions C30_restart.

(** The callback of subscriber 0 throws while one message is left in the batch and one in the queue. *)
Example C30_case : exists st tr x st' evs,
  exec (ex_setup ++ ex_publish ++ ex_begin ++ [LRun 0; LPublish 0 Emp; LFly 2; LFly 2]) init = Some (st, tr) /\
  get_bus st 0 = Some x /\ current x = [ex_msg0] /\ batch x = [ex_msg1] /\ b_queue x = [(2, mkM "b" "t" Emp)] /\
  step (LThrow 0 InvalidOperation) st = Some (st', evs) /\ In (EvStop 0 (Some InvalidOperation)) evs /\ discarded 0 evs = [ex_msg0; ex_msg1].
Proof. do 5 eexists. split; [vm_compute; reflexivity|]. split; [vm_compute; reflexivity|]. do 3 (split; [reflexivity|]). split; [vm_compute; reflexivity|]. vm_compute. auto. Qed.

(** * C31 *)

(** [calling] is what the invocation of a callback establishes. *)
Theorem C31_calling : forall st l st' evs r b s m c,
  reach st -> step l st = Some (st', evs) -> In (EvReceive r b s m) evs -> In (EvInvoke r s m c) evs -> calling st' r b c.
Proof.
  intros st l st' evs r b s m c Rc H I J.
  destruct (receive_inv _ _ _ _ _ _ _ _ H I) as (x & ss & stk & rest & y & -> & G & R & N & A & _).
  cbn [step] in H. unfold run_step in H. rewrite G, R, N in H.
  destruct (ant_matches (s_topic y) (bm_topic (snd m))); [|injection H as <- <-; contradiction].
  destruct (receive st s (snd m)) as [|e|c'].
  - injection H as <- <-. destruct J as [J|[]]. discriminate.
  - unfold abort in H. injection H as <- <-. exfalso. destruct J as [J|[J|J]]; try discriminate.
    apply in_app_iff in J. destruct J as [J|[J|[]]]; [|discriminate]. apply in_map_iff in J. destruct J as (? & ? & _). discriminate.
  - injection H as <- <-. destruct J as [J|[J|[]]]; [discriminate|]. injection J as ->.
    do 5 eexists. split; [rewrite get_upd, Nat.eqb_refl, G; reflexivity|reflexivity].
Qed.
Print Assumptions C31_calling.

(** Publishing, and creating, deleting or testing for publishers, never blocks, in any state: in
    particular not inside a callback. *)
Theorem C31_may : forall st, reach st ->
  (forall b x m, get_bus st b = Some x -> enabled (LPublishMsg b m) st) /\
  (forall p y d, nth_error (s_pubs st) p = Some y -> enabled (LPublish p d) st) /\
  (forall i, i < length (s_flights st) -> nth_error (s_flights st) i = Some FlyDone \/ enabled (LFly i) st) /\
  (forall b x topic, get_bus st b = Some x -> enabled (LPub b topic) st) /\
  (forall b x p y, get_bus st b = Some x -> nth_error (s_pubs st) p = Some y -> enabled (LDelPub b p) st /\ enabled (LHasPub b p) st) /\
  (forall c y id d u, nth_error (s_conss st) c = Some y -> enabled (LRequest c id d u) st) /\
  (forall p y id d, nth_error (s_provs st) p = Some y -> enabled (LRespond p id d) st).
Proof.
  intros st Rc. pose proof (reach_range _ Rc) as Q. unfold enabled.
  assert (forall p y d, nth_error (s_pubs st) p = Some y -> exists st' evs, begin_publish p d st = Some (st', evs)) as BP.
  { intros p y d N. unfold begin_publish. rewrite N. destruct (p_fn y); eauto. }
  repeat split.
  - intros b x m G. cbn [step]. rewrite G. unfold test_bus_fn. rewrite G. destruct (b_fn x); eauto.
  - intros p y d N. cbn [step]. eauto.
  - intros i L. destruct (nth_error (s_flights st) i) as [f|] eqn:N; [|apply nth_error_None in N; lia].
    cbn [step]. unfold fly_step. rewrite N. destruct f as [p d|b m|]; auto; right.
    + destruct (g_fly _ Q _ _ _ N) as (y & Ny). rewrite Ny. destruct (p_fn y); eauto.
      destruct (g_pub _ Q _ _ Ny) as (x & G). rewrite G. unfold test_bus_fn. rewrite G. destruct (b_fn x); eauto.
    + destruct (g_bus _ Q _ _ _ N) as (x & G). rewrite G. destruct (b_fn x) as [t|]; eauto. destruct (call_target t i m st). eauto.
  - intros b x t G. cbn [step]. rewrite G. unfold ok. eauto.
  - cbn [step]. rewrite H, H0. unfold ok. eauto.
  - cbn [step]. rewrite H. unfold ok. eauto.
  - intros c y id d u N. cbn [step]. rewrite N. destruct u; [|unfold raise; eauto].
    destruct (g_cons _ Q _ _ N) as (_ & q & Nq). unfold begin_publish. simpl. rewrite Nq. destruct (p_fn q); eauto.
  - intros p y id d N. cbn [step]. rewrite N. destruct (g_prov _ Q _ _ N) as (_ & q & Nq). eauto.
Qed.
Print Assumptions C31_may.

Lemma calling_stays st r b c ls st' tr : calling st r b c -> exec ls st = Some (st', tr) -> still_inside r ls -> calling st' r b c.
Proof.
  intros (x & m & ss & stk & rest & G & R) X F.
  destruct (call_stays _ _ _ _ _ _ X G) as (x' & G' & R'); [rewrite R; discriminate|exact F|].
  exists x', m, ss, stk, rest. split; auto. congruence.
Qed.

(** Creating, deleting or testing for a subscriber of the bus whose callback is running (also
    indirectly, by creating an action provider or consumer on it), and creating or looking up a child
    of one of its strict ancestors, does not get through before that callback has returned. So a
    callback that does one of these things never returns. *)
Theorem C31_blocks : forall st r b c ls st' tr,
  reach st -> calling st r b c -> exec ls st = Some (st', tr) -> still_inside r ls ->
  (forall topic cb, ~ enabled (LSub b topic cb) st') /\
  (forall s, ~ enabled (LDelSub b s) st') /\
  (forall s, ~ enabled (LHasSub b s) st') /\
  (forall topic u, ~ enabled (LProvider b topic u) st') /\
  (forall topic, ~ enabled (LConsumer b topic) st') /\
  (forall a name, below st a b -> a <> b -> ~ enabled (LGetChild a name) st') /\
  (forall a name, below st a b -> a <> b -> name <> ""%string -> ~ enabled (LChild a name) st').
Proof.
  intros st r b c ls st' tr Rc C X F. assert (reach st') as Rc' by (eapply reach_exec; eauto).
  destruct (calling_stays _ _ _ _ _ _ _ C X F) as (x & m & ss & stk & rest & G & R).
  destruct (call_locks st' r x c Rc' G) as (m' & b' & ss' & stk' & rest' & y & R' & Gy & Ly & Br & Kl); [now rewrite R|].
  rewrite R in R'. injection R' as <- <- <- <- <-.
  assert (b_root x = true) as Rx by (eapply (t_runner _ (reach_tree _ Rc')); eauto; rewrite R; discriminate).
  assert (forall a, below st a b -> a <> b -> exists z, get_bus st' a = Some z /\ b_klock z = true) as Ka.
  { intros a B Ne. assert (below st' a b) as B'.
    { clear - X B. revert st tr X B. induction ls as [|l ls IH]; intros st tr X B.
      - simpl in X. now injection X as <- <-.
      - apply exec_cons_inv in X. destruct X as (st1 & e1 & e2 & H1 & H2 & ->). eapply IH; eauto. eapply step_below_mono; eauto. }
    apply Kl; auto. destruct (below_linear _ _ _ _ (reach_tree _ Rc') B' Br) as [Q|Q]; auto.
    rewrite (below_root _ _ _ _ (reach_tree _ Rc') Q G Rx). constructor. }
  unfold enabled. repeat split.
  1-5: intros; cbn [step]; rewrite Gy, Ly; intros (? & ? & E); discriminate.
  - intros a name B Ne (s1 & e1 & E). destruct (Ka a B Ne) as (z & Gz & Lz). cbn [step] in E. rewrite Gz, Lz in E. discriminate.
  - intros a name B Ne Nn (s1 & e1 & E). destruct (Ka a B Ne) as (z & Gz & Lz). cbn [step] in E. rewrite Gz, Lz in E.
    destruct (String.eqb_spec name ""); [contradiction|discriminate].
Qed.
Print Assumptions C31_blocks.

(** Inside the callback of subscriber 2, on bus 3 ("c"), below 2 ("a"), below the root. *)
Example C31_case : exists st tr,
  exec (ex_setup ++ ex_publish ++ ex_begin ++ firstn 10 ex_dist) init = Some (st, tr) /\
  calling st 0 3 (CallData 9 (Val (DInt 5))) /\ below st 2 3 /\ below st 0 3.
Proof.
  do 2 eexists. split; [vm_compute; reflexivity|]. split; [|split].
  - do 5 eexists. split; vm_compute; reflexivity.
  - apply (below_kid _ _ 2); [constructor|]. eexists. split; [vm_compute; reflexivity|]. vm_compute. auto.
  - apply (below_kid _ _ 2); [apply (below_kid _ _ 0); [constructor|]|]; (eexists; split; [vm_compute; reflexivity|]; vm_compute; auto).
Qed.

(** * C32 *)

(** Proved: a running bus thread outside callbacks can take its next step, unless it waits for the
    children lock of a bus that another thread's Detach holds. Missing from the property's statement:
    this exception, see [C32_always_refuted]. *)
Theorem C32_next_step_partial : forall st r x,
  reach st -> get_bus st r = Some x -> b_runner x <> RIdle -> (forall b c, ~ calling st r b c) ->
  enabled (LRun r) st \/ (exists i b todo, in_dstack st i (DKids b todo) /\ below st r b).
Proof.
  intros st r x Rc G NI NC.
  assert (call_of (b_runner x) = None) as C.
  { destruct (call_of (b_runner x)) as [c|] eqn:E; auto. exfalso.
    destruct (call_locks _ _ _ _ Rc G E) as (m & b & ss & stk & rest & _ & R & _). apply (NC b c). exists x, m, ss, stk, rest. auto. }
  destruct (run_enabled _ _ _ (reach_tree _ Rc) (reach_lock _ Rc) G NI C) as [E|(m & b & stk & rest & i & todo & R & I)]; auto.
  right. exists i, b, todo. split; auto. pose proof (k_stack _ (reach_lock _ Rc) _ _ G) as S. rewrite R in S.
  apply (stack_below _ _ _ (FLock b) S). now left.
Qed.
Print Assumptions C32_next_step_partial.

(** Without any Detach under way, the bus thread is never stuck outside callbacks. *)
Theorem C32_next_step : forall st r x,
  reach st -> get_bus st r = Some x -> b_runner x <> RIdle -> (forall b c, ~ calling st r b c) ->
  (forall i ds, nth_error (s_detaches st) i = Some ds -> ds = []) -> enabled (LRun r) st.
Proof.
  intros st r x Rc G NI NC ND. destruct (C32_next_step_partial _ _ _ Rc G NI NC) as [|(i & b & todo & (ds & N & I) & _)]; auto.
  rewrite (ND _ _ N) in I. contradiction.
Qed.
Print Assumptions C32_next_step.

Example C32_case : exists st tr x,
  exec (ex_setup ++ ex_publish ++ ex_begin) init = Some (st, tr) /\ get_bus st 0 = Some x /\ b_runner x <> RIdle /\
  (forall b c, ~ calling st 0 b c) /\ (forall i ds, nth_error (s_detaches st) i = Some ds -> ds = []).
Proof.
  do 3 eexists. split; [vm_compute; reflexivity|]. split; [vm_compute; reflexivity|]. split; [discriminate|]. split.
  - intros b c (x & m & ss & stk & rest & G & R). vm_compute in G. injection G as <-. discriminate.
  - intros [|i] ds N; discriminate.
Qed.

(** The first half of the property as stated is false: here the bus thread waits for the children lock
    of the root, which Detach holds. *)
Theorem C32_always_refuted : exists st r x,
  reach st /\ get_bus st r = Some x /\ b_runner x <> RIdle /\ (forall b c, ~ calling st r b c) /\ ~ enabled (LRun r) st.
Proof.
  assert (exists st tr x, exec (ex_setup ++ ex_publish ++ ex_begin ++ [LRun 0; LReturn 0; LRun 0; LDetach 0; LDetachStep 0]) init = Some (st, tr) /\
    get_bus st 0 = Some x /\ b_runner x <> RIdle /\ (forall b c, ~ calling st 0 b c) /\ ~ enabled (LRun 0) st) as (st & tr & x & X & Q).
  { do 3 eexists. split; [vm_compute; reflexivity|]. split; [vm_compute; reflexivity|]. split; [discriminate|]. split.
    - intros b c (x & m & ss & stk & rest & G & R). vm_compute in G. injection G as <-. discriminate.
    - intros (s & e & E). vm_compute in E. discriminate. }
  exists st, 0, x. split; auto. exists (ex_setup ++ ex_publish ++ ex_begin ++ [LRun 0; LReturn 0; LRun 0; LDetach 0; LDetachStep 0]), tr. exact X.
Qed.
Print Assumptions C32_always_refuted.

(** The second half is false as well: a callback that creates a child bus with a subscriber of the
    same kind, on the bus that is being served, keeps one distribution going for ever. *)
Definition digging (k s : nat) (st : state) : Prop :=
  exists x0 m stk rest y t, get_bus st 0 = Some x0 /\ b_klock x0 = true /\ 0 <> k /\
    b_runner x0 = RDist m (FSubs k [s] :: stk) None rest /\ bm_topic (snd m) = "t"%string /\
    nth_error (s_subs st) s = Some (mkSub "t" (Some (CbData (Some 7)))) /\
    get_bus st k = Some y /\ b_kids y = [] /\ b_fn y = Some t /\ b_klock y = false.

Definition dig (k c : nat) : list label :=
  [LRun 0; LChild k "x"; LSub c "t" (Some (Some 7)); LReturn 0; LRun 0; LRun 0; LRun 0].

Definition held0 (st : state) : Prop := exists x, get_bus st 0 = Some x /\ b_klock x = true.

Lemma always_cons (P : state -> Prop) l ls st st1 e : P st -> step l st = Some (st1, e) -> always P ls st1 -> always P (l :: ls) st.
Proof. intros H E A. cbn [always]. rewrite E. auto. Qed.

Lemma dig_once k s st : digging k s st ->
  exists st' tr, exec (dig k (length (s_buses st))) st = Some (st', tr) /\ always held0 (dig k (length (s_buses st))) st /\
    digging (length (s_buses st)) (length (s_subs st)) st'.
Proof.
  intros (x0 & m & stk & rest & y & t & G0 & K0 & Nk & R & Tm & Ns & Gk & Ky & Fy & Ly).
  set (c := length (s_buses st)). set (s' := length (s_subs st)).
  pose proof (get_lt _ _ _ G0) as L0. pose proof (get_lt _ _ _ Gk) as Lk. fold c in L0, Lk.
  assert (Nat.eqb 0 k = false) as Q0k by (apply Nat.eqb_neq; lia). assert (Nat.eqb k 0 = false) as Qk0 by (apply Nat.eqb_neq; lia).
  assert (Nat.eqb 0 c = false) as Q0c by (apply Nat.eqb_neq; lia). assert (Nat.eqb c 0 = false) as Qc0 by (apply Nat.eqb_neq; lia).
  assert (Nat.eqb k c = false) as Qkc by (apply Nat.eqb_neq; lia). assert (Nat.eqb c k = false) as Qck by (apply Nat.eqb_neq; lia).
  Ltac gg := repeat (rewrite ?get_set, ?get_upd, ?get_add, ?get_set_subs, ?buses_upd, ?subs_upd, ?Nat.eqb_refl; cbn [option_map]).
  (* 1 *)
  set (call := CallData 7 (bm_data (snd m))).
  set (s1 := upd_bus 0 (with_runner (RDist m (FSubs k [] :: stk) (Some call) rest)) st).
  assert (step (LRun 0) st = Some (s1, [EvReceive 0 k s m; EvInvoke 0 s m call])) as E1.
  { cbn [step]. unfold run_step. rewrite G0, R, Ns. cbn [s_topic]. rewrite Tm. change (ant_matches "t" "t") with true. cbv iota.
    unfold receive. rewrite Ns. reflexivity. }
  assert (get_bus s1 0 = Some (with_runner (RDist m (FSubs k [] :: stk) (Some call) rest) x0)) as G01 by (unfold s1; gg; now rewrite G0).
  assert (get_bus s1 k = Some y) as Gk1 by (unfold s1; gg; now rewrite Q0k).
  assert (length (s_buses s1) = c) as B1 by (unfold s1; now rewrite buses_upd).
  assert (s_subs s1 = s_subs st) as S1 by (unfold s1; now rewrite subs_upd).
  (* 2 *)
  set (yk := with_kids (oinsert "x" c (b_kids y)) y). set (yc := with_run true (new_bus "x" (Some t) false)).
  set (s2 := add_bus yc (set_bus k yk s1)).
  assert (step (LChild k "x") s1 = Some (s2, [EvRes (Ok (RNew c))])) as E2.
  { cbn [step]. rewrite Gk1. cbn [String.eqb]. rewrite Ly, Ky. cbn [olookup]. rewrite Fy, B1. unfold s2, yk. rewrite Ky. reflexivity. }
  assert (forall b, get_bus s2 b = if Nat.eqb c b then Some yc else get_bus (set_bus k yk s1) b) as V2.
  { intros b. unfold s2. rewrite get_add. unfold set_bus. cbn [s_buses]. rewrite list_set_length, B1. reflexivity. }
  assert (get_bus s2 0 = Some (with_runner (RDist m (FSubs k [] :: stk) (Some call) rest) x0)) as G02 by (rewrite V2, Qc0; gg; now rewrite Qk0).
  assert (get_bus s2 k = Some yk) as Gk2 by (rewrite V2, Qck; gg; now rewrite Gk1).
  assert (get_bus s2 c = Some yc) as Gc2 by (now rewrite V2, Nat.eqb_refl).
  assert (s_subs s2 = s_subs st) as S2 by exact S1.
  (* 3 *)
  set (ns := mkSub "t" (Some (CbData (Some 7)))).
  set (s3 := add_sub c yc ns s2).
  assert (step (LSub c "t" (Some (Some 7))) s2 = Some (s3, [EvRes (Ok (RNew s'))])) as E3.
  { cbn [step]. rewrite Gc2. unfold ok. cbn [b_slock yc with_run new_bus]. rewrite S2. reflexivity. }
  set (yc3 := with_subs [s'] yc).
  assert (forall b, get_bus s3 b = if Nat.eqb c b then Some yc3 else get_bus s2 b) as V3.
  { intros b. unfold s3, add_sub. gg. rewrite S2. destruct (Nat.eqb_spec c b) as [<-|]; auto. now rewrite Gc2. }
  assert (s_subs s3 = s_subs st ++ [ns]) as S3 by (unfold s3, add_sub; cbn [s_subs set_subs]; now rewrite S2).
  assert (get_bus s3 0 = Some (with_runner (RDist m (FSubs k [] :: stk) (Some call) rest) x0)) as G03 by (now rewrite V3, Qc0).
  assert (get_bus s3 k = Some yk) as Gk3 by (now rewrite V3, Qck).
  assert (get_bus s3 c = Some yc3) as Gc3 by (now rewrite V3, Nat.eqb_refl).
  (* 4 *)
  set (s4 := upd_bus 0 (with_runner (RDist m (FSubs k [] :: stk) None rest)) s3).
  assert (step (LReturn 0) s3 = Some (s4, [])) as E4.
  { cbn [step]. unfold return_step. rewrite G03. reflexivity. }
  set (x4 := with_runner (RDist m (FSubs k [] :: stk) None rest) (with_runner (RDist m (FSubs k [] :: stk) (Some call) rest) x0)).
  assert (get_bus s4 0 = Some x4) as G04 by (unfold s4; gg; now rewrite G03).
  assert (get_bus s4 k = Some yk) as Gk4 by (unfold s4; gg; now rewrite Q0k).
  assert (get_bus s4 c = Some yc3) as Gc4 by (unfold s4; gg; now rewrite Q0c).
  assert (s_subs s4 = s_subs st ++ [ns]) as S4 by (unfold s4; now rewrite subs_upd).
  (* 5 *)
  set (s5 := upd_bus 0 (with_runner (RDist m (FLock k :: stk) None rest)) (upd_bus k (with_slock false) s4)).
  assert (step (LRun 0) s4 = Some (s5, [])) as E5.
  { cbn [step]. unfold run_step. rewrite G04. reflexivity. }
  set (x5 := with_runner (RDist m (FLock k :: stk) None rest) x4).
  assert (get_bus s5 0 = Some x5) as G05 by (unfold s5; gg; rewrite Qk0, G04; reflexivity).
  assert (get_bus s5 k = Some (with_slock false yk)) as Gk5 by (unfold s5; gg; rewrite Q0k, Gk4; reflexivity).
  assert (get_bus s5 c = Some yc3) as Gc5 by (unfold s5; gg; rewrite Q0c, Qkc; exact Gc4).
  assert (s_subs s5 = s_subs st ++ [ns]) as S5 by (unfold s5; now rewrite !subs_upd).
  (* 6 *)
  set (s6 := upd_bus 0 (with_runner (RDist m (FKids k [c] :: stk) None rest)) (upd_bus k (with_klock true) s5)).
  assert (step (LRun 0) s5 = Some (s6, [])) as E6.
  { cbn [step]. unfold run_step. rewrite G05. cbn [b_runner x5 with_runner]. rewrite Gk5. cbn [b_klock yk with_slock with_kids]. rewrite Ly.
    cbn [b_kids yk with_slock with_kids]. rewrite Ky. reflexivity. }
  set (x6 := with_runner (RDist m (FKids k [c] :: stk) None rest) x5).
  assert (get_bus s6 0 = Some x6) as G06 by (unfold s6; gg; rewrite Qk0, G05; reflexivity).
  assert (get_bus s6 c = Some yc3) as Gc6 by (unfold s6; gg; rewrite Q0c, Qkc; exact Gc5).
  assert (s_subs s6 = s_subs st ++ [ns]) as S6 by (unfold s6; now rewrite !subs_upd).
  (* 7 *)
  set (s7 := upd_bus 0 (with_runner (RDist m (FSubs c [s'] :: FKids k [] :: stk) None rest)) (upd_bus c (with_slock true) s6)).
  assert (step (LRun 0) s6 = Some (s7, [])) as E7.
  { cbn [step]. unfold run_step. rewrite G06. cbn [b_runner x6 with_runner]. rewrite Gc6. reflexivity. }
  set (x7 := with_runner (RDist m (FSubs c [s'] :: FKids k [] :: stk) None rest) x6).
  assert (get_bus s7 0 = Some x7) as G07 by (unfold s7; gg; rewrite Qc0, G06; reflexivity).
  assert (get_bus s7 c = Some (with_slock true yc3)) as Gc7 by (unfold s7; gg; rewrite Q0c, Gc6; reflexivity).
  assert (s_subs s7 = s_subs st ++ [ns]) as S7 by (unfold s7; now rewrite !subs_upd).
  exists s7. eexists. split; [|split].
  - unfold dig. cbn [exec]. rewrite E1, E2, E3, E4, E5, E6, E7. reflexivity.
  - unfold dig.
    apply (always_cons _ _ _ _ _ _ (ex_intro _ x0 (conj G0 K0)) E1).
    apply (always_cons _ _ _ _ _ _ (ex_intro _ _ (conj G01 K0)) E2).
    apply (always_cons _ _ _ _ _ _ (ex_intro _ _ (conj G02 K0)) E3).
    apply (always_cons _ _ _ _ _ _ (ex_intro _ _ (conj G03 K0)) E4).
    apply (always_cons _ _ _ _ _ _ (ex_intro _ _ (conj G04 K0)) E5).
    apply (always_cons _ _ _ _ _ _ (ex_intro _ _ (conj G05 K0)) E6).
    apply (always_cons _ _ _ _ _ _ (ex_intro _ _ (conj G06 K0)) E7).
    split; [|exact I]. exists x7. split; [exact G07|exact K0].
  - exists x7, m, (FKids k [] :: stk), rest, (with_slock true yc3), t.
    split; [exact G07|]. split; [exact K0|]. split; [lia|]. split; [reflexivity|]. split; [exact Tm|].
    split; [rewrite S7; apply nth_snoc_new|]. split; [exact Gc7|]. auto.
Qed.

Lemma always_app (P : state -> Prop) ls1 ls2 : forall st st1 tr, exec ls1 st = Some (st1, tr) -> always P ls1 st -> always P ls2 st1 -> always P (ls1 ++ ls2) st.
Proof.
  induction ls1 as [|l ls1 IH]; intros st st1 tr X A B.
  - simpl in X. now injection X as <- <-.
  - apply exec_cons_inv in X. destruct X as (s & e1 & e2 & H1 & H2 & ->). cbn [always app] in *. rewrite H1 in *. destruct A. split; eauto.
Qed.

Lemma own_app r ls1 ls2 : own_steps r (ls1 ++ ls2) = own_steps r ls1 + own_steps r ls2.
Proof. induction ls1 as [|l ls1 IH]; auto. destruct l; simpl; auto; rewrite IH; lia. Qed.

Lemma dig_many n : forall k s st, digging k s st -> exists ls st' tr, exec ls st = Some (st', tr) /\ n <= own_steps 0 ls /\ always held0 ls st.
Proof.
  induction n as [|n IH]; intros k s st D.
  - exists [], st, []. split; auto. split; auto. destruct D as (x0 & _ & _ & _ & _ & _ & G & K & _). split; auto. exists x0. auto.
  - destruct (dig_once _ _ _ D) as (st1 & tr1 & X1 & A1 & D1). destruct (IH _ _ _ D1) as (ls & st' & tr & X & O & A).
    exists (dig k (length (s_buses st)) ++ ls), st', (tr1 ++ tr). split; [now rewrite exec_app, X1, X|]. split.
    + rewrite own_app. simpl. lia.
    + eapply always_app; eauto.
Qed.

Theorem C32_bounded_refuted : exists st x m,
  reach st /\ get_bus st 0 = Some x /\ current x = [m] /\
  forall n, exists ls st' tr, exec ls st = Some (st', tr) /\ n <= own_steps 0 ls /\
    always (fun s => exists y, get_bus s 0 = Some y /\ b_klock y = true) ls st.
Proof.
  assert (exists st tr x m,
    exec ([LNewRoot "r"; LChild 0 "k"; LSub 1 "t" (Some (Some 7)); LStart 0; LPublishMsg 0 (mkM "" "t" Emp); LFly 0] ++ repeat (LRun 0) 6) init = Some (st, tr) /\
    get_bus st 0 = Some x /\ current x = [m] /\ digging 1 0 st) as (st & tr & x & m & X & G & C & D).
  { do 4 eexists. split; [vm_compute; reflexivity|]. split; [vm_compute; reflexivity|]. split; [reflexivity|].
    do 6 eexists. split; [vm_compute; reflexivity|]. split; [reflexivity|]. split; [discriminate|]. split; [reflexivity|]. split; [reflexivity|].
    split; [vm_compute; reflexivity|]. split; [vm_compute; reflexivity|]. repeat split. }
  exists st, x, m. split; [eexists; eexists; exact X|]. split; auto. split; auto. intros n. apply (dig_many n 1 0 st D).
Qed.
Print Assumptions C32_bounded_refuted.

(** * C63: progress, as it holds *)

(** While a Detach stands in the way of the bus thread, some detaching thread can go on; detaching
    threads among themselves are done after a bounded number of steps. So the bus thread gets its
    turn when detaching threads get theirs. *)
Theorem C63_detach_finite : forall st r x,
  reach st -> get_bus st r = Some x -> b_runner x <> RIdle -> (forall b c, ~ calling st r b c) ->
  exists n, forall ls st' tr, Forall (fun l => exists i, l = LDetachStep i) ls -> exec ls st = Some (st', tr) ->
    length ls <= n /\ (enabled (LRun r) st' \/ exists j, enabled (LDetachStep j) st').
Proof.
  intros st r x Rc G NI NC.
  assert (call_of (b_runner x) = None) as C.
  { destruct (call_of (b_runner x)) as [c|] eqn:E; auto. exfalso.
    destruct (call_locks _ _ _ _ Rc G E) as (m & b & ss & stk & rest & _ & R & _). apply (NC b c). exists x, m, ss, stk, rest. auto. }
  clear NC. destruct (reach_dtotal _ Rc) as (n & D). exists n. intros ls. revert st x n Rc G NI C D.
  induction ls as [|l ls IH]; intros st x n Rc G NI C D st' tr F X.
  - simpl in X. injection X as <- <-. split; [simpl; lia|].
    destruct (run_enabled _ _ _ (reach_tree _ Rc) (reach_lock _ Rc) G NI C) as [E|(m & b & stk & rest & i & todo & R & I)]; auto.
    right. exact (detach_enabled _ _ _ _ _ _ _ (reach_tree _ Rc) (reach_lock _ Rc) G R _ b i todo (le_n _) (below_refl _ _) I).
  - apply exec_cons_inv in X. destruct X as (st1 & e1 & e2 & H1 & H2 & ->). pose proof (Forall_inv F) as (i & ->). apply Forall_inv_tail in F.
    destruct (detach_cost _ _ _ _ _ H1 D) as (n' & D' & En). destruct (detach_keeps_runner _ _ _ _ _ _ H1 G) as (x1 & G1 & R1).
    destruct (IH st1 x1 n' (reach_step _ _ _ _ Rc H1) G1) with (st' := st') (tr := e2) as (L & Q); auto; try congruence.
    split; auto. simpl. lia.
Qed.
Print Assumptions C63_detach_finite.

(** Whatever other threads do: the subscribers lock that the bus thread holds is released after at most
    two own steps (call, return) for each subscriber still to be looked at, and two more. *)
Theorem C63_subscribers_lock : forall st r x m b todo stk c rest ls st' tr,
  reach st -> get_bus st r = Some x -> b_runner x = RDist m (FSubs b todo :: stk) c rest ->
  exec ls st = Some (st', tr) -> 2 + 2 * length todo <= own_steps r ls ->
  passes (fun s _ => exists y, get_bus s b = Some y /\ b_slock y = false) ls st.
Proof.
  intros st r x m b todo stk c rest ls st' tr Rc G R X L. eapply slock_released; eauto. destruct c; simpl; lia.
Qed.
Print Assumptions C63_subscribers_lock.

(** If meanwhile no thread creates children or subscriptions, deletes subscribers, starts, stops or detaches
    buses, the message in hand is done with (or the run has ended by an exception) within a number of
    own steps that depends on the state only. *)
Theorem C63_distribution_bounded : forall st r x m,
  reach st -> get_bus st r = Some x -> current x = [m] ->
  exists n, forall ls st' tr, exec ls st = Some (st', tr) -> Forall quiet ls -> n <= own_steps r ls ->
    passes (fun s t => exists y, get_bus s r = Some y /\ current y = [] /\ (In (EvEnd r m) t \/ exists e, In (EvStop r (Some e)) t)) ls st.
Proof.
  intros st r x m Rc G C. unfold current in C. destruct (b_runner x) as [| | |ms|m' stk c rest] eqn:R; try discriminate. injection C as ->.
  pose proof (k_stack _ (reach_lock _ Rc) _ _ G) as S. rewrite R in S. simpl in S.
  destruct (work_ex _ _ _ (reach_tree _ Rc) S) as (w & W). exists (w + in_call c). intros ls st' tr X Q L.
  exact (bounded_dist _ _ _ _ _ _ _ _ _ _ _ X Q G R W L).
Qed.
Print Assumptions C63_distribution_bounded.

(** Between messages, waiting, or outside Start the bus thread holds no lock of any bus below its root. *)
Theorem C63_locks_free : forall st r x b y,
  reach st -> get_bus st r = Some x -> b_root x = true -> current x = [] -> below st r b -> get_bus st b = Some y ->
  b_slock y = false /\ (b_klock y = true -> exists i todo, in_dstack st i (DKids b todo)).
Proof.
  intros st r x b y Rc G Rx C B Gy. pose proof (reach_tree _ Rc) as T. pose proof (reach_lock _ Rc) as K.
  assert (forall r' f, in_stack st r' f -> frame_bus f = b -> False) as NF.
  { intros r' f Is Ef. destruct (in_stack_root _ _ _ T Is) as (z & Gz & Rz). destruct Is as (z' & Gz' & If).
    rewrite Gz in Gz'. injection Gz' as <-.
    pose proof (stack_below _ _ _ _ (k_stack _ K _ _ Gz) If) as Br. rewrite Ef in Br.
    assert (r' = r) as ->.
    { destruct (below_linear _ _ _ _ T Br B) as [Q|Q]; [exact (below_root _ _ _ _ T Q G Rx)|symmetry; exact (below_root _ _ _ _ T Q Gz Rz)]. }
    rewrite G in Gz. injection Gz as <-. unfold current in C. destruct (b_runner x); try contradiction. discriminate. }
  split.
  + destruct (b_slock y) eqn:L; auto. exfalso. destruct (k_s _ K _ _ Gy L) as (r' & todo & Is). eapply NF; eauto.
  + intros L. destruct (k_k _ K _ _ Gy L) as [(r' & todo & Is)|Q]; auto. exfalso. eapply NF; eauto.
Qed.
Print Assumptions C63_locks_free.

(** Hypotheses of C63: the states of [C32_case] and of the refutation above; here the whole distribution. *)
Example C63_case : exists st tr x st' tr',
  exec (ex_setup ++ ex_publish ++ ex_begin) init = Some (st, tr) /\ get_bus st 0 = Some x /\ current x = [ex_msg0] /\
  exec ex_dist st = Some (st', tr') /\ Forall quiet ex_dist /\ own_steps 0 ex_dist = 23 /\ In (EvEnd 0 ex_msg0) tr'.
Proof.
  do 5 eexists. split; [vm_compute; reflexivity|]. split; [vm_compute; reflexivity|]. split; [reflexivity|]. split; [vm_compute; reflexivity|].
  split; [repeat constructor|]. split; [reflexivity|]. vm_compute. auto 10.
Qed.

(** * C33 *)

Definition racing (st0 : state) (i p b : nat) (d : dg) (st : state) (tr : list event) : Prop :=
  (exists y, nth_error (s_pubs st) p = Some y /\ p_bus y = b) /\ (detached b st0 -> detached b st) /\
  ((nth_error (s_flights st) i = Some (FlyPub p d) /\ returned i tr = []) \/
   (exists m, nth_error (s_flights st) i = Some (FlyBus b m) /\ returned i tr = [] /\ ~ detached b st0) \/
   (nth_error (s_flights st) i = Some FlyDone /\
     (returned i tr = [Ok tt] \/ (returned i tr = [Throw BadFunctionCall] /\ (reset p st \/ (~ detached b st0 /\ detached b st)))))).

Lemma racing_step st0 l st st' evs tr i p b d : racing st0 i p b d st tr -> step l st = Some (st', evs) -> racing st0 i p b d st' (tr ++ evs).
Proof.
  intros ((y & Np & Eb) & Dm & Q) H. split; [|split].
  - destruct (step_pub _ _ _ _ _ _ H Np) as (y' & N' & _ & E & _). exists y'. split; congruence.
  - intros D0. eapply detached_step; eauto.
  - rewrite returned_app. destruct Q as [(N & Rt)|[(m & N & Rt & A)|(N & Q)]].
    + destruct (step_flight _ _ _ _ _ _ H N) as [->|(N' & _ & E)]; [|left; rewrite Rt, E; auto]. rewrite Rt. simpl.
      pose proof (nth_error_Some_lt _ _ _ N) as L.
      destruct (fly_inv _ _ _ _ H) as [(p0 & d0 & xp & y0 & m0 & N0 & Np0 & F & Gy & Em & [(Fn & -> & ->)|(Fn & -> & ->)])|[(p0 & d0 & xp & N0 & Np0 & F & -> & ->)|(b0 & m0 & y0 & N0 & _)]]; [| | |congruence];
        rewrite N in N0; injection N0 as <- <-; rewrite Np in Np0; injection Np0 as <-; simpl; rewrite list_set_eq by auto; rewrite ?Nat.eqb_refl.
      * right; right. auto.
      * right; left. exists m0. rewrite Eb. split; auto. split; auto. intros D0. destruct (Dm D0) as (z & Gz & Fz). rewrite Eb in Gy. congruence.
      * right; right. split; auto. right. split; auto. left. exists y; auto.
    + destruct (step_flight _ _ _ _ _ _ H N) as [->|(N' & _ & E)]; [|right; left; exists m; rewrite Rt, E; auto]. rewrite Rt. simpl.
      pose proof (nth_error_Some_lt _ _ _ N) as L.
      destruct (fly_inv _ _ _ _ H) as [(p0 & d0 & xp & y0 & m0 & N0 & _)|[(p0 & d0 & xp & N0 & _)|(b0 & m0 & y0 & N0 & Gy & C)]]; [congruence|congruence|].
      rewrite N in N0; injection N0 as <- <-. right; right.
      destruct C as [(Fn & -> & ->)|[(g & Fn & -> & ->)|[(r0 & z & Fn & Gz & -> & ->)|(r0 & Fn & Gz & -> & ->)]]];
        simpl; rewrite list_set_eq by auto; rewrite ?Nat.eqb_refl; (split; [reflexivity|]); auto.
      right. split; auto. right. split; auto. exists y0; auto.
    + right; right. destruct (step_flight _ _ _ _ _ _ H N) as [->|(N' & _ & E)].
      * exfalso. destruct (fly_inv _ _ _ _ H) as [(p0 & d0 & xp & y0 & m0 & N0 & _)|[(p0 & d0 & xp & N0 & _)|(b0 & m0 & y0 & N0 & _)]]; congruence.
      * rewrite E, app_nil_r. split; auto. destruct Q as [Q|(Q & [Q2|(Q2 & Q3)])]; auto; right; split; auto.
        -- left. eapply reset_step; eauto.
        -- right. split; auto. eapply detached_step; eauto.
Qed.

Lemma racing_exec st0 i p b d ls : forall st st' tr0 tr, racing st0 i p b d st tr0 -> exec ls st = Some (st', tr) -> racing st0 i p b d st' (tr0 ++ tr).
Proof.
  induction ls as [|l ls IH]; intros st st' tr0 tr Q X.
  - simpl in X. injection X as <- <-. now rewrite app_nil_r.
  - apply exec_cons_inv in X. destruct X as (st1 & e1 & e2 & H1 & H2 & ->). rewrite app_assoc. eapply IH; eauto. eapply racing_step; eauto.
Qed.

(** Publish throws nothing but bad_function_call, and this only if, since it began, the publisher was
    deleted or its bus was detached. *)
Theorem C33_only_if_raced : forall st p y d st1 evs ls st2 tr i e,
  reach st -> nth_error (s_pubs st) p = Some y -> i = length (s_flights st) ->
  step (LPublish p d) st = Some (st1, evs) -> exec ls st1 = Some (st2, tr) -> In (Throw e) (returned i (evs ++ tr)) ->
  e = BadFunctionCall /\
  ((~ reset p st /\ reset p st2) \/ (~ detached (p_bus y) st /\ detached (p_bus y) st2)).
Proof.
  intros st p y d st1 evs ls st2 tr i e Rc N -> H X I.
  cbn [step] in H. destruct (begin_publish_inv _ _ _ _ _ H) as (y' & N' & Q). rewrite N in N'. injection N' as <-.
  assert (racing st (length (s_flights st)) p (p_bus y) d st1 evs /\ (p_fn y = false -> returned (length (s_flights st)) evs = [Ok tt])) as (Rg & Fl).
  { destruct Q as [(F & -> & ->)|(F & -> & ->)]; (split; [split; [exists y; auto|]; split; [auto|]|]); simpl; rewrite ?nth_snoc_new, ?Nat.eqb_refl; auto.
    congruence. }
  pose proof (racing_exec _ _ _ _ _ _ _ _ _ _ Rg X) as (_ & _ & Q2).
  destruct Q2 as [(_ & E)|[(m & _ & E & _)|(_ & [E|(E & W)])]]; rewrite E in I; try contradiction.
  - destruct I as [I|[]]. discriminate.
  - destruct I as [I|[]]. injection I as <-. split; auto.
    destruct W as [W|W]; auto. left. split; auto. intros (z & Nz & Fz). rewrite N in Nz. injection Nz as <-.
    rewrite returned_app, (Fl Fz) in E. discriminate.
Qed.
Print Assumptions C33_only_if_raced.

(** A publication that begins on a bus directly (Bus::Publish) likewise. *)
Theorem C33_direct : forall st b m st1 evs ls st2 tr i e,
  reach st -> i = length (s_flights st) ->
  step (LPublishMsg b m) st = Some (st1, evs) -> exec ls st1 = Some (st2, tr) -> In (Throw e) (returned i (evs ++ tr)) ->
  e = BadFunctionCall /\ ~ detached b st /\ detached b st2.
Proof.
  intros st b m st1 evs ls st2 tr i e Rc -> H X I. cbn [step] in H. destruct (get_bus st b) as [x|] eqn:G; [|discriminate].
  set (i := length (s_flights st)) in *.
  assert (((nth_error (s_flights st1) i = Some (FlyBus b m) /\ ~ detached b st) \/ nth_error (s_flights st1) i = Some FlyDone) /\
          forall e0, ~ In (Throw e0) (returned i evs)) as (Q & NT).
  { unfold test_bus_fn in H. rewrite G in H. destruct (b_fn x) as [t|] eqn:F; injection H as <- <-; simpl; unfold i; rewrite nth_snoc_new, ?Nat.eqb_refl.
    - split; [left; split; auto; intros (z & Gz & Fz); congruence|intros e0 []].
    - split; auto. intros e0 [J|[]]. discriminate. }
  rewrite returned_app in I. apply in_app_iff in I. destruct I as [I|I]; [now apply NT in I|].
  clear H G NT. revert st1 tr X Q I. induction ls as [|l ls IH]; intros st1 tr X Q I.
  - simpl in X. injection X as <- <-. contradiction.
  - apply exec_cons_inv in X. destruct X as (s1 & e1 & e2 & H1 & H2 & ->). rewrite returned_app in I. apply in_app_iff in I.
    destruct Q as [(N & A)|N].
    + destruct (step_flight _ _ _ _ _ _ H1 N) as [->|(N' & _ & E)].
      * pose proof (nth_error_Some_lt _ _ _ N) as L.
        destruct (fly_inv _ _ _ _ H1) as [(p0 & d0 & xp & y0 & m0 & N0 & _)|[(p0 & d0 & xp & N0 & _)|(b0 & m0 & y0 & N0 & Gy & C)]]; [congruence|congruence|].
        rewrite N in N0; injection N0 as <- <-.
        destruct C as [(Fn & E1 & ->)|[(g & Fn & E1 & ->)|[(r0 & z & Fn & Gz & E1 & ->)|(r0 & Fn & Gz & E1 & ->)]]];
          destruct I as [I|I]; try (apply (IH s1 e2 H2); auto; right; rewrite E1; simpl; now rewrite list_set_eq by auto);
          simpl in I; rewrite Nat.eqb_refl in I; destruct I as [I|[]]; try discriminate.
        injection I as <-. split; auto. split; auto.
        assert (detached b s1) as D1 by (rewrite E1; exists y0; auto).
        clear - D1 H2. revert s1 e2 D1 H2. induction ls as [|l ls IH]; intros s1 e2 D X.
        -- simpl in X. now injection X as <- <-.
        -- apply exec_cons_inv in X. destruct X as (s2 & f1 & f2 & A1 & A2 & ->). apply (IH s2 f2); auto. eapply detached_step; eauto.
      * rewrite E in I. destruct I as [[]|I]. apply (IH s1 e2 H2); auto.
    + destruct (step_flight _ _ _ _ _ _ H1 N) as [->|(N' & _ & E)].
      * exfalso. destruct (fly_inv _ _ _ _ H1) as [(p0 & d0 & xp & y0 & m0 & N0 & _)|[(p0 & d0 & xp & N0 & _)|(b0 & m0 & y0 & N0 & _)]]; congruence.
      * rewrite E in I. destruct I as [[]|I]. apply (IH s1 e2 H2); auto.
Qed.
Print Assumptions C33_direct.

(** DeletePublisher right after the test in Publisher::Publish, Publisher.cpp:22. *)
Theorem C33_delete_window : forall st p y b x d i,
  nth_error (s_pubs st) p = Some y -> p_fn y = true -> get_bus st b = Some x -> i = length (s_flights st) ->
  exists st', exec [LPublish p d; LDelPub b p; LFly i] st = Some (st', [EvRes (Ok RNone); EvFlight i (Throw BadFunctionCall)]).
Proof.
  intros st p y b x d i N F G ->. eexists. cbn [exec step]. unfold begin_publish. rewrite N, F. rewrite get_set_flights, G. cbn [s_pubs set_flights].
  rewrite N. unfold ok, fly_step. cbn [s_flights set_flights set_pubs set_bus]. rewrite nth_snoc_new. cbn [s_pubs set_pubs].
  rewrite list_set_eq by (eapply nth_error_Some_lt; eauto). reflexivity.
Qed.
Print Assumptions C33_delete_window.

(** Detach right after the test in Bus::Publish, Bus.cpp:101. *)
Theorem C33_detach_window : forall st p y x t d i,
  nth_error (s_pubs st) p = Some y -> p_fn y = true -> get_bus st (p_bus y) = Some x -> b_fn x = Some t -> i = length (s_flights st) ->
  exists st', exec [LPublish p d; LFly i; LDetach (p_bus y); LFly i] st = Some (st', [EvFlight i (Throw BadFunctionCall)]).
Proof.
  intros st p y x t d i N F G Ft ->. eexists. cbn [exec step]. unfold begin_publish. rewrite N, F. unfold fly_step at 1.
  cbn [s_flights set_flights]. rewrite nth_snoc_new. cbn [s_pubs set_flights]. rewrite N, F. rewrite get_set_flights, G.
  unfold test_bus_fn at 1. rewrite get_set_flights, G, Ft. rewrite get_set_flights, get_set_flights, G.
  unfold fly_step. cbn [s_flights set_flights set_detaches set_bus]. rewrite list_set_eq by (rewrite app_length; simpl; lia).
  rewrite get_set_detaches, get_set, Nat.eqb_refl, !get_set_flights, G. cbn [b_fn with_fn]. reflexivity.
Qed.
Print Assumptions C33_detach_window.

Example C33_case : exists st tr y x,
  exec ex_setup init = Some (st, tr) /\ nth_error (s_pubs st) 0 = Some y /\ p_fn y = true /\ get_bus st (p_bus y) = Some x /\ b_fn x = Some (ToQueue 0).
Proof. do 4 eexists. split; [vm_compute; reflexivity|]. split; [vm_compute; reflexivity|]. split; [reflexivity|]. split; vm_compute; reflexivity. Qed.

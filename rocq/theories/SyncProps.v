(** C74, C75: the synchronous Request on the bus. *)
From Coq Require Import String List Arith Bool Lia ZArith.
From Verif Require Import Prelude OMap DatagramModel DatagramSpec BusModel BusSpec BusProofs BusTree BusLocks BusLocks2 BusLocks3 BusAccount BusOnce.
From Verif Require Import BusDeliveryProps BusLockProps ActionSpec ActionProofs ActionProps RequestModel RequestProps SyncModel SyncSpec SyncProofs.
Import ListNotations.
Open Scope list_scope.

(** * C74: Request from within a callback of the bus *)

(** While a bus thread is inside a callback it begins and ends no distribution, delivers nothing and calls nobody, and
    the response subscriber of a consumer is called by the thread of its own root bus only. *)
Theorem C74_silent : forall st r b k ls st' tr,
  reach st -> calling st r b k -> exec ls st = Some (st', tr) -> still_inside r ls ->
  (forall m, ~ In (EvBegin r m) tr /\ ~ In (EvEnd r m) tr) /\
  (forall b' s m, ~ In (EvReceive r b' s m) tr) /\
  (forall s m k', ~ In (EvInvoke r s m k') tr) /\
  (forall c, consumer_under st r c -> answered c tr = []).
Proof.
  intros st r b k ls st' tr Rc C X F. pose proof (inside_silent _ _ _ _ _ _ _ Rc C X F) as Si.
  split; [intros m; split; intros I; exact (Si _ I eq_refl)|]. split; [intros b' s m I; exact (Si _ I eq_refl)|]. split; [intros s m k' I; exact (Si _ I eq_refl)|].
  intros c (y & b' & x & Ny & G & I & B). destruct (answered c tr) as [|p l] eqn:E; auto. exfalso.
  assert (In p (answered c tr)) as J by (rewrite E; now left). unfold answered in J. apply in_flat_map in J as (e & J & J2).
  destruct e; try contradiction. destruct c0; try contradiction. destruct (Nat.eqb_spec c0 c) as [->|]; [|contradiction].
  pose proof (home_intro _ _ _ _ _ _ Rc Ny G I B) as Ho. destruct C as (x0 & m0 & ss & stk & rest & G0 & R0).
  assert (b_root x0 = true) as Rx by (eapply (t_runner _ (reach_tree _ Rc)); eauto; rewrite R0; discriminate).
  pose proof (home_invoke r c x0 ls st st' tr _ _ _ _ _ _ Rc Ho G0 Rx X J) as ->. exact (Si _ J eq_refl).
Qed.
Print Assumptions C74_silent.

(** So a Request made inside a callback, with a consumer on the same tree of buses, sits out its timeout and returns an
    empty datagram, whoever responds in the meantime. It leaves its request open. *)
Theorem C74_empty : forall k js j j' tr r b kk,
  before k j -> calling (j_bus j) r b kk -> consumer_under (j_bus j) r (k_c k) ->
  jexec k js j = Some (j', tr) -> still_inside r (bus_labels js) ->
  j_q j' <> QUndef /\
  (forall v, In (JQ (QeReturn v)) tr -> v = Emp /\ In (JLocal QTimeout) js) /\
  (In (k_id k, k_u k) (requests (k_c k) (bus_of tr)) ->
     (forall d v, In (JBus (LRequest (k_c k) (k_id k) d (Some v))) js -> v = k_u k) -> unanswered (k_c k) (k_id k) (k_u k) (j_bus j')).
Proof.
  intros k js j j' tr r b kk (Rc & Q0 & NC) Ca Un X F.
  pose proof (bus_proj _ _ _ _ _ X) as Xb. destruct (C74_silent _ _ _ _ _ _ _ Rc Ca Xb F) as (_ & _ & _ & An). specialize (An _ Un).
  assert (forall id u d r0 s m, ~ In (EvInvoke r0 s m (CallRequest (k_c k) id u d)) (bus_of tr)) as NI.
  { intros id u d r0 s m I. assert (In (id, u) (answered (k_c k) (bus_of tr))) as J; [|rewrite An in J; contradiction].
    unfold answered. apply in_flat_map. eexists. split; [exact I|]. simpl. rewrite Nat.eqb_refl. now left. }
  assert (calls k (bus_of tr) = []) as Nc by (apply calls_nil; intros; apply NI).
  destruct (req_proj _ _ _ _ _ X) as (qls & Q & T & En). rewrite Nc in En. rewrite Q0 in Q.
  destruct (no_call_timeout _ _ _ Q En) as (q & Eq & C0 & Wt & To). split; [rewrite Eq; discriminate|]. split.
  - intros v I. assert (In (QeReturn v) (req_of tr)) as Ir. { unfold req_of. apply in_flat_map. eexists. split; [exact I|now left]. }
    split; [|apply T, To; eauto]. destruct (in_split _ _ Ir) as (ta & tb & Et). rewrite Et in Q, En. rewrite entered_app in En. apply app_eq_nil in En as (En & _).
    eapply C39_none; eauto.
  - intros Rq Nu. split.
    + assert (forall d v, In (LRequest (k_c k) (k_id k) d (Some v)) (bus_labels js) -> v = k_u k) as Nu'.
      { intros d v I. unfold bus_labels in I. apply in_flat_map in I as (l & I & J). destruct l; [|contradiction]. destruct J as [->|[]]. eauto. }
      assert (forall r0 b0 u d, calling (j_bus j) r0 b0 (CallRequest (k_c k) (k_id k) u d) -> False) as NC' by (intros; eapply NC; eauto).
      clear - Xb Rc Rq Nu' NI NC'. revert Xb Rc Rq Nu' NI NC'. generalize (bus_labels js), (j_bus j), (bus_of tr). intros ls st tr0.
      assert (forall ls st tr0, exec ls st = Some (j_bus j', tr0) -> reach st ->
        (forall d v, In (LRequest (k_c k) (k_id k) d (Some v)) ls -> v = k_u k) ->
        (forall id u d r0 s m, ~ In (EvInvoke r0 s m (CallRequest (k_c k) id u d)) tr0) ->
        (forall r0 b0 u d, calling st r0 b0 (CallRequest (k_c k) (k_id k) u d) -> False) ->
        open_request st (k_c k) (k_id k) (k_u k) \/ In (k_id k, k_u k) (requests (k_c k) tr0) -> open_request (j_bus j') (k_c k) (k_id k) (k_u k)) as Main.
      { clear. intros ls. induction ls as [|l ls IH]; intros st tr X Rc Nu NI NC Hy; [simpl in X; injection X as <- <-; destruct Hy as [|[]]; auto|].
        apply exec_cons_inv in X. destruct X as (s1 & e1 & e2 & H1 & H2 & ->).
        apply (IH s1 e2); auto.
        - eapply reach_step; eauto.
        - intros d v I. eapply Nu. right; eauto.
        - intros id u d r0 s m I. eapply NI. apply in_app_iff. right. eauto.
        - intros r0 b0 u d C. destruct (calling_back _ _ _ _ _ _ _ Rc H1 C) as [(C0 & _)|(s & m & -> & ->)]; [eauto|].
          eapply NI. right. left. reflexivity.
        - rewrite requests_app, in_app_iff in Hy.
          assert (open_request st (k_c k) (k_id k) (k_u k) -> open_request s1 (k_c k) (k_id k) (k_u k)) as Keep.
          { intros O. destruct (C36_stays_open _ _ _ _ _ _ _ Rc O H1) as [O1|[(d & v & ->)|(r0 & b0 & v & d & _ & C)]]; auto; [|exfalso; eauto].
            assert (v = k_u k) as -> by (eapply Nu; now left). apply (C41_registers _ _ _ _ _ _ _ Rc H1). auto. }
          destruct Hy as [O|[O|O]]; auto. left. unfold requests in O. apply in_flat_map in O as (e & I & J). destruct e; try contradiction.
          destruct (Nat.eqb_spec c (k_c k)) as [->|]; [|contradiction]. destruct J as [J|[]]. injection J as -> ->.
          assert (exists d0, l = LRequest (k_c k) (k_id k) d0 (Some (k_u k))) as (d0 & ->).
          { destruct (step_requests l st s1 e1 (k_c k) H1) as [(id & d0 & u & El & Er)|(Er & _)].
            - assert (In (k_id k, k_u k) (requests (k_c k) e1)) as J.
              { unfold requests. apply in_flat_map. eexists. split; [exact I|]. simpl. rewrite Nat.eqb_refl. now left. }
              rewrite Er in J. destruct J as [J|[]]. injection J as <- <-. eauto.
            - assert (In (k_id k, k_u k) (requests (k_c k) e1)) as J.
              { unfold requests. apply in_flat_map. eexists. split; [exact I|]. simpl. rewrite Nat.eqb_refl. now left. }
              rewrite Er in J. contradiction. }
          apply (C41_registers _ _ _ _ _ _ _ Rc H1). auto. }
      intros Xb Rc Rq Nu' NI NC'. eapply Main; eauto.
    + intros r0 b0 v d C.
      assert (forall ls st tr0, exec ls st = Some (j_bus j', tr0) -> reach st ->
        (forall id u d r0 s m, ~ In (EvInvoke r0 s m (CallRequest (k_c k) id u d)) tr0) ->
        (forall r0 b0 u d, ~ calling st r0 b0 (CallRequest (k_c k) (k_id k) u d)) -> False) as Main; [|exact (Main _ _ _ Xb Rc NI NC)].
      clear - C. intros ls. induction ls as [|l ls IH]; intros st tr X Rc NI NC; [simpl in X; injection X as -> <-; eapply NC; eauto|].
      apply exec_cons_inv in X. destruct X as (s1 & e1 & e2 & H1 & H2 & ->). apply (IH s1 e2); auto.
      * eapply reach_step; eauto.
      * intros id u d0 r1 s m I. eapply NI. apply in_app_iff. right. eauto.
      * intros r1 b1 u d0 C1. destruct (calling_back _ _ _ _ _ _ _ Rc H1 C1) as [(C0 & _)|(s & m & -> & ->)]; [eapply NC; eauto|].
        eapply NI. right. left. reflexivity.
Qed.
Print Assumptions C74_empty.

(** Nothing takes that request back. Once Request is over, distributing a response to it never comes to a defined end:
    the lambda is called, and the only step it has is one on locals that are gone. *)
Theorem C74_dangling : forall k js1 js2 j j1 j2 t1 t2 ta tb r b s m d,
  before k j -> jexec k js1 j = Some (j1, t1) -> q_over (req_of t1) ->
  unanswered (k_c k) (k_id k) (k_u k) (j_bus j1) ->
  jexec k js2 j1 = Some (j2, t2) -> bus_of t2 = ta ++ EvBegin r m :: tb ->
  always (fun st => serving r b s st /\ consumer_on st (k_c k) s) (bus_labels js2) (j_bus j1) ->
  (forall d v, ~ In (LRequest (k_c k) (k_id k) d (Some v)) (bus_labels js2)) ->
  answer (bm_data (snd m)) (k_id k) d ->
  (exists y, nth_error (s_subs (j_bus j1)) s = Some y /\ s_topic y = bm_topic (snd m)) ->
  ~ In (EvEnd r m) tb.
Proof.
  intros k js1 js2 j j1 j2 t1 t2 ta tb r b s m d (Rc & Q0 & NC) X1 Ov Un X2 Et Al NR An Tp Ie.
  assert (reach (j_bus j1)) as Rc1 by (eapply jexec_reach; eauto).
  assert (linked k j) as L0. { unfold linked. rewrite Q0. simpl. intros r0 b0 d0. apply NC. }
  pose proof (linked_exec _ _ _ _ _ Rc L0 X1) as L1.
  destruct (in_split _ _ Ie) as (tc & td & ->).
  (* the joint step that ends the distribution *)
  assert (exists ya yb, t2 = ya ++ JB (EvEnd r m) :: yb /\ bus_of ya = ta ++ EvBegin r m :: tc) as (ya & yb & -> & Ey).
  { assert (forall t l1 e l2, bus_of t = l1 ++ e :: l2 -> exists ya yb, t = ya ++ JB e :: yb /\ bus_of ya = l1) as Sp.
    { clear. induction t as [|a t IH]; intros l1 e l2 E; [destruct l1; discriminate|]. destruct a as [a|a]; simpl in E.
      - destruct l1 as [|x l1]; injection E as -> E; [exists [], t; auto|]. destruct (IH _ _ _ E) as (ya & yb & -> & <-). exists (JB x :: ya), yb. auto.
      - destruct (IH _ _ _ E) as (ya & yb & -> & <-). exists (JQ a :: ya), yb. auto. }
    apply (Sp t2 (ta ++ EvBegin r m :: tc) _ td). rewrite Et, <- app_assoc. reflexivity. }
  destruct (jevent_point _ _ _ _ _ _ _ X2) as (ls1 & l & ls2 & j3 & j4 & u1 & e1 & e2 & u2 & -> & Y1 & S & Y2 & Eya & _).
  destruct (jstep_inv _ _ _ _ _ S) as ((q3 & Eq3) & [(l0 & evs & qe & -> & _ & St & _ & _ & E)|(l0 & qe & -> & _ & _ & _ & _ & E)]).
  2:{ assert (In (JB (EvEnd r m)) (map JQ qe)) as I by (rewrite <- E; apply in_app_iff; right; now left). apply in_map_iff in I as (? & I & _). discriminate. }
  assert (In (EvEnd r m) evs) as I.
  { assert (In (JB (EvEnd r m)) (map JB evs ++ map JQ qe)) as I by (rewrite <- E; apply in_app_iff; right; now left).
    apply in_app_iff in I as [I|I]; apply in_map_iff in I as (z & Ez & I); [injection Ez as ->; auto|discriminate]. }
  assert (reach (j_bus j3)) as Rc3 by (eapply jexec_reach; eauto).
  destruct (end_inv _ _ _ _ _ _ St I) as (-> & -> & x & rest & x' & G & R & _).
  assert (e1 = []) as ->. { destruct e1 as [|a e1]; auto. simpl in E. injection E as -> E. exfalso.
    assert (In (JB (EvEnd r m)) (map JQ qe)) as J by (rewrite <- E; apply in_app_iff; right; now left). apply in_map_iff in J as (? & J & _). discriminate. }
  rewrite app_nil_r in Eya. subst u1.
  (* the request has been answered by then *)
  pose proof (bus_proj _ _ _ _ _ Y1) as B1. rewrite bus_labels_app in *. cbn [bus_labels flat_map] in *. fold (bus_labels ls2) in *.
  assert (calls k (bus_of ya) <> []) as NE.
  { assert (exec (bus_labels ls1 ++ [LRun r]) (j_bus j1) = Some (j_bus j4, ta ++ EvBegin r m :: (tc ++ [EvEnd r m]))) as Xe.
    { rewrite exec_app, B1. cbn [exec]. rewrite St, Ey. simpl. rewrite <- app_assoc. reflexivity. }
    assert (In (k_id k, k_u k) (answered (k_c k) (ta ++ EvBegin r m :: (tc ++ [EvEnd r m])))) as A.
    { apply (answered_begun _ _ _ _ _ _ _ b _ s _ _ d Rc1 Xe); auto.
      - apply always_prefix with (ls2 := bus_labels ls2). rewrite <- app_assoc. exact Al.
      - intros d0 v J. apply in_app_iff in J as [J|[J|[]]]; [|discriminate]. apply (NR d0 v). apply in_app_iff. auto.
      - apply in_app_iff. right. now left. }
    apply calls_answered. rewrite Ey. rewrite app_comm_cons, app_assoc, answered_app in A. apply in_app_iff in A as [A|[]]. exact A. }
  (* so the lambda is stuck on the thread of r *)
  destruct (req_proj _ _ _ _ _ X1) as (qa & Qa & _). rewrite Q0 in Qa. destruct (req_proj _ _ _ _ _ Y1) as (qb & Qb & _ & En). rewrite Eq3 in Qb.
  destruct (j_q j1) as [q1|] eqn:Eq1; [|destruct qb; discriminate].
  assert (q_w q1 = WLeft) as W1 by (apply (q_ok_all _ _ _ Qa); exact Ov).
  assert (q_c q1 = CIdle) as C1.
  { unfold linked in L1. rewrite Eq1 in L1. destruct (q_c q1) eqn:C; auto; destruct L1 as (r0 & b0 & La); exfalso; eapply (proj2 Un); exact La. }
  destruct (over_stuck _ _ _ _ W1 (or_introl C1) Qb) as (_ & [(_ & _ & E0)|(d3 & C3)]); [rewrite E0 in En; congruence|].
  pose proof (linked_exec _ _ _ _ _ Rc1 L1 Y1) as L3. unfold linked in L3. rewrite Eq3, C3 in L3. destruct L3 as (r3 & b3 & La).
  assert (consumer_under (j_bus j1) r (k_c k)) as (y & b' & xb & Ny & Gb & Ib & Bb).
  { destruct (always_here _ _ _ Al) as (((xb & Gb & Ib) & Bb & _) & (y & q & Ny & Es & _)). exists y, b, xb. subst s. auto. }
  pose proof (home_exec _ _ _ _ _ _ (home_intro _ _ _ _ _ _ Rc1 Ny Gb Ib Bb) B1) as Ho.
  assert (b_root x = true) as Rx by (eapply (t_runner _ (reach_tree _ Rc3)); eauto; rewrite R; discriminate).
  pose proof (home_calling _ _ _ _ _ _ _ _ _ Rc3 Ho G Rx La) as ->. destruct La as (x3 & m3 & ss & stk & rest3 & G3 & R3). congruence.
Qed.
Print Assumptions C74_dangling.

(** Once such a response reaches the consumer's subscriber, undefined behaviour is the only thing left for the bus
    thread to do. *)
Theorem C74_called : forall k js1 js2 j j1 j2 t1 t2 r b s m d,
  before k j -> jexec k js1 j = Some (j1, t1) -> q_over (req_of t1) ->
  unanswered (k_c k) (k_id k) (k_u k) (j_bus j1) ->
  jexec k js2 j1 = Some (j2, t2) ->
  always (fun st => serving r b s st /\ consumer_on st (k_c k) s) (bus_labels js2) (j_bus j1) ->
  (forall d v, ~ In (LRequest (k_c k) (k_id k) d (Some v)) (bus_labels js2)) ->
  In (EvReceive r b s m) (bus_of t2) -> answer (bm_data (snd m)) (k_id k) d ->
  j_q j2 = QUndef \/
  (exists j3, jstep k (JLocal QTest) j2 = Some (j3, []) /\ j_q j3 = QUndef) /\
  jstep k (JBus (LRun r)) j2 = None /\ jstep k (JBus (LReturn r)) j2 = None /\ (forall e, jstep k (JBus (LThrow r e)) j2 = None).
Proof.
  intros k js1 js2 j j1 j2 t1 t2 r b s m d (Rc & Q0 & NC) X1 Ov Un X2 Al NR Ir An.
  destruct (j_q j2) as [q2|] eqn:Eq2; [|now left]. right.
  assert (reach (j_bus j1)) as Rc1 by (eapply jexec_reach; eauto). assert (reach (j_bus j2)) as Rc2 by (eapply jexec_reach; eauto).
  assert (linked k j) as L0. { unfold linked. rewrite Q0. simpl. intros r0 b0 d0. apply NC. }
  pose proof (linked_exec _ _ _ _ _ Rc L0 X1) as L1. pose proof (bus_proj _ _ _ _ _ X2) as B2.
  assert (calls k (bus_of t2) <> []) as NE.
  { apply calls_answered. apply (answered_received (k_c k) s (k_id k) (k_u k) d r b m _ _ _ _ Rc1 B2 Un); auto.
    clear - Al. revert Al. generalize (j_bus j1). induction (bus_labels js2) as [|l ls IH]; intros st Al; simpl in *; [tauto|].
    destruct Al as ((_ & A) & B). split; auto. destruct (step l st) as [[s1 e1]|]; auto. }
  destruct (req_proj _ _ _ _ _ X1) as (qa & Qa & _). rewrite Q0 in Qa. destruct (req_proj _ _ _ _ _ X2) as (qb & Qb & _ & En). rewrite Eq2 in Qb.
  destruct (j_q j1) as [q1|] eqn:Eq1; [|destruct qb; discriminate].
  assert (q_w q1 = WLeft) as W1 by (apply (q_ok_all _ _ _ Qa); exact Ov).
  assert (q_c q1 = CIdle) as C1.
  { unfold linked in L1. rewrite Eq1 in L1. destruct (q_c q1) eqn:C; auto; destruct L1 as (r0 & b0 & La); exfalso; eapply (proj2 Un); exact La. }
  destruct (over_stuck _ _ _ _ W1 (or_introl C1) Qb) as (W2 & [(_ & _ & E0)|(d3 & C3)]); [rewrite E0 in En; congruence|].
  pose proof (linked_exec _ _ _ _ _ Rc1 L1 X2) as L3. unfold linked in L3. rewrite Eq2, C3 in L3. destruct L3 as (r3 & b3 & La).
  assert (consumer_under (j_bus j1) r (k_c k)) as (y & b' & xb & Ny & Gb & Ib & Bb).
  { destruct (always_here _ _ _ Al) as (((xb & Gb & Ib) & Bb & _) & (y & q & Ny & Es & _)). exists y, b, xb. subst s. auto. }
  pose proof (home_exec _ _ _ _ _ _ (home_intro _ _ _ _ _ _ Rc1 Ny Gb Ib Bb) B2) as Ho.
  assert (exists x, get_bus (j_bus j2) r = Some x /\ b_root x = true) as (x & G & Rx).
  { destruct (in_split _ _ Ir) as (ta & tb & Et). rewrite Et in B2.
    destruct (event_point _ _ _ _ _ _ B2) as (l1 & l & l2 & sa & sb & ua & e1 & e2 & ub & _ & Xa & St & Xb & _).
    assert (In (EvReceive r b s m) (e1 ++ EvReceive r b s m :: e2)) as I by (apply in_app_iff; right; now left).
    destruct (receive_inv _ _ _ _ _ _ _ _ St I) as (x0 & ss0 & stk0 & rest0 & y0 & _ & G0 & R0 & _).
    assert (reach sa) as Rca by exact (reach_exec _ _ _ _ Rc1 Xa).
    assert (b_root x0 = true) as Rx0 by (eapply (t_runner _ (reach_tree _ Rca)); eauto; rewrite R0; discriminate).
    destruct (step_delta _ _ _ _ _ _ St G0) as (xb' & Gb' & D). pose proof (d_root _ _ _ _ _ _ D) as Rb. rewrite Rx0 in Rb.
    clear - Xb Gb' Rb. revert sb xb' ub Gb' Rb Xb. induction l2 as [|l l2 IH]; intros sb xb' ub Gb' Rb Xb; [simpl in Xb; injection Xb as <- <-; eauto|].
    apply exec_cons_inv in Xb. destruct Xb as (s1 & f1 & f2 & H1 & H2 & _). destruct (step_delta _ _ _ _ _ _ H1 Gb') as (x1 & G1 & D).
    apply (IH s1 x1 f2 G1); auto. rewrite (d_root _ _ _ _ _ _ D). exact Rb. }
  pose proof (home_calling _ _ _ _ _ _ _ _ _ Rc2 Ho G Rx La) as ->.
  assert (in_lambda k (j_bus j2) r = true) as IL by (apply in_lambda_iff; eauto).
  split; [|split; [|split]].
  - unfold jstep. rewrite Eq2. destruct q2 as [w c rg wt rs]; simpl in *. subst w c. simpl. eexists. split; reflexivity.
  - unfold jstep. rewrite Eq2. simpl. destruct La as (x3 & m3 & ss & stk & rest3 & G3 & R3). unfold run_step. rewrite G3, R3. simpl. destruct ss; reflexivity.
  - unfold jstep. rewrite Eq2. simpl. destruct (return_step r (j_bus j2)) as [[st' evs]|]; [|reflexivity]. rewrite IL. cbn [app qexec].
    destruct q2 as [w c rg wt rs]; simpl in *. subst w c. reflexivity.
  - intros e. unfold jstep. rewrite Eq2. simpl. rewrite IL. reflexivity.
Qed.
Print Assumptions C74_called.

(** * C75: from response to return value *)

(** What Request returns is empty or the payload of a message with its id that a root bus accepted before; that message
    was sent by Respond, unless somebody published it by hand. *)
Theorem C75_source : forall k js j' ta v tb,
  jexec k js jinit = Some (j', ta ++ JQ (QeReturn v) :: tb) ->
  v = Emp \/
  exists r m, In m (accepted r (bus_of ta)) /\ answer (bm_data (snd m)) (k_id k) v /\
    ((exists p, In (LRespond p (k_id k) v) (bus_labels js)) \/ published (bus_labels js) (snd m)).
Proof.
  intros k js j' ta v tb X. destruct (return_point _ _ _ _ _ _ _ X) as (ls1 & ls2 & j1 & j2 & -> & X1 & S & X2).
  destruct (req_proj _ _ _ _ _ X) as (qls & Q & _). destruct (req_proj _ _ _ _ _ X1) as (_ & _ & _ & En).
  rewrite req_of_app in Q. cbn [req_of flat_map] in Q. fold (req_of tb) in Q. simpl in Q.
  destruct (C39_never_another _ _ _ _ _ Q) as [->|(ds & E)]; auto. right. rewrite En in E.
  assert (In v (calls k (bus_of ta))) as I by (rewrite E; now left). apply calls_in in I as (r & s & m & I).
  destruct (in_split _ _ I) as (tc & td & Et). pose proof (bus_proj _ _ _ _ _ X1) as B. rewrite Et in B.
  destruct (C34_correlated _ _ _ _ _ _ _ _ _ _ _ B) as (_ & An & Ac & _ & Src). exists r, m. split.
  { rewrite Et, accepted_app. apply in_app_iff. auto. }
  split; auto. rewrite bus_labels_app. destruct Src as [(p & J)|[(p & J)|(b & J)]].
  - left. exists p. apply in_app_iff. auto.
  - right. left. exists p. apply in_app_iff. auto.
  - right. right. exists b. apply in_app_iff. auto.
Qed.
Print Assumptions C75_source.

(** Only messages on its own topic reach the callbacks of a consumer. *)
Lemma topic_exec ls : forall st st' tr s q, exec ls st = Some (st', tr) -> nth_error (s_subs st) s = Some q -> exists q', nth_error (s_subs st') s = Some q' /\ s_topic q' = s_topic q.
Proof.
  induction ls as [|l ls IH]; intros st st' tr s q X N; [simpl in X; injection X as <- <-; eauto|].
  apply exec_cons_inv in X. destruct X as (s1 & e1 & e2 & H1 & H2 & _). destruct (step_sub _ _ _ _ _ _ H1 N) as (q1 & N1 & T1 & _).
  destruct (IH _ _ _ _ _ H2 N1) as (q2 & N2 & T2). exists q2. split; auto. congruence.
Qed.
Lemma invoke_topic ls st ta tb r s m c id u d : exec ls init = Some (st, ta ++ EvInvoke r s m (CallRequest c id u d) :: tb) ->
  exists y q, nth_error (s_conss st) c = Some y /\ co_sub y = s /\ nth_error (s_subs st) s = Some q /\ s_topic q = bm_topic (snd m).
Proof.
  intros X. destruct (invoke_point _ _ _ _ _ _ _ _ X) as (ls1 & ls2 & st1 & st2 & tr1 & tr2 & b & x & q & -> & X1 & H & X2 & -> & G & R & Nq & Ac & Rv).
  assert (reach st1) as Rc by (exists ls1, tr1; auto).
  destruct (receive_request _ _ _ _ _ _ _ Rv) as (q' & y & Nq' & Ecb & Ny & _). assert (q' = q) as -> by congruence.
  destruct (w_ccb _ (reach_wired _ Rc) _ _ _ Nq Ecb) as (y1 & Ny1 & Es). assert (y1 = y) as -> by congruence.
  destruct (step_cons _ _ _ _ _ _ H Ny) as (y2 & Ny2 & E2 & _). destruct (cons_exec _ _ _ _ _ _ X2 Ny2) as (y3 & N3 & E3 & _).
  destruct (step_sub _ _ _ _ _ _ H Nq) as (q1 & Nq1 & Tq1 & _). destruct (topic_exec _ _ _ _ _ _ X2 Nq1) as (q2 & Nq2 & Tq2).
  exists y3, q2. split; auto. split; [congruence|]. split; auto. rewrite Tq2, Tq1. destruct Ac as [Ac|Ac]; auto. exfalso.
  destruct (w_cons _ (reach_wired _ Rc) _ _ Ny) as (_ & t & q0 & z & N0 & T0 & _). rewrite Es in N0. assert (q0 = q) as -> by congruence. rewrite T0 in Ac. now apply response_not_all in Ac.
Qed.

(** If a response to the request has been distributed from beginning to end while Request waits, and no response with
    another payload was ever sent under that id on that topic, Request returns that payload. *)
Theorem C75_answered : forall k js1 js2 js3 j1 j2 j3 t1 t2 t3 ta tb r b s m d v,
  jexec k js1 jinit = Some (j1, t1) -> unanswered (k_c k) (k_id k) (k_u k) (j_bus j1) ->
  jexec k js2 j1 = Some (j2, t2) -> bus_of t2 = ta ++ EvBegin r m :: tb -> In (EvEnd r m) tb ->
  always (fun st => serving r b s st /\ consumer_on st (k_c k) s) (bus_labels js2) (j_bus j1) ->
  (forall d v, ~ In (LRequest (k_c k) (k_id k) d (Some v)) (bus_labels js2)) ->
  answer (bm_data (snd m)) (k_id k) d ->
  (exists y, nth_error (s_subs (j_bus j1)) s = Some y /\ s_topic y = bm_topic (snd m)) ->
  (forall r' m' d', In m' (accepted r' (bus_of (t1 ++ t2))) -> bm_topic (snd m') = bm_topic (snd m) -> answer (bm_data (snd m')) (k_id k) d' -> d' = d) ->
  jexec k js3 j2 = Some (j3, t3) -> In (JQ (QeReturn v)) t3 -> v = d.
Proof.
  intros k js1 js2 js3 j1 j2 j3 t1 t2 t3 ta tb r b s m d v X1 Un X2 Et Ie Al NR An Tp Uq X3 Iv.
  assert (reach (j_bus jinit)) as Rc0 by apply reach_init.
  assert (reach (j_bus j1)) as Rc1 by (eapply jexec_reach; eauto).
  pose proof (linked_exec _ _ _ _ _ Rc0 (linked_init k) X1) as L1.
  destruct (in_split _ _ Ie) as (tc & td & ->).
  assert (exists ya yb, t2 = ya ++ JB (EvEnd r m) :: yb /\ bus_of ya = ta ++ EvBegin r m :: tc) as (ya & yb & -> & Ey).
  { assert (forall t l1 e l2, bus_of t = l1 ++ e :: l2 -> exists ya yb, t = ya ++ JB e :: yb /\ bus_of ya = l1) as Sp.
    { clear. induction t as [|a t IH]; intros l1 e l2 E; [destruct l1; discriminate|]. destruct a as [a|a]; simpl in E.
      - destruct l1 as [|x l1]; injection E as -> E; [exists [], t; auto|]. destruct (IH _ _ _ E) as (ya & yb & -> & <-). exists (JB x :: ya), yb. auto.
      - destruct (IH _ _ _ E) as (ya & yb & -> & <-). exists (JQ a :: ya), yb. auto. }
    apply (Sp t2 (ta ++ EvBegin r m :: tc) _ td). rewrite Et, <- app_assoc. reflexivity. }
  destruct (jevent_point _ _ _ _ _ _ _ X2) as (ls1 & l & ls2 & ja & jb & u1 & e1 & e2 & u2 & -> & Y1 & S & Y2 & Eya & Eyb).
  destruct (jstep_inv _ _ _ _ _ S) as ((qa & Eqa) & [(l0 & evs & qe & -> & _ & St & _ & _ & E)|(l0 & qe & -> & _ & _ & _ & _ & E)]).
  2:{ assert (In (JB (EvEnd r m)) (map JQ qe)) as I by (rewrite <- E; apply in_app_iff; right; now left). apply in_map_iff in I as (? & I & _). discriminate. }
  assert (In (EvEnd r m) evs) as I.
  { assert (In (JB (EvEnd r m)) (map JB evs ++ map JQ qe)) as I by (rewrite <- E; apply in_app_iff; right; now left).
    apply in_app_iff in I as [I|I]; apply in_map_iff in I as (z & Ez & I); [injection Ez as ->; auto|discriminate]. }
  assert (reach (j_bus ja)) as Rca by (eapply jexec_reach; eauto).
  destruct (end_inv _ _ _ _ _ _ St I) as (-> & -> & x & rest & x' & G & R & _).
  assert (e1 = []) as ->. { destruct e1 as [|a e1]; auto. simpl in E. injection E as -> E. exfalso.
    assert (In (JB (EvEnd r m)) (map JQ qe)) as J by (rewrite <- E; apply in_app_iff; right; now left). apply in_map_iff in J as (? & J & _). discriminate. }
  rewrite app_nil_r in Eya. subst u1.
  pose proof (bus_proj _ _ _ _ _ Y1) as B1. rewrite bus_labels_app in *. cbn [bus_labels flat_map] in *. fold (bus_labels ls2) in *.
  assert (calls k (bus_of ya) <> []) as NE.
  { assert (exec (bus_labels ls1 ++ [LRun r]) (j_bus j1) = Some (j_bus jb, ta ++ EvBegin r m :: (tc ++ [EvEnd r m]))) as Xe.
    { rewrite exec_app, B1. cbn [exec]. rewrite St, Ey. simpl. rewrite <- app_assoc. reflexivity. }
    assert (In (k_id k, k_u k) (answered (k_c k) (ta ++ EvBegin r m :: (tc ++ [EvEnd r m])))) as A.
    { apply (answered_begun _ _ _ _ _ _ _ b _ s _ _ d Rc1 Xe); auto.
      - apply always_prefix with (ls2 := bus_labels ls2). rewrite <- app_assoc. exact Al.
      - intros d0 v0 J. apply in_app_iff in J as [J|[J|[]]]; [|discriminate]. apply (NR d0 v0). apply in_app_iff. auto.
      - apply in_app_iff. right. now left. }
    apply calls_answered. rewrite Ey. rewrite app_comm_cons, app_assoc, answered_app in A. apply in_app_iff in A as [A|[]]. exact A. }
  (* the lambda is not running when the distribution ends *)
  assert (consumer_under (j_bus j1) r (k_c k)) as (y & b' & xb & Ny & Gb & Ib & Bb).
  { destruct (always_here _ _ _ Al) as (((xb & Gb & Ib) & Bb & _) & (y & q & Ny & Es & _)). exists y, b, xb. subst s. auto. }
  pose proof (home_exec _ _ _ _ _ _ (home_intro _ _ _ _ _ _ Rc1 Ny Gb Ib Bb) B1) as Ho.
  assert (b_root x = true) as Rx by (eapply (t_runner _ (reach_tree _ Rca)); eauto; rewrite R; discriminate).
  pose proof (linked_exec _ _ _ _ _ Rc1 L1 Y1) as La.
  assert (q_c qa = CIdle) as Ca.
  { unfold linked in La. rewrite Eqa in La. destruct (q_c qa) eqn:C; auto; destruct La as (r0 & b0 & La); exfalso;
      pose proof (home_calling _ _ _ _ _ _ _ _ _ Rca Ho G Rx La) as ->; destruct La as (x3 & m3 & ss & stk & rest3 & G3 & R3); congruence. }
  (* everything before that step *)
  assert (jexec k (js1 ++ ls1) jinit = Some (ja, t1 ++ ya)) as Z1 by (apply jexec_app; eauto 10).
  destruct (req_proj _ _ _ _ _ Z1) as (qz & Qz & _ & En). rewrite Eqa in Qz.
  destruct (q_ok_all _ _ _ Qz) as (_ & _ & Fin & _). specialize (Fin Ca).
  rewrite bus_of_app, calls_app in En.
  destruct (q_finished (req_of (t1 ++ ya))) as [|d0 ds] eqn:Ef.
  { rewrite Fin in En. symmetry in En. apply app_eq_nil in En as (_ & En). contradiction. }
  assert (d0 = d) as ->.
  { assert (In d0 (calls k (bus_of (t1 ++ ya)))) as J by (rewrite bus_of_app, calls_app, <- En, Fin; now left).
    apply calls_in in J as (r0 & s0 & m0 & J). destruct (in_split _ _ J) as (p1 & p2 & Ep). pose proof (bus_proj _ _ _ _ _ Z1) as Bz. rewrite Ep in Bz.
    destruct (C34_correlated _ _ _ _ _ _ _ _ _ _ _ Bz) as (_ & An0 & Ac & _). apply (Uq r0 m0); auto.
    2:{ destruct (invoke_topic _ _ _ _ _ _ _ _ _ _ _ Bz) as (yz & qz0 & Nyz & Esz & Nqz & Tqz). destruct Tp as (yt & Nyt & Tyt).
        destruct (always_here _ _ _ Al) as (_ & (y1 & q1 & Ny1 & Es1 & _)). destruct (cons_exec _ _ _ _ _ _ B1 Ny1) as (y2 & Ny2 & E2 & _).
        destruct (topic_exec _ _ _ _ _ _ B1 Nyt) as (q2 & Nq2 & Tq2). rewrite <- Tqz, <- Tyt, <- Tq2. congruence. }
    rewrite app_assoc, bus_of_app, Ep, !accepted_app. apply in_app_iff. left. apply in_app_iff. auto. }
  (* from there to the return *)
  destruct (in_split _ _ Iv) as (va & vb & ->).
  assert (jexec k (js1 ++ (ls1 ++ JBus (LRun r) :: ls2) ++ js3) jinit = Some (j3, (t1 ++ (ya ++ JB (EvEnd r m) :: yb) ++ va) ++ JQ (QeReturn v) :: vb)) as Z.
  { apply jexec_app. do 3 eexists. split; [exact X1|]. split; [apply jexec_app; do 3 eexists; split; [exact X2|split; [exact X3|reflexivity]]|].
    rewrite <- !app_assoc. reflexivity. }
  destruct (req_proj _ _ _ _ _ Z) as (qw & Qw & _). rewrite req_of_app in Qw. cbn [req_of flat_map] in Qw. fold (req_of vb) in Qw. simpl in Qw.
  eapply (C39_completed _ _ _ _ _ d (ds ++ q_finished (req_of ((JB (EvEnd r m) :: yb) ++ va))) Qw).
  rewrite <- app_assoc, app_assoc, req_of_app, finished_app, Ef. reflexivity.
Qed.
Print Assumptions C75_answered.

(** Request throws exactly what its publication throws, and then it does not return anything. *)
Theorem C75_failed : forall k js1 js2 d j1 j2 j3 t1 t2 t3 e,
  jexec k js1 jinit = Some (j1, t1) -> jstep k (JBus (LRequest (k_c k) (k_id k) d (Some (k_u k)))) j1 = Some (j2, t2) ->
  jexec k js2 j2 = Some (j3, t3) ->
  (In (JQ (QeThrow e)) (t1 ++ t2 ++ t3) <-> In (JB (EvFlight (length (s_flights (j_bus j1))) (Throw e))) (t2 ++ t3)) /\
  (In (JQ (QeThrow e)) (t1 ++ t2 ++ t3) -> forall v, ~ In (JQ (QeReturn v)) (t1 ++ t2 ++ t3)).
Proof.
  intros k js1 js2 d j1 j2 j3 t1 t2 t3 e X1 S X3.
  destruct (req_proj _ _ _ _ _ X1) as (q1 & Q1 & _). pose proof (q_ok_all _ _ _ Q1) as Ok1.
  destruct (jstep_inv _ _ _ _ _ S) as ((q & Eq) & [(l0 & evs & qe & El & _ & St & Ep & Q & Et)|(l0 & qe & El & _)]); [|discriminate].
  injection El as <-. unfold pub_of in Ep. rewrite same_refl in Ep. rewrite Eq in Q, Ok1.
  assert (q_w q = WRegister /\ made (length (s_flights (j_bus j1))) j2) as (W & M).
  { pose proof (request_registers k _ _ _ _ _ _ _ (j_pub j2) St (same_refl k)) as Rg. cbn [sync_label app] in Q.
    cbn [step] in St. destruct (nth_error (s_conss (j_bus j1)) (k_c k)) as [x|]; [|discriminate].
    destruct (begin_publish _ _ _) as [[st2 ev]|]; [|discriminate]. injection St as _ <-. cbn [flat_map sync_event] in Q. rewrite same_refl in Q.
    cbn [app qexec] in Q. destruct (qstep QRegister (QLive q)) as [[m1 e1]|] eqn:Sq; [|discriminate].
    destruct (qexec (flat_map _ ev) m1) as [[m2 e2]|] eqn:Sq2; [|discriminate]. injection Q as E2 _. subst m2.
    assert (q_w q = WRegister /\ m1 = QLive (mkQ WPublish (q_c q) true (q_waiting q) (q_resp q))) as (W & ->).
    { destruct q as [w c g wt rp]; destruct w; simpl in Sq; try discriminate. injection Sq as <- _. auto. }
    split; auto. split; auto. apply (registered_stays _ _ _ _ Sq2). simpl. discriminate. }
  destruct Ok1 as (Ov & _).
  assert (~ q_over (req_of t1)) as N1 by (intros O; apply Ov in O; congruence).
  assert (~ In (JQ (QeThrow e)) t1) as NT.
  { intros I. apply N1. exists (QeThrow e). split; auto. apply in_flat_map. eexists. split; [exact I|now left]. }
  split.
  - rewrite !in_app_iff, (fail_exec _ _ e _ _ _ _ M X3), (fail_step _ _ _ _ _ _ e Ep S). tauto.
  - intros I v J.
    assert (jexec k (js1 ++ JBus (LRequest (k_c k) (k_id k) d (Some (k_u k))) :: js2) jinit = Some (j3, t1 ++ t2 ++ t3)) as X.
    { apply jexec_app. do 3 eexists. split; [exact X1|]. split; [cbn [jexec]; rewrite S, X3; reflexivity|reflexivity]. }
    destruct (req_proj _ _ _ _ _ X) as (qa & Qa & _).
    assert (In (QeReturn v) (req_of (t1 ++ t2 ++ t3))) as I1 by (apply in_flat_map; eexists; split; [exact J|now left]).
    assert (In (QeThrow e) (req_of (t1 ++ t2 ++ t3))) as I2 by (apply in_flat_map; eexists; split; [exact I|now left]).
    destruct (in_split _ _ I1) as (ra & rb & Er). rewrite Er in Qa, I2.
    destruct (q_return _ _ _ _ _ Qa) as (ls1 & ls2 & st & _ & A1 & A2 & _ & _ & A3).
    apply in_app_iff in I2 as [I2|[I2|I2]]; [|discriminate|].
    + pose proof (q_ok_all _ _ _ A1) as (Oa & _). assert (q_w st = WLeft) as Wl; [|congruence]. apply Oa. exists (QeThrow e). auto.
    + eapply over_once; [exact A3|reflexivity|]. exists (QeThrow e). auto.
Qed.
Print Assumptions C75_failed.

(** * Cases *)

Definition key1 : skey := mkKey 0 "id1" 9.

(** A subscriber of "go" makes a request to a provider on the same bus. *)
Definition go_setup : list label :=
  act_setup ++ [ LSub 0 "go" (Some (Some 7)); LPub 0 "go"; LPublish 2 Emp; LFly 0; LFly 0 ] ++ repeat (LRun 0) 6.
Definition go_request : list jlabel :=
  map JBus [ LRequest 0 "id1" (Val (DInt 1)) (Some 9); LFly 1; LFly 1 ] ++ map JLocal [ QCheck; QBlock; QTimeout; QFinal; QReturn ].
(** Back from the callback: the provider gets the request and responds; the response reaches the lambda. *)
Definition go_answer : list jlabel :=
  map JBus ([ LReturn 0 ] ++ repeat (LRun 0) 9 ++ [ LRespond 0 "id1" (Val (DInt 2)); LFly 2; LFly 2; LReturn 0 ] ++ repeat (LRun 0) 12).

Lemma one_bus_calling st x : s_buses st = [x] -> match b_runner x with RDist _ _ (Some (CallRequest _ _ _ _)) _ => False | _ => True end ->
  forall r b c u d id, ~ calling st r b (CallRequest c id u d).
Proof.
  intros E H r b c u d id (y & m & ss & stk & rest & G & R). unfold get_bus in G. rewrite E in G. destruct r as [|r]; [|destruct r; discriminate].
  injection G as <-. rewrite R in H. exact H.
Qed.

Example C74_case : exists st tr0 j1 t1 j2 t2 j3,
  exec go_setup init = Some (st, tr0) /\
  before key1 (mkJ st qinit None) /\ calling st 0 0 (CallData 7 Emp) /\ consumer_under st 0 0 /\
  jexec key1 go_request (mkJ st qinit None) = Some (j1, t1) /\ still_inside 0 (bus_labels go_request) /\
  In (JQ (QeReturn Emp)) t1 /\ In ("id1"%string, 9) (requests 0 (bus_of t1)) /\ q_over (req_of t1) /\
  jexec key1 go_answer j1 = Some (j2, t2) /\ In (EvInvoke 0 1 (2, snd act_m1) (CallRequest 0 "id1" 9 (Val (DInt 2)))) (bus_of t2) /\
  jstep key1 (JLocal QTest) j2 = Some (j3, []) /\ j_q j3 = QUndef.
Proof.
  do 7 eexists. split; [vm_compute; reflexivity|]. split; [|split; [|split; [|split; [vm_compute; reflexivity|]]]].
  - split; [exists go_setup; eexists; vm_compute; reflexivity|]. split; [reflexivity|].
    intros r b u d. eapply one_bus_calling; [reflexivity|exact I].
  - do 5 eexists. split; vm_compute; reflexivity.
  - eexists. exists 0. eexists. split; [reflexivity|]. split; [reflexivity|]. split; [vm_compute; auto|constructor].
  - split; [repeat constructor; discriminate|]. split; [vm_compute; auto 10|]. split; [vm_compute; auto|].
    split; [eexists; split; [vm_compute; auto|exact I]|]. split; [vm_compute; reflexivity|].
    split; [vm_compute; auto 30|]. split; vm_compute; reflexivity.
Qed.

(** The distribution of the response has begun, with everything C74_dangling and C74_called ask for. *)
Definition go_okb (st : state) : bool :=
  match s_buses st, s_subs st, s_conss st with
  | [x], [_; q; _], [y] => b_run x && existsb (Nat.eqb 1) (b_subs x) && Nat.eqb (co_sub y) 1 &&
      match s_cb q with Some (CbConsumer 0) => true | _ => false end
  | _, _, _ => false
  end.
Lemma go_okb_ok st : go_okb st = true -> serving 0 0 1 st /\ consumer_on st 0 1.
Proof.
  unfold go_okb. destruct (s_buses st) as [|x [|]] eqn:Eb; try discriminate. destruct (s_subs st) as [|q0 [|q [|q2 [|]]]] eqn:Es; try discriminate.
  destruct (s_conss st) as [|y [|]] eqn:Ec; try discriminate. intros H. apply andb_true_iff in H as (H & H4). apply andb_true_iff in H as (H & H3).
  apply andb_true_iff in H as (H1 & H2). apply existsb_exists in H2 as (n & I & E). apply Nat.eqb_eq in E. subst n. apply Nat.eqb_eq in H3.
  split.
  - split; [exists x; unfold get_bus; rewrite Eb; auto|]. split; [constructor|].
    intros c xc _ Gc. unfold get_bus in Gc. rewrite Eb in Gc. destruct c as [|[|]]; try discriminate. injection Gc as <-. auto.
  - exists y, q. rewrite Es, Ec. repeat split; auto. destruct (s_cb q) as [[| | |[|]]|]; try discriminate. reflexivity.
Qed.

Example C74_dangling_case : exists st tr0 j1 t1 j2 t2 ta tb,
  exec go_setup init = Some (st, tr0) /\ before key1 (mkJ st qinit None) /\
  jexec key1 go_request (mkJ st qinit None) = Some (j1, t1) /\ q_over (req_of t1) /\ unanswered 0 "id1" 9 (j_bus j1) /\
  jexec key1 go_answer j1 = Some (j2, t2) /\ bus_of t2 = ta ++ EvBegin 0 (2, snd act_m1) :: tb /\
  always (fun st => serving 0 0 1 st /\ consumer_on st 0 1) (bus_labels go_answer) (j_bus j1) /\
  (forall d v, ~ In (LRequest 0 "id1" d (Some v)) (bus_labels go_answer)) /\
  answer (bm_data (snd act_m1)) "id1" (Val (DInt 2)) /\
  (exists y, nth_error (s_subs (j_bus j1)) 1 = Some y /\ s_topic y = bm_topic (snd act_m1)) /\
  In (EvReceive 0 0 1 (2, snd act_m1)) (bus_of t2).
Proof.
  do 8 eexists. split; [vm_compute; reflexivity|]. split.
  { split; [exists go_setup; eexists; vm_compute; reflexivity|]. split; [reflexivity|].
    intros r b u d. eapply one_bus_calling; [reflexivity|exact I]. }
  split; [vm_compute; reflexivity|]. split; [eexists; split; [vm_compute; auto|exact I]|]. split.
  { split; [eexists; vm_compute; auto|]. intros r b u d. eapply one_bus_calling; [reflexivity|exact I]. }
  split; [vm_compute; reflexivity|]. split.
  { match goal with |- ?a = _ => let v := eval vm_compute in a in
      match v with context [EvBegin 0 (2, ?m)] => idtac end; change a with v end.
    match goal with |- ?l = _ => let rec go pre l := match l with
        | EvBegin 0 (2, _) :: ?t => instantiate (2 := rev pre); instantiate (1 := t)
        | ?e :: ?t => go (e :: pre) t end in go (@nil event) l end.
    vm_compute. reflexivity. }
  split; [apply (alwaysb_ok go_okb); [apply go_okb_ok|vm_compute; reflexivity]|].
  split; [intros d v J; vm_compute in J; repeat destruct J as [J|J]; discriminate || contradiction|].
  split; [eexists; vm_compute; auto|]. split; [eexists; split; reflexivity|vm_compute; auto 30].
Qed.

(** A Request of another thread. *)
Definition ask : list jlabel := map JBus (act_setup ++ act_request) ++ map JLocal [ QCheck; QBlock ].
Definition told : list jlabel :=
  map JBus (act_provide ++ act_respond ++ act_deliver) ++ map JLocal [ QTest; QWrite; QWritten; QClear; QNotify ] ++ map JBus act_done.
Definition back : list jlabel := map JLocal [ QWake; QCheck; QReturn ].

Example C75_case : exists j1 t1 j2 t2 ta tb j3 t3,
  jexec key1 ask jinit = Some (j1, t1) /\ unanswered 0 "id1" 9 (j_bus j1) /\
  jexec key1 told j1 = Some (j2, t2) /\ bus_of t2 = ta ++ EvBegin 0 act_m1 :: tb /\ In (EvEnd 0 act_m1) tb /\
  always (fun st => serving 0 0 1 st /\ consumer_on st 0 1) (bus_labels told) (j_bus j1) /\
  (forall d v, ~ In (LRequest 0 "id1" d (Some v)) (bus_labels told)) /\
  answer (bm_data (snd act_m1)) "id1" (Val (DInt 2)) /\
  (exists y, nth_error (s_subs (j_bus j1)) 1 = Some y /\ s_topic y = bm_topic (snd act_m1)) /\
  (forall r' m' d', In m' (accepted r' (bus_of (t1 ++ t2))) -> bm_topic (snd m') = bm_topic (snd act_m1) -> answer (bm_data (snd m')) "id1" d' -> d' = Val (DInt 2)) /\
  jexec key1 back j2 = Some (j3, t3) /\ In (JQ (QeReturn (Val (DInt 2)))) t3.
Proof.
  do 8 eexists. split; [vm_compute; reflexivity|]. split.
  { split; [eexists; vm_compute; auto|]. intros r b u d. eapply one_bus_calling; [reflexivity|exact I]. }
  split; [vm_compute; reflexivity|]. split.
  { match goal with |- ?a = _ => let v := eval vm_compute in a in change a with v end.
    match goal with |- ?l = _ => let rec go pre l := match l with
        | EvBegin 0 (1, _) :: ?t => instantiate (2 := rev pre); instantiate (1 := t)
        | ?e :: ?t => go (e :: pre) t end in go (@nil event) l end.
    vm_compute. reflexivity. }
  split; [vm_compute; auto 10|].
  split; [apply (alwaysb_ok act_okb); [apply act_okb_ok|vm_compute; reflexivity]|].
  split; [intros d v J; vm_compute in J; repeat destruct J as [J|J]; discriminate || contradiction|].
  split; [eexists; vm_compute; auto|]. split; [eexists; split; reflexivity|]. split.
  { intros r' m' d' J Et A. unfold accepted in J. apply in_flat_map in J as (e & J & J').
    match type of J with In _ ?l => let v := eval vm_compute in l in change (In e v) in J end.
    repeat (destruct J as [<-|J]; [try contradiction; destruct (Nat.eqb _ r'); try contradiction; destruct J' as [<-|[]]; try discriminate Et; destruct A as (kvs & Q & _ & [A|(A & _)]); injection Q as <-; cbn in A; congruence|]). destruct J. }
  split; [vm_compute; reflexivity|vm_compute; auto].
Qed.

(** The bus is detached while the request is being published. *)
Example C75_failed_case : exists j1 t1 j2 t2 j3 t3,
  jexec key1 (map JBus act_setup) jinit = Some (j1, t1) /\
  jstep key1 (JBus (LRequest 0 "id1" (Val (DInt 1)) (Some 9))) j1 = Some (j2, t2) /\
  jexec key1 (map JBus [ LFly 0; LDetach 0; LFly 0 ]) j2 = Some (j3, t3) /\
  In (JB (EvFlight (length (s_flights (j_bus j1))) (Throw BadFunctionCall))) t3 /\ In (JQ (QeThrow BadFunctionCall)) t3.
Proof. do 6 eexists. do 3 (split; [vm_compute; reflexivity|]). split; vm_compute; auto 10. Qed.

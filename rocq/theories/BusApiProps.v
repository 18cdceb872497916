(** Properties C23-C29: deletion, stopping, child buses, publishing, detaching, custom buses. *)
From Coq Require Import String Ascii List Arith ZArith Bool Lia Sorted.
From Verif Require Import Prelude OMap DatagramModel DatagramSpec BusModel BusSpec BusProofs BusTree BusLocks BusLocks2 BusLocks3 BusDist BusAccount BusOnce BusServe BusFlight BusDetach BusProgress BusDeliver BusStop BusDeliveryProps.
Import ListNotations.
Open Scope list_scope.

(** * C23 *)

Lemma del_sub_inv b s st st1 evs x : step (LDelSub b s) st = Some (st1, evs) -> get_bus st b = Some x ->
  b_slock x = false /\ evs = [EvRes (Ok RNone)] /\ length (s_subs st1) = length (s_subs st) /\ s < length (s_subs st) /\
  (exists y, nth_error (s_subs st1) s = Some y /\ s_cb y = None) /\
  (forall b' x', get_bus st1 b' = Some x' -> exists x0, get_bus st b' = Some x0 /\
     b_subs x' = (if Nat.eqb b b' then filter (fun z => negb (Nat.eqb z s)) (b_subs x0) else b_subs x0)).
Proof.
  intros H G. pose proof (get_lt _ _ _ G) as L. simpl in H. rewrite G in H. destruct (b_slock x) eqn:S; [discriminate|].
  unfold set_cb in H. simpl in H. destruct (nth_error (s_subs st) s) as [y|] eqn:N; [|discriminate].
  injection H as <- <-. pose proof (nth_error_Some_lt _ _ _ N) as Ls. split; auto. split; auto. split; [simpl; now rewrite list_set_length|].
  split; auto. split.
  - eexists. split; [simpl; apply list_set_eq; auto|reflexivity].
  - intros b' x' G'. change (get_bus (set_bus b (with_subs (filter (fun y0 => negb (Nat.eqb y0 s)) (b_subs x)) x) st) b' = Some x') in G'.
    rewrite get_set in G'. destruct (Nat.eqb_spec b b') as [->|Ne].
    + rewrite G in G'. injection G' as <-. exists x. auto.
    + exists x'. auto.
Qed.

Lemma del_sub_gone b s st st1 evs x :
  reach st -> get_bus st b = Some x -> In s (b_subs x) -> step (LDelSub b s) st = Some (st1, evs) -> gone s st1.
Proof.
  intros Rc G I H. destruct (del_sub_inv _ _ _ _ _ _ H G) as (S & _ & L & Ls & _ & K). split; [lia|].
  intros b' x' G' I'. destruct (K _ _ G') as (x0 & G0 & E). rewrite E in I'.
  destruct (Nat.eqb_spec b b') as [->|Ne].
  - apply filter_In in I'. destruct I' as [_ I']. rewrite Nat.eqb_refl in I'. discriminate.
  - apply Ne. eapply (t_subone _ (reach_tree _ Rc)); eauto.
Qed.

(** DeleteSubscriber on the owning bus: once it has returned, the subscriber is never handed a
    message and none of its callbacks is entered again, whatever happens, including installing
    new callbacks. When it returns, no bus thread is inside a callback of this bus. *)
Theorem C23_barrier : forall st b x s st1 evs ls st2 tr,
  reach st -> get_bus st b = Some x -> In s (b_subs x) -> step (LDelSub b s) st = Some (st1, evs) ->
  exec ls st1 = Some (st2, tr) ->
  (forall r b' m, ~ In (EvReceive r b' s m) tr) /\ (forall r m c, ~ In (EvInvoke r s m c) tr).
Proof.
  intros st b x s st1 evs ls st2 tr Rc G I H X.
  assert (reach st1) as Rc1 by (eapply reach_step; eauto).
  destruct (gone_exec _ _ _ _ _ Rc1 (del_sub_gone _ _ _ _ _ _ Rc G I H) X) as (_ & N). split; auto.
  intros r m c J.
  assert (exists b', In (EvReceive r b' s m) tr) as (b' & F); [|eapply N; eauto].
  clear - X J. revert st1 tr X J. induction ls as [|l ls IH]; intros st1 tr X J.
  - simpl in X. injection X as <- <-. destruct J.
  - apply exec_cons_inv in X. destruct X as (s1 & e1 & e2 & H1 & H2 & ->). apply in_app_iff in J. destruct J as [J|J].
    + assert (runner_label l r) as RL.
      { destruct (runner_label_dec l r) as [RL|RL]; auto. pose proof (other_events _ _ _ _ _ _ H1 RL J) as F. simpl in F. rewrite Nat.eqb_refl in F. discriminate. }
      destruct (run_inv' _ _ _ _ _ H1 RL) as (x0 & rn & act & G0 & RC & _).
      inversion RC; subst; simpl in J; try (destruct J as [J|J]; try discriminate); try contradiction.
      * destruct J as [J|[]]. injection J as -> ->. exists b. apply in_app_iff. left. simpl. auto.
      * exfalso. destruct J as [J|J]; [discriminate|]. apply in_app_iff in J. destruct J as [J|[J|[]]]; [|discriminate]. apply in_map_iff in J. destruct J as (? & ? & _). discriminate.
      * exfalso. apply in_app_iff in J. destruct J as [J|[J|[]]]; [|discriminate]. apply in_map_iff in J. destruct J as (? & ? & _). discriminate.
    + destruct (IH _ _ H2 J) as (b' & F). exists b'. apply in_app_iff. auto.
Qed.
Print Assumptions C23_barrier.

Theorem C23_no_callback_running : forall st b s st1 evs r y m b' ss stk c rest,
  reach st -> step (LDelSub b s) st = Some (st1, evs) ->
  get_bus st r = Some y -> b_runner y = RDist m (FSubs b' ss :: stk) (Some c) rest -> b' <> b.
Proof.
  intros st b s st1 evs r y m b' ss stk c rest Rc H G R ->.
  pose proof (k_stack _ (reach_lock _ Rc) _ _ G) as S. rewrite R in S.
  destruct (stack_frame _ _ _ _ S (or_introl eq_refl)) as (x & pre & Gx & L & _).
  destruct (del_sub_inv _ _ _ _ _ _ H Gx) as (L' & _). congruence.
Qed.
Print Assumptions C23_no_callback_running.

(** ContainsSubscriber is false from then on, on every bus. *)
Theorem C23_contains : forall st b x s st1 evs ls st2 tr b' st3 evs',
  reach st -> get_bus st b = Some x -> In s (b_subs x) -> step (LDelSub b s) st = Some (st1, evs) ->
  exec ls st1 = Some (st2, tr) -> step (LHasSub b' s) st2 = Some (st3, evs') ->
  st3 = st2 /\ evs' = [EvRes (Ok (RBool false))].
Proof.
  intros st b x s st1 evs ls st2 tr b' st3 evs' Rc G I H X H2.
  assert (reach st1) as Rc1 by (eapply reach_step; eauto).
  destruct (gone_exec _ _ _ _ _ Rc1 (del_sub_gone _ _ _ _ _ _ Rc G I H) X) as ((_ & N) & _).
  simpl in H2. destruct (get_bus st2 b') as [y|] eqn:Gy; [|discriminate]. destruct (b_slock y); [discriminate|].
  injection H2 as <- <-. split; auto. do 4 f_equal. specialize (N _ _ Gy).
  apply Bool.not_true_iff_false. intros E. apply existsb_exists in E. destruct E as (z & Iz & E). apply Nat.eqb_eq in E. now subst.
Qed.
Print Assumptions C23_contains.

(** On a bus that does not own it, DeleteSubscriber only takes the callback away: the subscriber
    stays registered where it was, and a new callback would be invoked again. *)
Theorem C23_foreign_bus : forall st b x s st1 evs,
  get_bus st b = Some x -> ~ In s (b_subs x) -> step (LDelSub b s) st = Some (st1, evs) ->
  (forall b' x0, get_bus st b' = Some x0 -> exists x', get_bus st1 b' = Some x' /\ b_subs x' = b_subs x0) /\
  exists y, nth_error (s_subs st1) s = Some y /\ s_cb y = None.
Proof.
  intros st b x s st1 evs G N H. destruct (del_sub_inv _ _ _ _ _ _ H G) as (_ & _ & _ & _ & C & K). split; auto.
  intros b' x0 G0. destruct (step_delta _ _ _ _ _ _ H G0) as (x' & G' & _). exists x'. split; auto.
  destruct (K _ _ G') as (x1 & G1 & E). rewrite G0 in G1. injection G1 as <-. rewrite E.
  destruct (Nat.eqb_spec b b') as [->|]; auto. rewrite G in G0. injection G0 as <-.
  clear - N. induction (b_subs x) as [|a l IH]; auto. simpl. destruct (Nat.eqb_spec a s) as [->|]; simpl.
  - exfalso. apply N. now left.
  - f_equal. apply IH. intros I. apply N. now right.
Qed.
Print Assumptions C23_foreign_bus.

(** A run in which subscriber 2 has received a message, is deleted, gets a new callback, and
    another matching message is distributed to the end. *)
Example C23_case : exists st tr x st1 evs st2 tr2,
  exec (ex_setup ++ ex_publish ++ ex_begin ++ ex_dist) init = Some (st, tr) /\ In (EvReceive 0 3 2 ex_msg0) tr /\
  get_bus st 3 = Some x /\ In 2 (b_subs x) /\ step (LDelSub 3 2) st = Some (st1, evs) /\
  exec ([LSetData 2 (Some 11); LStop 0; LRun 0; LRun 0; LRun 0; LStart 0] ++ [LPublish 0 (Val (DInt 6)); LFly 2; LFly 2] ++ ex_begin ++
        [LRun 0; LReturn 0] ++ repeat (LRun 0) 13 ++ [LReturn 0] ++ repeat (LRun 0) 5) st1 = Some (st2, tr2) /\
  completed 0 tr2 = [(2, mkM "b" "t" (Val (DInt 6)))] /\ inbox 0 1 tr2 = [(2, mkM "b" "t" (Val (DInt 6)))] /\ inbox 0 2 tr2 = [].
Proof.
  do 7 eexists. split; [vm_compute; reflexivity|]. split; [vm_compute; auto 40|]. split; [vm_compute; reflexivity|]. split; [vm_compute; auto|].
  split; [vm_compute; reflexivity|]. split; [vm_compute; reflexivity|]. vm_compute. auto.
Qed.

(** * C24 *)

Lemma reset_exec ls : forall st st' tr p, reset p st -> exec ls st = Some (st', tr) -> reset p st'.
Proof.
  induction ls as [|l ls IH]; intros st st' tr p R X.
  - simpl in X. now injection X as <- <-.
  - apply exec_cons_inv in X. destruct X as (st1 & e1 & e2 & H1 & H2 & ->). apply (IH _ _ _ _ (reset_step _ _ _ _ _ H1 R) H2).
Qed.
Lemma unlisted_exec ls : forall st st' tr p b, unlisted p b st -> exec ls st = Some (st', tr) -> unlisted p b st'.
Proof.
  induction ls as [|l ls IH]; intros st st' tr p b R X.
  - simpl in X. now injection X as <- <-.
  - apply exec_cons_inv in X. destruct X as (st1 & e1 & e2 & H1 & H2 & ->). apply (IH _ _ _ _ _ (unlisted_step _ _ _ _ _ _ H1 R) H2).
Qed.

Lemma del_pub_inv b p st st1 evs : step (LDelPub b p) st = Some (st1, evs) ->
  evs = [EvRes (Ok RNone)] /\ reset p st1 /\ unlisted p b st1 /\
  (forall q, q <> p -> nth_error (s_pubs st1) q = nth_error (s_pubs st) q) /\
  (forall b' x', get_bus st1 b' = Some x' -> exists x0, get_bus st b' = Some x0 /\ forall q, q <> p -> (In q (b_pubs x') <-> In q (b_pubs x0))).
Proof.
  intros H. simpl in H. destruct (get_bus st b) as [x|] eqn:G; [|discriminate]. destruct (nth_error (s_pubs st) p) as [y|] eqn:N; [|discriminate].
  injection H as <- <-. pose proof (nth_error_Some_lt _ _ _ N) as L. split; auto. split; [|split; [|split]].
  - eexists. split; [simpl; apply list_set_eq; auto|reflexivity].
  - split; [simpl; now rewrite list_set_length|]. eexists. split.
    + rewrite get_set_pubs, get_set, Nat.eqb_refl, G. reflexivity.
    + simpl. intros I. apply filter_In in I. rewrite Nat.eqb_refl in I. destruct I; discriminate.
  - intros q Nq. simpl. now apply list_set_ne; auto.
  - intros b' x' G'. rewrite get_set_pubs, get_set in G'. destruct (Nat.eqb_spec b b') as [->|Ne].
    + rewrite G in G'. injection G' as <-. exists x. split; auto. intros q Nq. simpl. rewrite filter_In.
      destruct (Nat.eqb_spec q p); [contradiction|]. simpl. tauto.
    + exists x'. split; auto. tauto.
Qed.

(** After DeletePublisher, a Publish through the publisher returns normally at once, hands nothing
    to anybody then or later, and changes no bus. *)
Theorem C24_inert : forall st b p st1 evs ls st2 tr d st3 evs3 ls4 st4 tr4,
  step (LDelPub b p) st = Some (st1, evs) -> exec ls st1 = Some (st2, tr) ->
  step (LPublish p d) st2 = Some (st3, evs3) -> exec ls4 st3 = Some (st4, tr4) ->
  s_buses st3 = s_buses st2 /\ evs3 = [EvFlight (length (s_flights st2)) (Ok tt)] /\
  handed (length (s_flights st2)) (evs3 ++ tr4) = [].
Proof.
  intros st b p st1 evs ls st2 tr d st3 evs3 ls4 st4 tr4 H X H3 X4.
  destruct (del_pub_inv _ _ _ _ _ H) as (_ & R & _).
  destruct (reset_exec _ _ _ _ _ R X) as (y & N & F).
  cbn [step] in H3. destruct (begin_publish_inv _ _ _ _ _ H3) as (y' & N' & [(F' & _)|(_ & -> & ->)]); [congruence|].
  split; [reflexivity|]. split; [reflexivity|].
  rewrite handed_app. simpl.
  assert (nth_error (s_flights (set_flights (s_flights st2 ++ [FlyDone]) st2)) (length (s_flights st2)) = Some FlyDone) as Nf.
  { simpl. rewrite nth_error_app2, Nat.sub_diag; auto. }
  remember (set_flights (s_flights st2 ++ [FlyDone]) st2) as s eqn:Es. clear Es H3. revert s tr4 X4 Nf.
  induction ls4 as [|l ls4 IH]; intros s tr4 X4 Nf.
  - simpl in X4. injection X4 as <- <-. reflexivity.
  - apply exec_cons_inv in X4. destruct X4 as (s1 & e1 & e2 & H1 & H2 & ->). rewrite handed_app.
    destruct (step_flight _ _ _ _ _ _ H1 Nf) as [->|(A & B & _)].
    + simpl in H1. unfold fly_step in H1. rewrite Nf in H1. discriminate.
    + rewrite B. simpl. apply (IH s1); auto.
Qed.
Print Assumptions C24_inert.

(** ContainsPublisher on that bus is false from then on. *)
Theorem C24_contains : forall st b p st1 evs ls st2 tr st3 evs3,
  step (LDelPub b p) st = Some (st1, evs) -> exec ls st1 = Some (st2, tr) ->
  step (LHasPub b p) st2 = Some (st3, evs3) -> st3 = st2 /\ evs3 = [EvRes (Ok (RBool false))].
Proof.
  intros st b p st1 evs ls st2 tr st3 evs3 H X H3.
  destruct (del_pub_inv _ _ _ _ _ H) as (_ & _ & U & _).
  destruct (unlisted_exec _ _ _ _ _ _ U X) as (_ & x & G & N).
  simpl in H3. rewrite G in H3. injection H3 as <- <-. split; auto. do 4 f_equal.
  apply Bool.not_true_iff_false. intros E. apply existsb_exists in E. destruct E as (z & Iz & E). apply Nat.eqb_eq in E. now subst.
Qed.
Print Assumptions C24_contains.

(** The other publishers, their registrations, and everything else keep their state. *)
Theorem C24_others : forall st b p st1 evs,
  step (LDelPub b p) st = Some (st1, evs) ->
  (forall q, q <> p -> nth_error (s_pubs st1) q = nth_error (s_pubs st) q) /\
  (forall b' x', get_bus st1 b' = Some x' -> exists x0, get_bus st b' = Some x0 /\ forall q, q <> p -> (In q (b_pubs x') <-> In q (b_pubs x0))) /\
  s_subs st1 = s_subs st /\ s_flights st1 = s_flights st.
Proof.
  intros st b p st1 evs H. destruct (del_pub_inv _ _ _ _ _ H) as (_ & _ & _ & A & B). split; auto. split; auto.
  simpl in H. destruct (get_bus st b); [|discriminate]. destruct (nth_error (s_pubs st) p); [|discriminate]. injection H as <- <-. auto.
Qed.
Print Assumptions C24_others.

Example C24_case : exists st tr st1 evs st2 evs2 st3 evs3,
  exec (ex_setup ++ ex_publish) init = Some (st, tr) /\ step (LHasPub 1 0) st = Some (st, [EvRes (Ok (RBool true))]) /\
  step (LDelPub 1 0) st = Some (st1, evs) /\ step (LPublish 0 Emp) st1 = Some (st2, evs2) /\ evs2 = [EvFlight 2 (Ok tt)] /\
  exec [LPublish 1 Emp; LFly 3; LFly 3] st2 = Some (st3, evs3) /\ handed 3 evs3 = [(ToQueue 0, mkM "root" "u" Emp)].
Proof.
  do 8 eexists. split; [vm_compute; reflexivity|]. split; [vm_compute; reflexivity|]. split; [vm_compute; reflexivity|].
  split; [vm_compute; reflexivity|]. split; [reflexivity|]. split; [vm_compute; reflexivity|]. reflexivity.
Qed.

(** * C25 *)

(** After Stop on a root bus and until Start: no distribution begins, and only the message that was
    being distributed at that moment is still delivered. *)
Theorem C25_no_new : forall st r x st1 evs ls st2 tr,
  get_bus st r = Some x -> step (LStop r) st = Some (st1, evs) ->
  exec ls st1 = Some (st2, tr) -> ~ In (LStart r) ls ->
  begun r tr = [] /\ forall b s m, In (EvReceive r b s m) tr -> current x = [m].
Proof.
  intros st r x st1 evs ls st2 tr G H X N. destruct (winding_start _ _ _ _ _ H G) as (W & _).
  pose proof (winding_exec _ _ _ _ _ _ _ W X N) as W2. simpl in W2. split; [apply (w_begun _ _ _ _ W2)|].
  intros b s m I. apply (w_recv _ _ _ _ W2 b s m). apply in_flat_map. eexists. split; [exact I|]. simpl. rewrite Nat.eqb_refl. now left.
Qed.
Print Assumptions C25_no_new.

(** When the run has come to its end: the current message was completed (or, if a callback threw,
    lost), the rest of the batch was discarded, in order; [d] are messages drained after Stop -
    only if the thread was just about to drain - which are discarded too; everything else
    that was queued or accepted since is still queued, in order. *)
Theorem C25_discard : forall st r x st1 evs ls st2 tr x2,
  get_bus st r = Some x -> step (LStop r) st = Some (st1, evs) ->
  exec ls st1 = Some (st2, tr) -> ~ In (LStart r) ls -> get_bus st2 r = Some x2 -> b_runner x2 = RIdle ->
  exists d, settled r tr = current x ++ batch x ++ d /\ b_queue x ++ accepted r tr = d ++ b_queue x2 /\
    (b_runner x <> RDrain -> d = []) /\
    (crashes r tr = [] -> completed r tr = current x /\ discarded r tr = batch x ++ d).
Proof.
  intros st r x st1 evs ls st2 tr x2 G H X N G2 R. destruct (winding_start _ _ _ _ _ H G) as (W & _).
  pose proof (winding_exec _ _ _ _ _ _ _ W X N) as W2. simpl in W2.
  destruct (w_bus _ _ _ _ W2) as (x' & d & G' & _ & A & B & C & _ & D). rewrite G2 in G'. injection G' as <-.
  assert (current x2 = [] /\ batch x2 = []) as (E1 & E2) by (unfold current, batch; now rewrite R).
  rewrite E1, E2, !app_nil_r in *. exists d. auto.
Qed.
Print Assumptions C25_discard.

(** The thread does come to the end of its run within as many steps as it has messages in hand,
    once the current distribution is over and if nobody starts the bus again. *)
Theorem C25_ends : forall st r x,
  reach st -> get_bus st r = Some x -> b_run x = false -> current x = [] -> b_runner x <> RIdle ->
  exists n st' tr, n <= 3 + length (pending x) /\ exec (repeat (LRun r) n) st = Some (st', tr) /\
    exists x', get_bus st' r = Some x' /\ b_runner x' = RIdle.
Proof.
  assert (forall ms st r x, get_bus st r = Some x -> b_run x = false -> b_runner x = RBatch ms ->
    exists st' tr, exec (repeat (LRun r) (2 + length ms)) st = Some (st', tr) /\ exists x', get_bus st' r = Some x' /\ b_runner x' = RIdle) as B.
  { induction ms as [|m ms IH]; intros st r x G R E.
    - assert (step (LRun r) st = Some (upd_bus r (with_runner RWait) st, [])) as H1 by (simpl; unfold run_step; rewrite G, E; reflexivity).
      set (s1 := upd_bus r (with_runner RWait) st) in *.
      assert (get_bus s1 r = Some (with_runner RWait x)) as G1 by (unfold s1; rewrite get_upd, Nat.eqb_refl, G; reflexivity).
      assert (step (LRun r) s1 = Some (upd_bus r (with_runner RIdle) s1, [EvStop r None])) as H2 by (simpl; unfold run_step; rewrite G1; simpl; rewrite R; reflexivity).
      exists (upd_bus r (with_runner RIdle) s1), [EvStop r None]. split.
      + cbn [repeat Nat.add length exec]. rewrite H1, H2. reflexivity.
      + exists (with_runner RIdle (with_runner RWait x)). split; [|reflexivity]. rewrite get_upd, Nat.eqb_refl, G1. reflexivity.
    - assert (step (LRun r) st = Some (upd_bus r (with_runner (RBatch ms)) st, [EvDrop r m])) as H1 by (simpl; unfold run_step; rewrite G, E, R; reflexivity).
      set (s1 := upd_bus r (with_runner (RBatch ms)) st) in *.
      assert (get_bus s1 r = Some (with_runner (RBatch ms) x)) as G1 by (unfold s1; rewrite get_upd, Nat.eqb_refl, G; reflexivity).
      destruct (IH s1 r _ G1 R eq_refl) as (st' & tr & X & P). exists st', ([EvDrop r m] ++ tr). split; auto.
      change (2 + length (m :: ms)) with (S (2 + length ms)). cbn [repeat exec]. rewrite H1.
      change (LRun r :: LRun r :: repeat (LRun r) (length ms)) with (repeat (LRun r) (2 + length ms)). rewrite X. reflexivity. }
  intros st r x Rc G R C NI. unfold current in C. unfold pending, batch.
  destruct (b_runner x) as [| | |ms|] eqn:E; try congruence.
  - exists 1, (upd_bus r (with_runner RIdle) st), [EvStop r None]. split; [lia|]. split.
    + cbn [repeat exec step]. unfold run_step. rewrite G, E, R. reflexivity.
    + exists (with_runner RIdle x). split; [|reflexivity]. rewrite get_upd, Nat.eqb_refl, G. reflexivity.
  - assert (step (LRun r) st = Some (upd_bus r (with_runner (RBatch (b_queue x))) (upd_bus r (with_queue [] (b_count x)) st), [])) as H1
      by (simpl; unfold run_step; rewrite G, E; reflexivity).
    set (s1 := upd_bus r (with_runner (RBatch (b_queue x))) (upd_bus r (with_queue [] (b_count x)) st)) in *.
    assert (get_bus s1 r = Some (with_runner (RBatch (b_queue x)) (with_queue [] (b_count x) x))) as G1
      by (unfold s1; rewrite !get_upd, Nat.eqb_refl, G; reflexivity).
    destruct (B (b_queue x) s1 r _ G1 R eq_refl) as (st' & tr & X & P). exists (S (2 + length (b_queue x))), st', ([] ++ tr).
    split; [simpl; lia|]. split; auto. cbn [repeat exec]. rewrite H1.
    change (LRun r :: LRun r :: repeat (LRun r) (length (b_queue x))) with (repeat (LRun r) (2 + length (b_queue x))). rewrite X. reflexivity.
  - destruct (B ms st r x G R E) as (st' & tr & X & P). exists (2 + length ms), st', tr. split; [rewrite app_length; lia|]. auto.
Qed.
Print Assumptions C25_ends.

(** Stop before Start: the state after Start is the same as without the Stop. *)
Theorem C25_stop_then_start : forall st r st1 evs st2 evs2,
  step (LStop r) st = Some (st1, evs) -> step (LStart r) st1 = Some (st2, evs2) ->
  step (LStart r) st = Some (st2, evs2) /\ exists x, get_bus st2 r = Some x /\ b_run x = true.
Proof.
  intros st r st1 evs st2 evs2 H1 H2. simpl in H1. destruct (get_bus st r) as [x|] eqn:G; [|discriminate]. injection H1 as <- <-.
  assert (forall y z : bus, set_bus r y (set_bus r z st) = set_bus r y st) as SS.
  { intros y z. unfold set_bus. simpl. f_equal. clear. revert r. induction (s_buses st) as [|a l IH]; intros [|r]; simpl; auto. f_equal. apply IH. }
  simpl in H2. rewrite get_set, Nat.eqb_refl, G in H2. simpl in H2. simpl. rewrite G.
  destruct (b_root x).
  - destruct (b_runner x); try discriminate. injection H2 as <- <-. rewrite SS. split; [reflexivity|].
    eexists. split; [rewrite get_set, Nat.eqb_refl, G; reflexivity|reflexivity].
  - unfold ok in *. injection H2 as <- <-. rewrite SS. split; [reflexivity|].
    eexists. split; [rewrite get_set, Nat.eqb_refl, G; reflexivity|reflexivity].
Qed.
Print Assumptions C25_stop_then_start.

(** Stop inside the first callback of the first of two drained messages: the first is delivered to
    all its subscribers, the second is discarded, a third one stays queued. *)
Example C25_case : exists st tr x st1 evs st2 tr2 x2,
  exec (ex_setup ++ ex_publish ++ ex_begin ++ [LRun 0]) init = Some (st, tr) /\ get_bus st 0 = Some x /\ current x = [ex_msg0] /\
  batch x = [ex_msg1] /\ step (LStop 0) st = Some (st1, evs) /\
  exec ([LPublish 0 Emp; LFly 2; LFly 2] ++ tl ex_dist ++ [LRun 0; LRun 0; LRun 0]) st1 = Some (st2, tr2) /\
  get_bus st2 0 = Some x2 /\ b_runner x2 = RIdle /\ discarded 0 tr2 = [ex_msg1] /\ completed 0 tr2 = [ex_msg0] /\ b_queue x2 = [(2, mkM "b" "t" Emp)].
Proof.
  do 8 eexists. split; [vm_compute; reflexivity|]. split; [vm_compute; reflexivity|]. split; [reflexivity|]. split; [reflexivity|].
  split; [vm_compute; reflexivity|]. split; [vm_compute; reflexivity|]. split; [vm_compute; reflexivity|]. vm_compute. auto.
Qed.

(** * C26 *)

Lemma child_lookup st b x name k : tree_inv st -> get_bus st b = Some x ->
  (olookup name (b_kids x) = Some k <-> child_named st b name k).
Proof.
  intros T G. destruct (t_sorted _ T _ _ G) as (S & ND). split.
  - intros L. destruct (t_name _ T _ _ _ _ G L) as (y & Gy & N & _). split; [|eauto].
    exists x. split; auto. apply olookup_in in L. apply (in_map snd) in L. exact L.
  - intros ((x' & G' & I) & y & Gy & N). rewrite G in G'. injection G' as <-.
    apply in_map_iff in I. destruct I as ([n k'] & E & I). simpl in E. subst k'.
    pose proof (in_olookup _ _ _ S I) as L. destruct (t_name _ T _ _ _ _ G L) as (y' & Gy' & N' & _).
    assert (n = name) as <- by congruence. exact L.
Qed.

(** CreateChildBus: succeeds exactly for a nonempty name that no child has, on a bus that is
    not detached; the new bus is fresh, running, and the child of that name. Otherwise it throws
    and changes nothing. *)
Theorem C26_create : forall st b x name st1 evs,
  reach st -> get_bus st b = Some x -> step (LChild b name) st = Some (st1, evs) ->
  (name <> ""%string /\ (forall k, ~ child_named st b name k) /\ b_fn x <> None /\
   exists c y, evs = [EvRes (Ok (RNew c))] /\ get_bus st c = None /\ get_bus st1 c = Some y /\ b_name y = name /\
     b_fn y = b_fn x /\ b_run y = true /\ b_subs y = [] /\ b_kids y = [] /\ child_named st1 b name c) \/
  (st1 = st /\ exists e, evs = [EvRes (Throw e)] /\
   ((name = ""%string /\ e = ArgumentNull "name") \/
    (name <> ""%string /\ (exists k, child_named st b name k) /\ e = DuplicateKey name) \/
    (name <> ""%string /\ (forall k, ~ child_named st b name k) /\ b_fn x = None /\ e = ArgumentNull "name"))).
Proof.
  intros st b x name st1 evs Rc G H. pose proof (reach_tree _ Rc) as T. pose proof H as H0.
  simpl in H. rewrite G in H. destruct (String.eqb_spec name "") as [->|Nn].
  - injection H as <- <-. right. split; auto. eexists. split; [reflexivity|]. left. auto.
  - destruct (b_klock x); [discriminate|]. destruct (olookup name (b_kids x)) as [k|] eqn:L.
    + injection H as <- <-. right. split; auto. eexists. split; [reflexivity|]. right; left. split; auto. split; auto.
      exists k. now apply (child_lookup _ _ _ _ _ T G).
    + assert (forall k, ~ child_named st b name k) as NC by (intros k C; apply (child_lookup _ _ _ _ _ T G) in C; congruence).
      destruct (b_fn x) as [t|] eqn:F.
      * left. unfold ok in H. injection H as <- <-. split; auto. split; auto. split; [discriminate|].
        exists (length (s_buses st)), (with_run true (new_bus name (Some t) false)).
        assert (get_bus (add_bus (with_run true (new_bus name (Some t) false)) (set_bus b (with_kids (oinsert name (length (s_buses st)) (b_kids x)) x) st)) (length (s_buses st)) = Some (with_run true (new_bus name (Some t) false))) as Gc.
        { unfold get_bus, add_bus. simpl. rewrite nth_error_app2; rewrite list_set_length; auto. now rewrite Nat.sub_diag. }
        repeat (split; auto).
        -- unfold get_bus. apply nth_error_None. lia.
        -- exists (with_kids (oinsert name (length (s_buses st)) (b_kids x)) x). split.
           ++ rewrite get_add, get_set, Nat.eqb_refl, G. simpl. rewrite list_set_length.
              pose proof (get_lt _ _ _ G). destruct (Nat.eqb_spec (length (s_buses st)) b); [lia|reflexivity].
           ++ simpl. apply (in_map snd _ (name, length (s_buses st))). apply olookup_in. apply olookup_insert_eq'.
        -- eauto.
      * injection H as <- <-. right. split; auto. eexists. split; [reflexivity|]. right; right. auto.
Qed.
Print Assumptions C26_create.

(** GetChildBus returns the child of that name, or throws KeyNotFound if there is none, and
    changes nothing. *)
Theorem C26_get : forall st b name st1 evs,
  reach st -> step (LGetChild b name) st = Some (st1, evs) ->
  st1 = st /\
  ((exists k, child_named st b name k /\ evs = [EvRes (Ok (RNew k))]) \/
   ((forall k, ~ child_named st b name k) /\ evs = [EvRes (Throw (KeyNotFound name))])).
Proof.
  intros st b name st1 evs Rc H. pose proof (reach_tree _ Rc) as T. simpl in H.
  destruct (get_bus st b) as [x|] eqn:G; [|discriminate]. destruct (b_klock x); [discriminate|].
  destruct (olookup name (b_kids x)) as [k|] eqn:L; unfold ok, raise in H; injection H as <- <-; split; auto.
  - left. exists k. split; auto. now apply (child_lookup _ _ _ _ _ T G).
  - right. split; auto. intros k C. apply (child_lookup _ _ _ _ _ T G) in C. congruence.
Qed.
Print Assumptions C26_get.

(** A child keeps its name and its place for ever, and the name designates no other bus. *)
Theorem C26_forever : forall st b name k ls st1 tr,
  reach st -> child_named st b name k -> exec ls st = Some (st1, tr) ->
  child_named st1 b name k /\ forall k', child_named st1 b name k' -> k' = k.
Proof.
  intros st b name k ls st1 tr Rc C X.
  assert (child_named st1 b name k) as C1.
  { clear Rc. revert st tr C X. induction ls as [|l ls IH]; intros st tr C X.
    - simpl in X. now injection X as <- <-.
    - apply exec_cons_inv in X. destruct X as (s1 & e1 & e2 & H1 & H2 & ->). apply (IH s1 e2); auto.
      destruct C as (K & y & G & N). split; [eapply step_kid_mono; eauto|].
      destruct (step_delta _ _ _ _ _ _ H1 G) as (y' & G' & D). exists y'. split; auto. rewrite (d_name _ _ _ _ _ _ D). auto. }
  split; auto. intros k' C'. assert (reach st1) as Rc1 by (eapply reach_exec; eauto). pose proof (reach_tree _ Rc1) as T.
  destruct C1 as ((x & G & I) & ?). pose proof (proj2 (child_lookup _ _ _ name k T G)) as A. pose proof (proj2 (child_lookup _ _ _ name k' T G)) as B.
  rewrite A in B; [|split; [exists x; auto|auto]]. apply B in C'. congruence.
Qed.
Print Assumptions C26_forever.

Example C26_case : exists st tr st1 evs,
  exec ex_setup init = Some (st, tr) /\ step (LChild 2 "d") st = Some (st1, evs) /\ evs = [EvRes (Ok (RNew 4))] /\
  step (LGetChild 2 "d") st1 = Some (st1, [EvRes (Ok (RNew 4))]) /\
  step (LChild 2 "c") st = Some (st, [EvRes (Throw (DuplicateKey "c"))]) /\
  step (LChild 2 "") st = Some (st, [EvRes (Throw (ArgumentNull "name"))]) /\
  step (LGetChild 2 "d") st = Some (st, [EvRes (Throw (KeyNotFound "d"))]).
Proof.
  do 4 eexists. split; [vm_compute; reflexivity|]. split; [vm_compute; reflexivity|]. split; [reflexivity|].
  repeat split; vm_compute; reflexivity.
Qed.

(** * C27 *)

(** CreatePublisher makes a publisher that keeps its bus and topic for ever. *)
Theorem C27_publisher : forall st b topic st1 evs ls st2 tr,
  step (LPub b topic) st = Some (st1, evs) -> exec ls st1 = Some (st2, tr) ->
  exists p y, evs = [EvRes (Ok (RNew p))] /\ nth_error (s_pubs st2) p = Some y /\ p_topic y = topic /\ p_bus y = b.
Proof.
  intros st b topic st1 evs ls st2 tr H X. simpl in H. destruct (get_bus st b) as [x|] eqn:G; [|discriminate]. unfold ok in H. injection H as <- <-.
  exists (length (s_pubs st)).
  assert (exists y, nth_error (s_pubs (add_pub b topic st)) (length (s_pubs st)) = Some y /\ p_topic y = topic /\ p_bus y = b) as (y & N & E1 & E2).
  { exists (mkPub topic b true). unfold add_pub. simpl. rewrite nth_error_app2, Nat.sub_diag; auto. }
  remember (add_pub b topic st) as s eqn:Es. clear Es. revert s y tr X N E1 E2. induction ls as [|l ls IH]; intros s y tr X N E1 E2.
  - simpl in X. injection X as <- <-. eauto.
  - apply exec_cons_inv in X. destruct X as (s1 & e1 & e2 & H1 & H2 & ->).
    destruct (step_pub _ _ _ _ _ _ H1 N) as (y' & N' & F1 & F2 & _). apply (IH s1 y' e2); auto; congruence.
Qed.
Print Assumptions C27_publisher.

(** Publishing [d] through publisher [y] of the attached bus [x]: whatever other threads do, this
    publication (number [i]) ends in one of these ways; [t] is the root queue of the hierarchy of
    the bus, or the client function of a custom bus.
    - it is still on its way, and nothing has been handed over;
    - the message - with the name of the bus as sender, the topic of the publisher, the datagram -
      was handed to [t] exactly once and Publish returned;
    - it was not, because meanwhile the bus was detached or the publisher deleted. *)
Theorem C27_exactly_once : forall st p y x t d st1 evs ls st2 tr i m,
  reach st -> nth_error (s_pubs st) p = Some y -> p_fn y = true -> get_bus st (p_bus y) = Some x -> b_fn x = Some t ->
  i = length (s_flights st) -> m = mkM (b_name x) (p_topic y) d ->
  step (LPublish p d) st = Some (st1, evs) -> exec ls st1 = Some (st2, tr) ->
  (handed i (evs ++ tr) = [] /\ returned i (evs ++ tr) = [] /\ enabled (LFly i) st2) \/
  (handed i (evs ++ tr) = [(t, m)] /\ returned i (evs ++ tr) = [Ok tt]) \/
  (handed i (evs ++ tr) = [] /\ (detached (p_bus y) st2 \/ reset p st2)).
Proof.
  intros st p y x t d st1 evs ls st2 tr i m Rc N F G Ft -> -> H X.
  assert (reach st1) as Rc1 by (eapply reach_step; eauto).
  assert (reach st2) as Rc2 by (eapply reach_exec; eauto).
  cbn [step] in H. destruct (begin_publish_inv _ _ _ _ _ H) as (y' & N' & [(F' & E1 & ->)|(F' & _)]); [|congruence].
  assert (y' = y) as -> by congruence.
  assert (flying (length (s_flights st)) p (p_bus y) t (mkM (b_name x) (p_topic y) d) st1 []) as Fl.
  { rewrite E1. split; [exists y; auto|]. split; [exists x; auto|]. left. split; [|auto]. simpl. rewrite nth_error_app2, Nat.sub_diag; auto. }
  pose proof (flying_exec _ _ _ _ _ _ _ _ _ _ Rc1 Fl X) as ((y2 & N2 & B2 & _) & (x2 & G2 & _ & Fx) & Fi). simpl in Fi |- *.
  destruct Fi as [(A & B & C)|[(A & B & C)|(A & [(B & C)|[(B & D & C)|(B & D & C)]])]].
  - left. split; auto. split; auto. unfold enabled. simpl. unfold fly_step. rewrite A, N2, B2, G2.
    destruct (p_fn y2); eauto. destruct (test_bus_fn _ _ _) as [[]]; eauto.
  - left. split; auto. split; auto. unfold enabled. simpl. unfold fly_step. rewrite A, G2.
    destruct Fx as [-> | ->]; eauto. destruct (call_target _ _ _ _); eauto.
  - right; left. auto.
  - right; right. auto.
  - right; right. auto.
Qed.
Print Assumptions C27_exactly_once.

(** In particular: if Publish has returned, and the bus is still attached and the publisher still
    registered, the message has been handed over exactly once. *)
Theorem C27_delivered : forall st p y x t d st1 evs ls st2 tr i,
  reach st -> nth_error (s_pubs st) p = Some y -> p_fn y = true -> get_bus st (p_bus y) = Some x -> b_fn x = Some t ->
  i = length (s_flights st) ->
  step (LPublish p d) st = Some (st1, evs) -> exec ls st1 = Some (st2, tr) -> returned i (evs ++ tr) <> [] ->
  ~ detached (p_bus y) st2 -> ~ reset p st2 ->
  handed i (evs ++ tr) = [(t, mkM (b_name x) (p_topic y) d)] /\ returned i (evs ++ tr) = [Ok tt].
Proof.
  intros st p y x t d st1 evs ls st2 tr i Rc N F G Ft Ei H X Nr Nd Np.
  destruct (C27_exactly_once _ _ _ _ _ _ _ _ _ _ _ _ _ Rc N F G Ft Ei eq_refl H X) as [(_ & A & _)|[A|(_ & [A|A])]]; auto; contradiction.
Qed.
Print Assumptions C27_delivered.

(** The target of an attached bus is the queue of the root above it, if it has one. *)
Theorem C27_root : forall st b x r, reach st -> get_bus st b = Some x -> b_fn x = Some (ToQueue r) ->
  below st r b /\ exists y, get_bus st r = Some y /\ b_root y = true.
Proof. intros st b x r Rc G F. eapply (t_target _ (reach_tree _ Rc)); eauto. Qed.
Print Assumptions C27_root.

Example C27_case : exists st tr y x st1 evs st2 tr2,
  exec ex_setup init = Some (st, tr) /\ nth_error (s_pubs st) 0 = Some y /\ p_fn y = true /\ get_bus st (p_bus y) = Some x /\
  b_fn x = Some (ToQueue 0) /\ step (LPublish 0 Emp) st = Some (st1, evs) /\
  exec [LFly 0; LRun 0; LFly 0] st1 = Some (st2, tr2) /\ handed 0 (evs ++ tr2) = [(ToQueue 0, mkM "b" "t" Emp)] /\ returned 0 (evs ++ tr2) = [Ok tt].
Proof.
  do 8 eexists. split; [vm_compute; reflexivity|]. split; [vm_compute; reflexivity|]. split; [reflexivity|]. split; [vm_compute; reflexivity|].
  split; [reflexivity|]. split; [vm_compute; reflexivity|]. split; [vm_compute; reflexivity|]. vm_compute. auto.
Qed.

(** * C28 *)

(** [st1]: Detach on [b] has been entered as thread [i]; [st2]: it has returned. *)
Lemma detach_done st b st1 evs ls st2 tr :
  reach st -> step (LDetach b) st = Some (st1, evs) -> exec ls st1 = Some (st2, tr) ->
  nth_error (s_detaches st2) (length (s_detaches st)) = Some [] ->
  forall k, below st2 b k -> detached k st2 /\ (k <> b -> halted k st2 \/ In (LStart k) ls).
Proof.
  intros Rc H X D. assert (reach st1) as Rc1 by (eapply reach_step; eauto).
  pose proof (cutting_exec _ _ _ _ _ _ _ Rc1 (cutting_start _ _ _ _ H) X) as (ds & Nd & Db & K). simpl in K.
  rewrite D in Nd. injection Nd as <-. intros k B.
  destruct (Nat.eq_dec k b) as [->|Ne]; [split; [auto|congruence]|].
  destruct (K k B Ne) as [(A & C)|A]; [auto|]. destruct A as (f & [] & _).
Qed.

Lemma detached_exec ls : forall st st' tr k, detached k st -> exec ls st = Some (st', tr) -> detached k st'.
Proof.
  induction ls as [|l ls IH]; intros st st' tr k R X.
  - simpl in X. now injection X as <- <-.
  - apply exec_cons_inv in X. destruct X as (st1 & e1 & e2 & H1 & H2 & ->). apply (IH _ _ _ _ (detached_step _ _ _ _ _ H1 R) H2).
Qed.

(** Once Detach on [b] has returned, no publication through [b] or a bus below it hands its message
    over, at any later time; this includes publications that are under way at that moment
    ([through], a publication's position in the two calls of Publisher.cpp:20-26 and
    Bus.cpp:99-105). *)
Theorem C28_silent : forall st b st1 evs ls st2 tr k ls2 st3 tr3 i ls4 st4 tr4,
  reach st -> step (LDetach b) st = Some (st1, evs) -> exec ls st1 = Some (st2, tr) ->
  nth_error (s_detaches st2) (length (s_detaches st)) = Some [] -> below st2 b k ->
  exec ls2 st2 = Some (st3, tr3) -> through i k st3 -> exec ls4 st3 = Some (st4, tr4) -> handed i tr4 = [].
Proof.
  intros st b st1 evs ls st2 tr k ls2 st3 tr3 i ls4 st4 tr4 Rc H X D B X3 T X4.
  destruct (detach_done _ _ _ _ _ _ _ Rc H X D k B) as (Dk & _). apply (dry_exec ls4 st3 st4 tr4 i k); auto.
  eapply detached_exec; eauto.
Qed.
Print Assumptions C28_silent.

(** ... in particular a Publish begun later, through a publisher of [k] or on [k] directly. *)
Theorem C28_publish : forall st b st1 evs ls st2 tr k ls2 st3 tr3 l st4 evs4 ls5 st5 tr5,
  reach st -> step (LDetach b) st = Some (st1, evs) -> exec ls st1 = Some (st2, tr) ->
  nth_error (s_detaches st2) (length (s_detaches st)) = Some [] -> below st2 b k ->
  exec ls2 st2 = Some (st3, tr3) ->
  ((exists p d y, l = LPublish p d /\ nth_error (s_pubs st3) p = Some y /\ p_bus y = k) \/ (exists m, l = LPublishMsg k m)) ->
  step l st3 = Some (st4, evs4) -> exec ls5 st4 = Some (st5, tr5) ->
  handed (length (s_flights st3)) (evs4 ++ tr5) = [].
Proof.
  intros st b st1 evs ls st2 tr k ls2 st3 tr3 l st4 evs4 ls5 st5 tr5 Rc H X D B X3 L H4 X5.
  assert (detached k st3) as D3. { destruct (detach_done _ _ _ _ _ _ _ Rc H X D k B) as (Dk & _). eapply detached_exec; eauto. }
  assert (through (length (s_flights st3)) k st4 /\ handed (length (s_flights st3)) evs4 = []) as (T & E).
  { destruct L as [(p & d & y & -> & N & Ek)|(m & ->)].
    - cbn [step] in H4. destruct (begin_publish_inv _ _ _ _ _ H4) as (y' & N' & [(_ & -> & ->)|(_ & -> & ->)]).
      + split; auto. left. exists p, d, y. simpl. rewrite nth_error_app2, Nat.sub_diag; auto.
      + split; auto. right; right. simpl. rewrite nth_error_app2, Nat.sub_diag; auto.
    - simpl in H4. destruct (get_bus st3 k) as [x|] eqn:G; [|discriminate]. unfold test_bus_fn in H4. rewrite G in H4.
      destruct D3 as (x' & G' & F). rewrite G in G'. injection G' as <-. rewrite F in H4. injection H4 as <- <-.
      split; auto. right; right. simpl. rewrite nth_error_app2, Nat.sub_diag; auto. }
  rewrite handed_app, E. simpl. apply (dry_exec ls5 st4 st5 tr5 _ k); auto. eapply detached_step; eauto.
Qed.
Print Assumptions C28_publish.

(** Every bus strictly below [b] is stopped when Detach has returned, unless some thread has
    started it again meanwhile. *)
Theorem C28_stopped : forall st b st1 evs ls st2 tr k,
  reach st -> step (LDetach b) st = Some (st1, evs) -> exec ls st1 = Some (st2, tr) ->
  nth_error (s_detaches st2) (length (s_detaches st)) = Some [] -> below st2 b k -> k <> b -> ~ In (LStart k) ls ->
  exists x, get_bus st2 k = Some x /\ b_run x = false.
Proof.
  intros st b st1 evs ls st2 tr k Rc H X D B Ne N.
  destruct (detach_done _ _ _ _ _ _ _ Rc H X D k B) as (_ & A). destruct (A Ne); [auto|contradiction].
Qed.
Print Assumptions C28_stopped.

(** The detaching thread [i] works on [b], or is done. *)
Definition bottom (ds : list dframe) : option nat :=
  match rev ds with [] => None | (DLock b | DKids b _) :: _ => Some b end.

Lemma bottom_cons f ds : ds <> [] -> bottom (f :: ds) = bottom ds.
Proof.
  intros Ne. unfold bottom. simpl. destruct (rev ds) eqn:E; [|reflexivity].
  apply (f_equal (@rev _)) in E. rewrite rev_involutive in E. contradiction.
Qed.

Lemma bottom_step l st st' evs i ds b : step l st = Some (st', evs) -> nth_error (s_detaches st) i = Some ds -> bottom ds = Some b ->
  exists ds', nth_error (s_detaches st') i = Some ds' /\ (bottom ds' = Some b \/ (ds' = [] /\ ds = [DKids b []] /\ l = LDetachStep i)).
Proof.
  intros H N B.
  assert (l = LDetachStep i \/ nth_error (s_detaches st') i = Some ds) as [->|N'].
  { pose proof (nth_error_Some_lt _ _ _ N) as Li.
    destruct l; try (right; step_cases H; simpl; acc; simpl; auto using nth_snoc_old; fail).
    destruct (Nat.eq_dec i0 i) as [->|Ne]; [left; eauto|]. right.
    destruct (detach_inv _ _ _ _ H) as (ds0 & ds' & a & N0 & D & E).
    destruct (detach_rest i0 ds' a st) as (_ & F & _). rewrite E, F. now rewrite list_set_ne. }
  2: { exists ds. auto. }
  destruct (detach_inv _ _ _ _ H) as (ds0 & ds' & a & N0 & D & E). rewrite N in N0. injection N0 as <-.
  exists ds'. split.
  { destruct (detach_rest i ds' a st) as (_ & F & _). rewrite E, F. apply list_set_eq. eapply nth_error_Some_lt; eauto. }
  inversion D; subst.
  - left. destruct stk as [|g stk]; [exact B|]. rewrite bottom_cons in B by discriminate. now rewrite bottom_cons by discriminate.
  - destruct ds' as [|g stk]; [|left; now rewrite bottom_cons in B by discriminate].
    right. injection B as ->. auto.
  - left. rewrite bottom_cons by discriminate. destruct stk as [|g stk]; [exact B|].
    rewrite bottom_cons in B by discriminate. now rewrite bottom_cons by discriminate.
Qed.

Lemma done_step l st st' evs i : step l st = Some (st', evs) -> nth_error (s_detaches st) i = Some [] -> nth_error (s_detaches st') i = Some [].
Proof.
  intros H N. pose proof (nth_error_Some_lt _ _ _ N) as Li.
  destruct l; try (step_cases H; simpl; acc; simpl; auto using nth_snoc_old; fail).
  destruct (detach_inv _ _ _ _ H) as (ds0 & ds' & a & N0 & D & E).
  destruct (Nat.eq_dec i0 i) as [->|Ne]; [rewrite N in N0; injection N0 as <-; inversion D|].
  destruct (detach_rest i0 ds' a st) as (_ & F & _). rewrite E, F. now rewrite list_set_ne.
Qed.

Lemma below_exec ls : forall st st' tr b k, exec ls st = Some (st', tr) -> below st b k -> below st' b k.
Proof.
  induction ls as [|l ls IH]; intros st st' tr b k X B.
  - simpl in X. now injection X as <- <-.
  - apply exec_cons_inv in X. destruct X as (st1 & e1 & e2 & H1 & H2 & ->). eapply IH; eauto. eapply step_below_mono; eauto.
Qed.

Lemma sealing st b st1 evs : reach st -> step (LDetach b) st = Some (st1, evs) ->
  forall ls st2 tr, exec ls st1 = Some (st2, tr) -> (forall k, below st2 b k -> k <> b -> ~ In (LStart k) ls) ->
  exists ds, nth_error (s_detaches st2) (length (s_detaches st)) = Some ds /\ (bottom ds = Some b \/ (ds = [] /\ sealed b st2)).
Proof.
  intros Rc H. assert (reach st1) as Rc1 by (eapply reach_step; eauto).
  apply (exec_trace_ind st1 (fun st2 ls tr => (forall k, below st2 b k -> k <> b -> ~ In (LStart k) ls) ->
    exists ds, nth_error (s_detaches st2) (length (s_detaches st)) = Some ds /\ (bottom ds = Some b \/ (ds = [] /\ sealed b st2)))).
  - intros _. destruct (cutting_start _ _ _ _ H) as (ds & N & _). exists [DLock b]. split; auto.
    cbn [step] in H. destruct (get_bus st b); [|discriminate]. injection H as <- <-. simpl. apply nth_snoc_new.
  - intros ls l st2 st3 tr e X IH H3 NS.
    assert (reach st2) as Rc2 by (eapply reach_exec; eauto).
    destruct IH as (ds & N & Q).
    { intros k B Ne I. apply (NS k); auto; [eapply step_below_mono; eauto|]. apply in_app_iff. auto. }
    destruct Q as [B|(-> & S)].
    + destruct (bottom_step _ _ _ _ _ _ _ H3 N B) as (ds' & N' & [B'|(-> & -> & ->)]); [eauto|].
      exists []. split; auto. right. split; auto. eapply seal_start; eauto using reach_tree, reach_lock.
    + exists []. split; [eapply done_step; eauto|]. right. split; auto.
      pose proof (detach_done _ _ _ _ _ _ _ Rc H X N) as DD.
      eapply sealed_step; eauto using reach_tree, reach_lock.
      * apply DD. constructor.
      * intros k B Ne. destruct (DD k B) as (A & C). split; auto. destruct (C Ne) as [|I]; auto. exfalso.
        apply (NS k); auto; [eapply step_below_mono; eauto|]. apply in_app_iff. auto.
Qed.

Lemma done_exec ls : forall st st' tr i, exec ls st = Some (st', tr) -> nth_error (s_detaches st) i = Some [] -> nth_error (s_detaches st') i = Some [].
Proof.
  induction ls as [|l ls IH]; intros st st' tr i X N.
  - simpl in X. now injection X as <- <-.
  - apply exec_cons_inv in X. destruct X as (st1 & e1 & e2 & H1 & H2 & ->). eapply IH; eauto. eapply done_step; eauto.
Qed.

(** Once Detach has returned, no subscriber of a bus strictly below [b] is handed anything, not even
    out of a distribution that was under way, as long as none of these buses is started again. *)
Theorem C28_unserved : forall st b st1 evs ls st2 tr ls3 st3 tr3,
  reach st -> step (LDetach b) st = Some (st1, evs) -> exec ls st1 = Some (st2, tr) ->
  nth_error (s_detaches st2) (length (s_detaches st)) = Some [] ->
  exec ls3 st2 = Some (st3, tr3) ->
  (forall k, below st3 b k -> k <> b -> ~ In (LStart k) (ls ++ ls3)) ->
  forall k r s m, below st3 b k -> k <> b -> ~ In (EvReceive r k s m) tr3.
Proof.
  intros st b st1 evs ls st2 tr ls3 st3 tr3 Rc H X D X3. revert ls3 st3 tr3 X3.
  assert (reach st1) as Rc1 by (eapply reach_step; eauto).
  assert (reach st2) as Rc2 by (eapply reach_exec; eauto).
  apply (exec_trace_ind st2 (fun st3 ls3 tr3 => (forall k, below st3 b k -> k <> b -> ~ In (LStart k) (ls ++ ls3)) ->
    forall k r s m, below st3 b k -> k <> b -> ~ In (EvReceive r k s m) tr3)); [intros; auto|].
  intros ls3 l st3 st4 tr3 e X3 IH H4 NS k r s m B Ne I.
  assert (reach st3) as Rc3 by (eapply reach_exec; eauto).
  assert (exec (ls ++ ls3) st1 = Some (st3, tr ++ tr3)) as X13 by (rewrite exec_app, X, X3; reflexivity).
  assert (forall j, below st3 b j -> j <> b -> ~ In (LStart j) (ls ++ ls3)) as NS3.
  { intros j Bj Nj J. apply (NS j); auto; [eapply step_below_mono; eauto|]. rewrite app_assoc. apply in_app_iff. auto. }
  pose proof (done_exec _ _ _ _ _ X3 D) as D3.
  pose proof (detach_done _ _ _ _ _ _ _ Rc H X13 D3) as DD.
  assert (b < length (s_buses st3)) as Lb. { destruct (DD b) as ((x & G & _) & _); [constructor|]. eapply get_lt; eauto. }
  assert (below st3 b k) as B3.
  { destruct (below_new _ _ _ _ _ _ (reach_tree _ Rc3) H4 B Lb) as [?|(p & x & -> & Bp & Kp & G & F)]; auto.
    destruct (DD p Bp) as ((x' & G' & F') & _). congruence. }
  apply in_app_iff in I. destruct I as [I|I]; [apply (IH NS3 k r s m B3 Ne I)|].
  destruct (sealing _ _ _ _ Rc H _ _ _ X13 NS3) as (ds & N & Q). rewrite D3 in N. injection N as <-.
  destruct Q as [Q|(_ & S)]; [discriminate|].
  destruct (receive_inv _ _ _ _ _ _ _ _ H4 I) as (x & ss & stk & rest & y & _ & G & R & _).
  apply Ne. apply (S r (FSubs k (s :: ss))); auto. exists x. split; auto. rewrite R. now left.
Qed.
Print Assumptions C28_unserved.

Lemma reach_named st : reach st -> forall k x, get_bus st k = Some x -> b_name x <> ""%string.
Proof.
  revert st. apply (reach_ind (fun st => forall k x, get_bus st k = Some x -> b_name x <> ""%string)).
  - intros k x G. unfold get_bus in G. simpl in G. destruct k; discriminate.
  - intros l st st' evs _ IH H k x' G'. destruct (step_back _ _ _ _ _ _ H G') as [(x & G & D)|G].
    + rewrite (d_name _ _ _ _ _ _ D). eauto.
    + destruct (step_new _ _ _ _ _ _ H G G') as (_ & _ & [(n & _ & Ne & ->)|[(n & g & _ & Ne & ->)|(b & xb & n & t & _ & _ & Ne & _ & _ & ->)]]); exact Ne.
Qed.

(** Creating a child bus on a detached bus fails: with ArgumentNull, or with DuplicateKey if the
    name is taken; or it waits for the children lock. *)
Theorem C28_no_children : forall st b st1 evs ls st2 tr k name ls3 st3 tr3 st4 evs4,
  reach st -> step (LDetach b) st = Some (st1, evs) -> exec ls st1 = Some (st2, tr) ->
  nth_error (s_detaches st2) (length (s_detaches st)) = Some [] -> below st2 b k ->
  exec ls3 st2 = Some (st3, tr3) -> step (LChild k name) st3 = Some (st4, evs4) ->
  st4 = st3 /\
  (((forall c, ~ child_named st3 k name c) /\ evs4 = [EvRes (Throw (ArgumentNull "name"))]) \/
   ((exists c, child_named st3 k name c) /\ evs4 = [EvRes (Throw (DuplicateKey name))])).
Proof.
  intros st b st1 evs ls st2 tr k name ls3 st3 tr3 st4 evs4 Rc H X D B X3 H4.
  assert (reach st1) as Rc1 by (eapply reach_step; eauto).
  assert (reach st2) as Rc2 by (eapply reach_exec; eauto).
  assert (reach st3) as Rc3 by (eapply reach_exec; eauto).
  assert (detached k st3) as (x & G & F).
  { destruct (detach_done _ _ _ _ _ _ _ Rc H X D k B) as (Dk & _). eapply detached_exec; eauto. }
  destruct (C26_create _ _ _ _ _ _ Rc3 G H4) as [(_ & _ & Fn & _)|(-> & e & -> & Q)]; [contradiction|].
  split; auto. destruct Q as [(-> & ->)|[(_ & C & ->)|(_ & NC & _ & ->)]]; auto.
  left. split; auto. intros c (_ & y & Gy & Ny). now apply (reach_named _ Rc3 _ _ Gy).
Qed.
Print Assumptions C28_no_children.

(** Detach on "a" while the bus thread is at the root; afterwards its child "c" is cut off. *)
Example C28_case : exists st tr st1 evs st2 tr2 st3 tr3,
  exec (ex_setup ++ ex_publish ++ ex_begin) init = Some (st, tr) /\ step (LDetach 2) st = Some (st1, evs) /\
  exec (repeat (LDetachStep 0) 5) st1 = Some (st2, tr2) /\ nth_error (s_detaches st2) (length (s_detaches st)) = Some [] /\
  below st2 2 3 /\
  exec ([LPublishMsg 3 (mkM "c" "t" Emp); LRun 0; LReturn 0] ++ repeat (LRun 0) 5) st2 = Some (st3, tr3) /\
  handed 2 tr3 = [] /\ received 0 tr3 = [(0, 0, ex_msg0)].
Proof.
  do 8 eexists. split; [vm_compute; reflexivity|]. split; [vm_compute; reflexivity|]. split; [vm_compute; reflexivity|].
  split; [vm_compute; reflexivity|]. split.
  - apply (below_kid _ _ 2); [constructor|]. eexists. split; [vm_compute; reflexivity|]. vm_compute. auto.
  - split; [vm_compute; reflexivity|]. vm_compute. auto.
Qed.

(** * C29 *)

(** Bus.cpp:29-44: the constructor. *)
Theorem C29_constructor : forall st name f,
  (name <> ""%string -> exists st1 x, step (LNewCustom name (Some f)) st = Some (st1, [EvRes (Ok (RNew (length (s_buses st))))]) /\
     get_bus st1 (length (s_buses st)) = Some x /\ b_name x = name /\ b_fn x = Some (ToClient f)) /\
  step (LNewCustom "" (Some f)) st = Some (st, [EvRes (Throw (ArgumentNull "name"))]) /\
  step (LNewCustom name None) st = Some (st, [EvRes (Throw (ArgumentNull "name"))]).
Proof.
  intros st name f. split; [|split].
  - intros Ne. simpl. destruct (String.eqb_spec name ""); [contradiction|]. do 2 eexists. split; [reflexivity|].
    split; [rewrite get_add, Nat.eqb_refl; reflexivity|]. auto.
  - reflexivity.
  - simpl. now destruct (String.eqb name "").
Qed.
Print Assumptions C29_constructor.

Definition custom (b f : nat) (st : state) : Prop :=
  b < length (s_buses st) /\ (forall p, ~ kid st p b) /\ (forall x, get_bus st b = Some x -> b_root x = false) /\
  forall k x, below st b k -> get_bus st k = Some x -> b_fn x = Some (ToClient f) \/ b_fn x = None.

Lemma custom_step l st st' evs b f : tree_inv st -> custom b f st -> step l st = Some (st', evs) -> custom b f st'.
Proof.
  intros T (L & P & R & F) H. pose proof (step_len _ _ _ _ H) as Ln. split; [lia|]. split; [|split].
  - intros p K. destruct (step_kid_inv _ _ _ _ _ _ H K) as [K0|(name & x & _ & _ & _ & _ & E & _)]; [eapply P; eauto|lia].
  - intros x' G'. destruct (step_back _ _ _ _ _ _ H G') as [(x & G & D)|G].
    + rewrite (d_root _ _ _ _ _ _ D). eauto.
    + unfold get_bus in G. apply nth_error_None in G. lia.
  - intros k x' B G'. destruct (below_new _ _ _ _ _ _ T H B L) as [B0|(p & xp & -> & Bp & Kp & Gp & Fp)].
    + destruct (step_back _ _ _ _ _ _ H G') as [(x & G & D)|G].
      * destruct (d_fn _ _ _ _ _ _ D) as [E|(E & _)]; [rewrite E; eauto|auto].
      * destruct (below_old _ _ _ T B0) as [<-|Lk]; unfold get_bus in G; apply nth_error_None in G; lia.
    + assert (get_bus st (length (s_buses st)) = None) as Gn by (unfold get_bus; apply nth_error_None; lia).
      destruct (step_kid_inv _ _ _ _ _ _ H Kp) as [K0|(name & x & -> & _)]; [apply (t_lt _ T) in K0; lia|].
      destruct (step_new _ _ _ _ _ _ H Gn G') as (_ & _ & [(n & E & _)|[(n & g & E & _)|(c & xc & n & t & E & Gc & _ & Ft & _ & ->)]]); try discriminate.
      injection E as <- <-. simpl. destruct (F _ _ Bp Gc) as [E|E]; [left|]; congruence.
Qed.

Lemma custom_start st name f st1 evs : tree_inv st -> step (LNewCustom name (Some f)) st = Some (st1, evs) -> name <> ""%string ->
  custom (length (s_buses st)) f st1.
Proof.
  intros T H Ne. pose proof H as H0. simpl in H. destruct (String.eqb_spec name ""); [contradiction|]. unfold ok in H. injection H as E <-.
  assert (forall p k, kid st1 p k -> kid st p k) as NK.
  { intros p k K. destruct (step_kid_inv _ _ _ _ _ _ H0 K) as [K0|(nm & x & L & _)]; [auto|discriminate]. }
  assert (get_bus st1 (length (s_buses st)) = Some (new_bus name (Some (ToClient f)) false)) as G.
  { rewrite <- E, get_add, Nat.eqb_refl. reflexivity. }
  split; [eapply get_lt; eauto|]. split; [|split].
  - intros p K. apply NK in K. apply (t_lt _ T) in K. lia.
  - intros x Gx. rewrite G in Gx. now injection Gx as <-.
  - intros k x B Gx. assert (k = length (s_buses st)) as ->.
    { clear Gx. induction B as [|p c Bp IH Kp]; auto. exfalso. subst. apply NK in Kp. apply (t_lt _ T) in Kp. lia. }
    rewrite G in Gx. injection Gx as <-. now left.
Qed.

Lemma custom_exec ls : forall st st' tr b f, reach st -> custom b f st -> exec ls st = Some (st', tr) -> custom b f st'.
Proof.
  induction ls as [|l ls IH]; intros st st' tr b f Rc C X.
  - simpl in X. now injection X as <- <-.
  - apply exec_cons_inv in X. destruct X as (st1 & e1 & e2 & H1 & H2 & ->).
    eapply IH; [eapply reach_step; eauto| |eauto]. eapply custom_step; eauto using reach_tree.
Qed.

(** A custom-function bus and all buses below it forward to the client's function, until detached. *)
Theorem C29_target : forall st name f st1 evs ls st2 tr k x,
  reach st -> name <> ""%string -> step (LNewCustom name (Some f)) st = Some (st1, evs) -> exec ls st1 = Some (st2, tr) ->
  below st2 (length (s_buses st)) k -> get_bus st2 k = Some x -> b_fn x = Some (ToClient f) \/ b_fn x = None.
Proof.
  intros st name f st1 evs ls st2 tr k x Rc Ne H X B G. assert (reach st1) as Rc1 by (eapply reach_step; eauto).
  destruct (custom_exec _ _ _ _ _ _ Rc1 (custom_start _ _ _ _ _ (reach_tree _ Rc) H Ne) X) as (_ & _ & _ & F). eauto.
Qed.
Print Assumptions C29_target.

(** A publication through it calls the function exactly once, with the stamped message, before
    Publish returns (unless the bus is detached or the publisher reset meanwhile). *)
Theorem C29_forwarded_once : forall st0 name f st00 ev0 ls0 st tr0 p y x d st1 evs ls st2 tr i,
  reach st0 -> name <> ""%string -> step (LNewCustom name (Some f)) st0 = Some (st00, ev0) -> exec ls0 st00 = Some (st, tr0) ->
  nth_error (s_pubs st) p = Some y -> below st (length (s_buses st0)) (p_bus y) -> get_bus st (p_bus y) = Some x ->
  i = length (s_flights st) ->
  step (LPublish p d) st = Some (st1, evs) -> exec ls st1 = Some (st2, tr) -> returned i (evs ++ tr) <> [] ->
  ~ detached (p_bus y) st2 -> ~ reset p st2 ->
  handed i (evs ++ tr) = [(ToClient f, mkM (b_name x) (p_topic y) d)] /\ returned i (evs ++ tr) = [Ok tt].
Proof.
  intros st0 name f st00 ev0 ls0 st tr0 p y x d st1 evs ls st2 tr i Rc Ne H0 X0 N B G Ei H X Nr Nd Np.
  assert (reach st00) as Rc00 by (eapply reach_step; eauto).
  assert (reach st) as Rcs by (eapply reach_exec; eauto).
  assert (exec (LPublish p d :: ls) st = Some (st2, evs ++ tr)) as X'. { cbn [exec]. now rewrite H, X. }
  assert (p_fn y = true) as Fy.
  { destruct (p_fn y) eqn:E; auto. exfalso. apply Np. eapply reset_exec; [|exact X']. exists y. auto. }
  destruct (C29_target _ _ _ _ _ _ _ _ _ _ Rc Ne H0 X0 B G) as [F|F].
  - eapply C27_delivered; eauto.
  - exfalso. apply Nd. eapply detached_exec; [|exact X']. exists x. auto.
Qed.
Print Assumptions C29_forwarded_once.

(** Undisturbed, Publish calls the function in the publishing thread and queues nothing. *)
Theorem C29_at_once : forall st p y x d f i,
  reach st -> nth_error (s_pubs st) p = Some y -> p_fn y = true -> get_bus st (p_bus y) = Some x -> b_fn x = Some (ToClient f) ->
  i = length (s_flights st) ->
  exists st', exec [LPublish p d; LFly i; LFly i] st = Some (st', [EvClient f i (mkM (b_name x) (p_topic y) d); EvFlight i (Ok tt)]) /\
    forall k, get_bus st' k = get_bus st k.
Proof.
  intros st p y x d f i Rc N Fy G F ->. eexists. split.
  - cbn [exec step]. unfold begin_publish. rewrite N, Fy. unfold fly_step at 1. cbn [s_flights set_flights]. rewrite nth_snoc_new.
    cbn [s_pubs set_flights]. rewrite N, Fy. rewrite get_set_flights, G. unfold test_bus_fn at 1. rewrite get_set_flights, G, F.
    unfold fly_step. cbn [s_flights set_flights]. rewrite list_set_eq by (rewrite app_length; simpl; lia).
    rewrite !get_set_flights, G, F. cbn [call_target]. reflexivity.
  - intros k. unfold get_bus. reflexivity.
Qed.
Print Assumptions C29_at_once.

(** Start on it returns at once; no bus thread appears. *)
Theorem C29_start : forall st name f st1 evs ls st2 tr,
  reach st -> name <> ""%string -> step (LNewCustom name (Some f)) st = Some (st1, evs) -> exec ls st1 = Some (st2, tr) ->
  exists x, get_bus st2 (length (s_buses st)) = Some x /\ b_runner x = RIdle /\
    step (LStart (length (s_buses st))) st2 = Some (set_bus (length (s_buses st)) (with_run true x) st2, [EvRes (Ok RNone)]).
Proof.
  intros st name f st1 evs ls st2 tr Rc Ne H X.
  assert (reach st1) as Rc1 by (eapply reach_step; eauto). assert (reach st2) as Rc2 by (eapply reach_exec; eauto).
  destruct (custom_exec _ _ _ _ _ _ Rc1 (custom_start _ _ _ _ _ (reach_tree _ Rc) H Ne) X) as (L & _ & R & _).
  destruct (get_bus st2 (length (s_buses st))) as [x|] eqn:G; [|unfold get_bus in G; apply nth_error_None in G; lia].
  exists x. split; auto. specialize (R x eq_refl). split.
  - destruct (b_runner x) eqn:E; auto; exfalso;
      assert (b_root x = true) by (apply (t_runner _ (reach_tree _ Rc2) _ _ G); congruence); congruence.
  - cbn [step]. rewrite G, R. reflexivity.
Qed.
Print Assumptions C29_start.

Lemma exec_len ls : forall st st' tr, exec ls st = Some (st', tr) -> length (s_buses st) <= length (s_buses st').
Proof.
  induction ls as [|l ls IH]; intros st st' tr X.
  - simpl in X. injection X as <- <-. auto.
  - apply exec_cons_inv in X. destruct X as (st1 & e1 & e2 & H1 & H2 & ->). apply step_len in H1. apply IH in H2. lia.
Qed.

Lemma not_received ls : forall st st' tr k r s m, reach st -> exec ls st = Some (st', tr) -> length (s_buses st') <= k -> ~ In (EvReceive r k s m) tr.
Proof.
  induction ls as [|l ls IH]; intros st st' tr k r s m Rc X L I.
  - simpl in X. injection X as <- <-. contradiction.
  - apply exec_cons_inv in X. destruct X as (st1 & e1 & e2 & H1 & H2 & ->). assert (reach st1) as Rc1 by (eapply reach_step; eauto).
    apply in_app_iff in I. destruct I as [I|I]; [|apply (IH _ _ _ _ _ _ _ Rc1 H2 L I)].
    destruct (receive_registered _ _ _ _ _ _ _ _ (reach_tree _ Rc) (reach_lock _ Rc) H1 I) as (_ & (xb & Gb & _) & _).
    apply get_lt in Gb. pose proof (step_len _ _ _ _ H1). pose proof (exec_len _ _ _ _ H2). lia.
Qed.

(** Its subscribers, and those of buses below it, are never handed anything by any bus thread. *)
Theorem C29_never_served : forall st name f st1 evs ls st2 tr,
  reach st -> name <> ""%string -> step (LNewCustom name (Some f)) st = Some (st1, evs) -> exec ls st1 = Some (st2, tr) ->
  forall k r s m, below st2 (length (s_buses st)) k -> ~ In (EvReceive r k s m) tr.
Proof.
  intros st name f st1 evs ls st2 tr Rc Ne H X. assert (reach st1) as Rc1 by (eapply reach_step; eauto).
  pose proof (custom_start _ _ _ _ _ (reach_tree _ Rc) H Ne) as C1. revert ls st2 tr X.
  apply (exec_trace_ind st1 (fun st2 ls tr => forall k r s m, below st2 (length (s_buses st)) k -> ~ In (EvReceive r k s m) tr)); [intros; auto|].
  intros ls l st2 st3 tr e X IH H3 k r s m B I.
  assert (reach st2) as Rc2 by (eapply reach_exec; eauto). pose proof (reach_tree _ Rc2) as T.
  pose proof (custom_exec _ _ _ _ _ _ Rc1 C1 X) as (L & P & R & _).
  apply in_app_iff in I. destruct I as [I|I].
  - destruct (below_new _ _ _ _ _ _ T H3 B L) as [B0|(p & x & -> & Bp & _)]; [apply (IH k r s m B0 I)|].
    (* a bus that did not exist yet received nothing *)
    clear IH. revert I. apply (not_received ls st1 st2 tr); auto.
  - destruct (receive_registered _ _ _ _ _ _ _ _ T (reach_lock _ Rc2) H3 I) as (_ & (xb & Gb & _) & Br & (x & G & Rx)).
    assert (below st2 (length (s_buses st)) k) as B0 by (eapply step_below_inv; eauto; eapply get_lt; eauto).
    destruct (below_linear _ _ _ _ T B0 Br) as [B1|B1].
    + pose proof (below_root _ _ _ _ T B1 G Rx) as E. rewrite <- E in G. rewrite (R _ G) in Rx. discriminate.
    + inversion B1 as [|p c Bp Kp]; subst; [rewrite (R _ G) in Rx; discriminate|]. now apply (P p).
Qed.
Print Assumptions C29_never_served.

(** A custom-function bus 4 beside the example's buses, with a child, a subscriber and a publisher on each. *)
Example C29_case : exists st tr st1 evs st2 tr2 y,
  exec ex_setup init = Some (st, tr) /\ step (LNewCustom "x" (Some 5)) st = Some (st1, evs) /\
  exec [LChild 4 "y"; LSub 4 "t" (Some (Some 1)); LSub 5 "t" (Some (Some 2)); LPub 5 "t"; LStart 4; LPublish 2 Emp; LFly 0; LFly 0] st1 = Some (st2, tr2) /\
  below st2 (length (s_buses st)) 5 /\ nth_error (s_pubs st2) 2 = Some y /\ p_bus y = 5 /\
  handed 0 tr2 = [(ToClient 5, mkM "y" "t" Emp)] /\ returned 0 tr2 = [Ok tt].
Proof.
  do 7 eexists. split; [vm_compute; reflexivity|]. split; [vm_compute; reflexivity|]. split; [vm_compute; reflexivity|].
  split; [|vm_compute; auto]. apply (below_kid _ _ 4); [constructor|]. eexists. split; [vm_compute; reflexivity|]. vm_compute. auto.
Qed.

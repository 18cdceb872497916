(** Actions: correlation of responses, at most once, envelopes (C34-C38, C41, C64). *)
From Coq Require Import String Ascii List Arith ZArith Bool Lia Sorted.
From Verif Require Import Prelude OMap DatagramModel DatagramSpec DatagramRefine DatagramStmt DatagramProps.
From Verif Require Import BusModel BusSpec BusProofs BusTree BusLocks BusLocks2 BusLocks3 BusDist BusAccount BusOnce BusServe BusFlight BusProgress BusDeliver BusDeliveryProps BusApiProps BusLockProps ActionSpec ActionProofs.
Import ListNotations.
Open Scope list_scope.

(** The running example: a provider and a consumer of "act" on one bus; a request is answered
    while the provider's callback runs. *)
Definition act_setup : list label :=
  [ LNewRoot "root"; LProvider 0 "act" (Some 5); LInstallProvider 0; LConsumer 0 "act"; LInstallConsumer 0; LStart 0 ].
Definition act_request : list label := [ LRequest 0 "id1" (Val (DInt 1)) (Some 9); LFly 0; LFly 0 ].
(** Up to the provider's callback. *)
Definition act_provide : list label := [ LRun 0; LRun 0; LRun 0; LRun 0 ].
Definition act_respond : list label := [ LRespond 0 "id1" (Val (DInt 2)); LFly 1; LFly 1 ].
(** The rest of the first distribution, and the second up to the request callback. *)
Definition act_deliver : list label :=
  [ LReturn 0; LRun 0; LRun 0; LRun 0; LRun 0; LRun 0;
    LRun 0; LRun 0; LRun 0; LRun 0; LRun 0; LRun 0 ].
Definition act_done : list label := [ LReturn 0; LRun 0; LRun 0; LRun 0; LRun 0; LRun 0 ].
Definition act_all : list label := act_setup ++ act_request ++ act_provide ++ act_respond ++ act_deliver.

Definition act_m0 : pubn := (0, mkM "root" "act/request" (request_of "id1" (Val (DInt 1)))).
Definition act_m1 : pubn := (1, mkM "root" "act/response" (response_of "id1" (Val (DInt 2)))).

(** ** Steps that hand a message to the subscriber of a consumer or provider *)

Lemma receive_step l st st' evs r b s m :
  step l st = Some (st', evs) -> In (EvReceive r b s m) evs ->
  exists x ss stk rest x', l = LRun r /\ get_bus st r = Some x /\ b_runner x = RDist m (FSubs b (s :: ss) :: stk) None rest /\
    s_conss st' = s_conss st /\ get_bus st' r = Some x' /\
    match receive st s (snd m) with
    | InvSkip => evs = [EvReceive r b s m] /\ b_runner x' = RDist m (FSubs b ss :: stk) None rest
    | InvCall k => evs = [EvReceive r b s m; EvInvoke r s m k] /\ b_runner x' = RDist m (FSubs b ss :: stk) (Some k) rest
    | InvThrow e => evs = EvReceive r b s m :: map (EvLost r) (m :: rest) ++ [EvStop r (Some e)] /\ b_runner x' = RIdle
    end.
Proof.
  intros H I. assert (about r (EvReceive r b s m) = true) as Ab by (simpl; apply Nat.eqb_refl).
  destruct (runner_label_dec l r) as [RL|RL]; [|rewrite (other_events _ _ _ _ _ _ H RL I) in Ab; discriminate].
  destruct (run_inv' _ _ _ _ _ H RL) as (x & rn & act & G & RC & E).
  assert (exists x', get_bus st' r = Some x' /\ b_runner x' = rn) as (x' & G' & R').
  { rewrite E, run_view, G. eexists. split; [reflexivity|]. simpl. now rewrite Nat.eqb_refl. }
  inversion RC; subst l act evs; cbn [In] in I; try contradiction;
    repeat match goal with H : _ \/ _ |- _ => destruct H as [I|I]; try discriminate I; try contradiction end;
    try (injection I as <- <- <-);
    try (exfalso; apply in_app_iff in I as [I|[I|[]]]; [|discriminate]; apply in_map_iff in I as (? & I & _); discriminate);
    match goal with Q : _ = b_runner x |- _ => rename Q into R0 end;
    exists x, ss, stk, rest, x'; rewrite <- R0; repeat (split; [reflexivity || assumption|]).
  - split; [rewrite E; unfold after_run; simpl; now rewrite conss_upd|]. split; auto. match goal with Q : receive _ _ _ = _ |- _ => rewrite Q end. split; auto; congruence.
  - split; [rewrite E; unfold after_run; simpl; now rewrite conss_upd|]. split; auto. match goal with Q : receive _ _ _ = _ |- _ => rewrite Q end. split; auto; congruence.
  - split; [rewrite E; unfold after_run, apply_act; simpl; now rewrite conss_upd, conss_unwind, ?conss_upd|]. split; auto. match goal with Q : receive _ _ _ = _ |- _ => rewrite Q end. split; auto; congruence.
Qed.

Lemma has_id_envelope d id : has_id d id <-> envelope_id d = Some id.
Proof.
  split.
  - intros (kvs & -> & E). simpl. now rewrite E.
  - destruct d as [| | |kvs]; try discriminate. simpl. destruct (olookup "invocationId" kvs) as [[|[]| |]|] eqn:E; try discriminate.
    intros [= ->]. exists kvs. auto.
Qed.

Lemma answer_envelope d id p : answer d id p <-> envelope_id d = Some id /\ envelope_response d = p.
Proof.
  split.
  - intros (kvs & -> & E & [E2|(E2 & ->)]); simpl; rewrite E, E2; auto.
  - intros (E & <-). apply has_id_envelope in E as (kvs & -> & E). exists kvs. split; auto. split; auto. simpl. destruct (olookup "response" kvs); auto.
Qed.

Lemma receive_consumer st c s y m :
  consumer_on st c s -> nth_error (s_conss st) c = Some y ->
  receive st s m = match envelope_id (bm_data m) with
                   | None => InvThrow InvalidOperation
                   | Some id => match olookup id (co_open y) with
                                | Some u => InvCall (CallRequest c id u (envelope_response (bm_data m)))
                                | None => InvSkip
                                end
                   end.
Proof.
  intros (y' & q & Ny & _ & Nq & Ec) N. unfold receive. rewrite Nq, Ec. assert (y' = y) as -> by congruence. rewrite Ny. reflexivity.
Qed.

Lemma receive_prov st p s y m :
  provider_on st p s -> nth_error (s_provs st) p = Some y ->
  receive st s m = match envelope_id (bm_data m) with
                   | None => InvThrow InvalidOperation
                   | Some id => match pr_cb y with
                                | Some u => InvCall (CallProvider p id u (bm_data m))
                                | None => InvThrow BadFunctionCall
                                end
                   end.
Proof.
  intros (y' & q & Ny & _ & Nq & Ec) N. unfold receive. rewrite Nq, Ec. assert (y' = y) as -> by congruence. rewrite Ny. reflexivity.
Qed.

(** No thread is inside a request callback of [c] when a message reaches its subscriber. *)
Lemma receiving_alone l st st' evs r b s m c r' b' id u d :
  reach st -> consumer_on st c s -> step l st = Some (st', evs) -> In (EvReceive r b s m) evs -> ~ calling st r' b' (CallRequest c id u d).
Proof.
  intros Rc (y & q & Ny & Es & Nq & Ec) H I Ca.
  pose proof (reach_tree _ Rc) as T. pose proof (reach_lock _ Rc) as K.
  destruct (receive_step _ _ _ _ _ _ _ _ H I) as (x & ss & stk & rest & x' & _ & G & R & _).
  destruct (reach_sub_held _ Rc _ _ _ _ _ _ Ca) as (z & y' & Ny' & Gz & Iz). assert (y' = y) as -> by congruence.
  pose proof (k_stack _ K _ _ G) as Sk. rewrite R in Sk. simpl in Sk.
  destruct (stack_frame _ _ _ _ Sk (or_introl eq_refl)) as (zb & pre & Gb & _ & Ez).
  assert (b = b') as <-. { eapply (t_subone _ T b zb b' z s); eauto; [rewrite Ez; apply in_app_iff; right; now left|congruence]. }
  destruct Ca as (z' & m' & ss' & stk' & rest' & Gz' & R').
  assert (r = r') as <-.
  { apply (in_stack_unique st r r' (FSubs b (s :: ss)) (FSubs b ss') T K); auto.
    - exists x. split; auto. rewrite R. now left.
    - exists z'. split; auto. rewrite R'. now left. }
  congruence.
Qed.

Lemma cons_exec ls : forall st st' tr c y, exec ls st = Some (st', tr) -> nth_error (s_conss st) c = Some y ->
  exists y', nth_error (s_conss st') c = Some y' /\ co_sub y' = co_sub y /\ co_pub y' = co_pub y.
Proof.
  induction ls as [|l ls IH]; intros st st' tr c y X N.
  - simpl in X. injection X as <- <-. eauto.
  - apply exec_cons_inv in X. destruct X as (s1 & e1 & e2 & H1 & H2 & ->).
    destruct (step_cons _ _ _ _ _ _ H1 N) as (y1 & N1 & E1 & E2 & _).
    destruct (IH _ _ _ _ _ H2 N1) as (y' & N' & E3 & E4). exists y'. repeat split; congruence.
Qed.

(** The point of an execution at which a callback is entered. *)
Lemma invoke_point ls st ta tb r s m k :
  exec ls init = Some (st, ta ++ EvInvoke r s m k :: tb) ->
  exists ls1 ls2 st1 st2 tr1 tr2 b x q, ls = ls1 ++ LRun r :: ls2 /\ exec ls1 init = Some (st1, tr1) /\
    step (LRun r) st1 = Some (st2, [EvReceive r b s m; EvInvoke r s m k]) /\ exec ls2 st2 = Some (st, tr2) /\ ta = tr1 ++ [EvReceive r b s m] /\
    get_bus st1 r = Some x /\ current x = [m] /\ nth_error (s_subs st1) s = Some q /\ accepts (s_topic q) (bm_topic (snd m)) /\
    receive st1 s (snd m) = InvCall k.
Proof.
  intros X. remember (ta ++ EvInvoke r s m k :: tb) as tr eqn:Et. revert ta tb Et. revert ls st tr X.
  apply (exec_trace_ind init (fun st ls tr => forall ta tb, tr = ta ++ EvInvoke r s m k :: tb ->
    exists ls1 ls2 st1 st2 tr1 tr2 b x q, ls = ls1 ++ LRun r :: ls2 /\ exec ls1 init = Some (st1, tr1) /\
      step (LRun r) st1 = Some (st2, [EvReceive r b s m; EvInvoke r s m k]) /\ exec ls2 st2 = Some (st, tr2) /\ ta = tr1 ++ [EvReceive r b s m] /\
      get_bus st1 r = Some x /\ current x = [m] /\ nth_error (s_subs st1) s = Some q /\ accepts (s_topic q) (bm_topic (snd m)) /\
      receive st1 s (snd m) = InvCall k)).
  - intros [|? ?] tb E; discriminate.
  - intros ls l st st' tr evs X IH H ta tb E. apply app_split in E as [(d0 & E & _)|(d0 & -> & E)].
    + destruct (IH _ _ E) as (ls1 & ls2 & st1 & st2 & tr1 & tr2 & b & x & q & -> & X1 & H1 & X2 & Q).
      exists ls1, (ls2 ++ [l]), st1, st2, tr1, (tr2 ++ evs), b, x, q. split; [now rewrite <- app_assoc|]. split; auto. split; auto. split; auto.
      rewrite exec_app, X2. cbn [exec]. rewrite H. now rewrite app_nil_r.
    + destruct (invoke_inv l st st' evs r s m k H) as (x & b & ss & stk & rest & q & x' & El & G & R & Nq & Ac & Rv & Ev & _); [rewrite E; apply in_app_iff; right; now left|].
      rewrite Ev in E. assert (d0 = [EvReceive r b s m]) as ->.
      { destruct d0 as [|a [|a' e1]]; try discriminate; [now injection E as -> _|]. injection E as _ _ E. destruct e1; discriminate. }
      exists ls, [], st, st', tr, [], b, x, q. subst l evs. repeat split; auto. unfold current. now rewrite R.
Qed.

(** * C34 *)

(** Whenever a request callback [u] of consumer [c] is entered - for invocation id [id], with
    datagram [d] - then
    - [u] is the callback of the latest request that this very consumer made under [id];
    - the message being distributed is an envelope carrying [id] and [d], accepted by the root's
      queue before, and delivered to this consumer's own response subscriber;
    - it was sent by a provider's Respond with exactly [id] and [d], or published by some thread
      as such an envelope. *)
Theorem C34_correlated : forall ls st ta tb r s m c id u d,
  exec ls init = Some (st, ta ++ EvInvoke r s m (CallRequest c id u d) :: tb) ->
  latest id (requests c ta) = Some u /\
  answer (bm_data (snd m)) id d /\ In m (accepted r ta) /\
  (exists y, nth_error (s_conss st) c = Some y /\ co_sub y = s) /\
  ((exists p, In (LRespond p id d) ls) \/ published ls (snd m)).
Proof.
  intros ls st ta tb r s m c id u d X.
  destruct (invoke_point _ _ _ _ _ _ _ _ X) as (ls1 & ls2 & st1 & st2 & tr1 & tr2 & b & x & q & -> & X1 & H & X2 & -> & G & R & Nq & Ac & Rv).
  assert (reach st1) as Rc by (exists ls1, tr1; auto).
  destruct (receive_request _ _ _ _ _ _ _ Rv) as (q' & y & Nq' & Ecb & Ny & O & An). assert (q' = q) as -> by congruence.
  destruct (w_ccb _ (reach_wired _ Rc) _ _ _ Nq Ecb) as (y1 & Ny1 & Es). assert (y1 = y) as -> by congruence.
  destruct (current_sent _ _ _ _ x m X1 G) as (Acc & Sent); [rewrite R; now left|].
  split; [rewrite requests_app, latest_app; simpl; eapply open_registered; eauto|]. split; auto.
  split; [rewrite accepted_app; apply in_app_iff; auto|]. split.
  { destruct (step_cons _ _ _ _ _ _ H Ny) as (y2 & Ny2 & E2 & _). destruct (cons_exec _ _ _ _ _ _ X2 Ny2) as (y3 & N3 & E3 & _).
    exists y3. split; auto; congruence. }
  assert (exists t, s_topic q = (t ++ "/response")%string) as (t & Tq).
  { destruct (w_cons _ (reach_wired _ Rc) _ _ Ny) as (_ & t & q0 & z & N0 & T0 & _). exists t. rewrite Es in N0. congruence. }
  assert (bm_topic (snd m) = (t ++ "/response")%string) as Tm.
  { destruct Ac as [Ac|Ac]; [congruence|]. rewrite Tq in Ac. now apply response_not_all in Ac. }
  destruct Sent as [[(p & I)|(b' & I)]|[((p & id' & d' & I & E) & _)|(_ & t' & T')]].
  - right; left. exists p. apply in_app_iff; auto.
  - right; right. exists b'. apply in_app_iff; auto.
  - left. exists p. rewrite E in An. apply answer_envelope in An as (A1 & A2). simpl in A1, A2. injection A1 as <-. subst d'. apply in_app_iff; auto.
  - exfalso. rewrite Tm in T'. symmetry in T'. now apply request_not_response in T'.
Qed.
Print Assumptions C34_correlated.

Example C34_case : exists st ta, exec act_all init = Some (st, ta ++ EvInvoke 0 1 act_m1 (CallRequest 0 "id1" 9 (Val (DInt 2))) :: []) /\
  requests 0 ta = [("id1"%string, 9)] /\ In (LRespond 0 "id1" (Val (DInt 2))) act_all.
Proof.
  do 2 eexists. split.
  - match goal with |- ?a = Some (?s, _) => let v := eval vm_compute in a in
      match v with Some (?s', ?t) => let p := eval vm_compute in (removelast t) in
        instantiate (2 := s'); instantiate (1 := p) end end. vm_compute. reflexivity.
  - split; [vm_compute; reflexivity|vm_compute; auto 40].
Qed.

(** * C35, C64 *)

(** If invocation ids are not reused on consumer [c] and none of its request callbacks throws, then
    no request is answered twice. Full claim (C35): also if a callback throws; see
    [C35_throwing_refuted]. *)
Theorem C35_at_most_once_partial : forall ls st tr c,
  exec ls init = Some (st, tr) -> never_throws c ls ->
  NoDup (map fst (requests c tr)) -> NoDup (map fst (answered c tr)).
Proof. intros ls st tr c X NT ND. apply (fresh_all _ _ _ _ X NT ND). Qed.
Print Assumptions C35_at_most_once_partial.

(** ... and a further response to a request that has been answered does nothing: no callback, no
    change of any open request, and the bus goes on with the next subscriber. *)
Theorem C35_later_partial : forall ls st tr c s id l st' evs r b m,
  exec ls init = Some (st, tr) -> never_throws c ls -> NoDup (map fst (requests c tr)) ->
  consumer_on st c s -> In id (map fst (answered c tr)) ->
  step l st = Some (st', evs) -> In (EvReceive r b s m) evs -> has_id (bm_data (snd m)) id ->
  evs = [EvReceive r b s m] /\ s_conss st' = s_conss st.
Proof.
  intros ls st tr c s id l st' evs r b m X NT ND Co Ia H I Hi. assert (reach st) as Rc by (exists ls, tr; auto).
  destruct (fresh_all _ _ _ _ X NT ND) as (_ & _ & F).
  assert (forall u, ~ open_request st c id u) as NO.
  { intros u O. destruct (F _ _ O Ia) as (r' & b' & u' & d & Ca). eapply receiving_alone; eauto. }
  destruct (receive_step _ _ _ _ _ _ _ _ H I) as (x & ss & stk & rest & x' & _ & G & R & Ec & _ & Rv).
  pose proof Co as (y & q & Ny & _). rewrite (receive_consumer _ _ _ _ _ Co Ny) in Rv. apply has_id_envelope in Hi. rewrite Hi in Rv.
  destruct (olookup id (co_open y)) as [u|] eqn:O; [exfalso; apply (NO u); exists y; auto|]. destruct Rv; auto.
Qed.
Print Assumptions C35_later_partial.

(** The same run, followed by a response published a second time. *)
Definition act_again : list label :=
  act_all ++ act_done ++ [ LRespond 0 "id1" (Val (DInt 3)); LFly 2; LFly 2; LRun 0; LRun 0; LRun 0; LRun 0 ].

Example C35_case : exists st tr st' evs m, exec act_again init = Some (st, tr) /\ never_throws 0 act_again /\
  requests 0 tr = [("id1"%string, 9)] /\ answered 0 tr = [("id1"%string, 9)] /\ consumer_on st 0 1 /\
  step (LRun 0) st = Some (st', evs) /\ In (EvReceive 0 0 1 m) evs /\ has_id (bm_data (snd m)) "id1".
Proof.
  do 5 eexists. split; [vm_compute; reflexivity|]. split.
  { intros ls1 r e ls2 st1 tr1 E. exfalso. assert (In (LThrow r e) act_again) as I by (rewrite E; apply in_app_iff; right; now left).
    vm_compute in I. repeat destruct I as [I|I]; discriminate || contradiction. }
  split; [vm_compute; reflexivity|]. split; [vm_compute; reflexivity|].
  split; [do 2 eexists; vm_compute; auto|]. split; [vm_compute; reflexivity|]. split; [left; reflexivity|].
  eexists. split; vm_compute; reflexivity.
Qed.

(** A callback that throws is not forgotten: after the bus has been started again, the next
    response invokes it a second time, although its id was used for one request only. *)
Theorem C35_throwing_refuted : exists ls st tr, exec ls init = Some (st, tr) /\
  requests 0 tr = [("id1"%string, 9)] /\ answered 0 tr = [("id1"%string, 9); ("id1"%string, 9)].
Proof.
  exists (act_all ++ [ LThrow 0 (OtherException "x"); LStart 0; LRespond 0 "id1" (Val (DInt 3)); LFly 2; LFly 2; LRun 0; LRun 0; LRun 0; LRun 0; LRun 0 ]).
  do 2 eexists. split; [vm_compute; reflexivity|]. vm_compute. auto.
Qed.
Print Assumptions C35_throwing_refuted.

(** * C36 *)

(** An answer to an open request reaches the consumer's subscriber: the callback is entered in the
    same step, with exactly the answered datagram. *)
Theorem C36_invoked : forall st c s id u l st' evs r b m d,
  reach st -> consumer_on st c s -> open_request st c id u ->
  step l st = Some (st', evs) -> In (EvReceive r b s m) evs -> answer (bm_data (snd m)) id d ->
  evs = [EvReceive r b s m; EvInvoke r s m (CallRequest c id u d)] /\
  calling st' r b (CallRequest c id u d) /\ s_conss st' = s_conss st.
Proof.
  intros st c s id u l st' evs r b m d Rc Co (y & Ny & O) H I An.
  destruct (receive_step _ _ _ _ _ _ _ _ H I) as (x & ss & stk & rest & x' & _ & G & R & Ec & G' & Rv).
  apply answer_envelope in An as (E1 & E2). rewrite (receive_consumer _ _ _ _ _ Co Ny), E1, O, E2 in Rv. destruct Rv as (-> & R').
  split; auto. split; auto. exists x', m, ss, stk, rest. auto.
Qed.
Print Assumptions C36_invoked.

(** When the callback returns, its request is no longer open, and every other request - of this
    consumer or another - is as it was. *)
Theorem C36_closed : forall st r b c id u d,
  reach st -> calling st r b (CallRequest c id u d) ->
  exists st', step (LReturn r) st = Some (st', []) /\
    (forall v, ~ open_request st' c id v) /\
    (forall c' id' v, c' <> c \/ id' <> id -> (open_request st' c' id' v <-> open_request st c' id' v)).
Proof.
  intros st r b c id u d Rc Ca.
  destruct (return_request _ _ _ _ _ _ _ Rc Ca) as (st' & y & y' & H & Ny & Ny' & _ & _ & E & Oth).
  destruct (w_cons _ (reach_wired _ Rc) _ _ Ny) as (So & _).
  exists st'. split; auto. split.
  - intros v (y2 & N2 & O). assert (y2 = y') as -> by congruence. rewrite E, olookup_remove_eq in O by auto. discriminate.
  - intros c' id' v D. destruct (Nat.eq_dec c' c) as [->|Ne].
    + destruct D as [D|D]; [congruence|]. split; intros (y2 & N2 & O).
      * assert (y2 = y') as -> by congruence. exists y. split; auto. rewrite E, olookup_remove_ne in O by auto. auto.
      * assert (y2 = y) as -> by congruence. exists y'. split; auto. rewrite E, olookup_remove_ne by auto. auto.
    + unfold open_request. rewrite (Oth _ Ne). reflexivity.
Qed.
Print Assumptions C36_closed.

(** No other step closes a request, apart from a second request under the same id, which replaces
    it. *)
Theorem C36_stays_open : forall st c id u l st' evs,
  reach st -> open_request st c id u -> step l st = Some (st', evs) ->
  open_request st' c id u \/ (exists d v, l = LRequest c id d (Some v)) \/
  (exists r b v d, l = LReturn r /\ calling st r b (CallRequest c id v d)).
Proof.
  intros st c id u l st' evs Rc (y & Ny & O) H.
  destruct (step_cons _ _ _ _ _ _ H Ny) as (y' & Ny' & _ & _ & [(E & _)|[(i & d & v & e & El & E & _)|(r & x & m & stk & rest & i & v & d & El & G & R & E)]]).
  - left. exists y'. split; auto; congruence.
  - destruct (String.eqb_spec i id) as [->|Ne]; [right; left; eauto|]. left. exists y'. split; auto. rewrite E, olookup_insert_ne by auto. auto.
  - destruct (String.eqb_spec i id) as [->|Ne].
    + right; right. pose proof (reach_lock _ Rc) as K. destruct (k_call _ K r x (CallRequest c id v d) G) as (b & ss & stk' & Es); [now rewrite R|].
      rewrite R in Es. simpl in Es. subst stk. exists r, b, v, d. split; auto. exists x, m, ss, stk', rest. auto.
    + left. exists y'. split; auto. rewrite E, olookup_remove_ne by auto. auto.
Qed.
Print Assumptions C36_stays_open.

(** From delivery to answer, whatever other threads do. A request is open and not being answered;
    the consumer's subscriber stays registered and served; the id is not used for another request. If
    an answer to it is distributed to the end, then its callback has been invoked - by this answer or
    an earlier one. *)
Definition unanswered (c : nat) (id : string) (u : nat) (st : state) : Prop :=
  open_request st c id u /\ forall r b v d, ~ calling st r b (CallRequest c id v d).

Lemma unanswered_step c id u l st st' evs :
  reach st -> unanswered c id u st -> step l st = Some (st', evs) -> (forall d v, l <> LRequest c id d (Some v)) ->
  In (id, u) (answered c evs) \/ (unanswered c id u st').
Proof.
  intros Rc (O & NC) H NR.
  destruct (C36_stays_open _ _ _ _ _ _ _ Rc O H) as [O'|[(d & v & E)|(r & b & v & d & _ & Ca)]]; [|exfalso; eapply NR; eauto|exfalso; eapply NC; eauto].
  destruct (in_dec (fun a b : string * nat => ltac:(decide equality; [apply Nat.eq_dec|apply string_dec])) (id, u) (answered c evs)) as [I|I]; auto.
  right. split; auto. intros r b v d (x' & m & ss & stk & rest & G' & R').
  destruct (get_bus st r) as [x|] eqn:G.
  2: { assert (b_runner x' = RIdle) as E; [|congruence].
       destruct (step_new _ _ _ _ _ _ H G G') as (_ & _ & [(n & _ & _ & ->)|[(n & g & _ & _ & ->)|(b0 & xb & n & t & _ & _ & _ & _ & _ & ->)]]); reflexivity. }
  destruct (runner_label_dec l r) as [RL|RL].
  - destruct (run_inv' _ _ _ _ _ H RL) as (x0 & rn & act & G0 & RC & E). rewrite G in G0. injection G0 as <-.
    rewrite E, run_view, G in G'. simpl in G'. injection G' as <-. simpl in R'. rewrite Nat.eqb_refl in R'. subst rn.
    inversion RC; subst. match goal with Q : receive _ _ _ = _ |- _ => rename Q into Rv end.
    destruct (receive_request _ _ _ _ _ _ _ Rv) as (q & y0 & _ & _ & Ny & Oy & _).
    destruct O as (yo & Ny2 & Oy2). assert (y0 = yo) as -> by congruence. assert (v = u) as -> by congruence.
    apply I. simpl. rewrite Nat.eqb_refl. now left.
  - apply (NC r b v d). destruct (step_delta _ _ _ _ _ _ H G) as (x2 & G2 & D). rewrite G' in G2. injection G2 as <-.
    exists x, m, ss, stk, rest. split; auto. destruct (d_runner _ _ _ _ _ _ D) as [E|[E|(_ & _ & _ & E)]]; [congruence|contradiction|congruence].
Qed.

Theorem C36_answered : forall ls st st' tr r b c s id u m d,
  reach st -> exec ls st = Some (st', tr) -> unanswered c id u st ->
  (exists x, get_bus st r = Some x /\ current x = []) ->
  always (fun st => serving r b s st /\ consumer_on st c s) ls st ->
  (forall d v, ~ In (LRequest c id d (Some v)) ls) ->
  In (EvEnd r m) tr -> answer (bm_data (snd m)) id d ->
  (exists y, nth_error (s_subs st) s = Some y /\ s_topic y = bm_topic (snd m)) ->
  In (id, u) (answered c tr).
Proof.
  intros ls st st' tr r b c s id u m d Rc X Un Cu Al NR Ie An (q & Nq & Tq).
  assert (In (EvReceive r b s m) tr) as Ir.
  { apply (C20_every ls st st' tr r b s q); auto.
    clear - Al. revert st Al. induction ls as [|l ls IH]; intros st Al; simpl in *; [tauto|]. destruct Al as ((A & _) & B). split; auto. destruct (step l st) as [[s1 e1]|]; auto. }
  clear Ie Cu Nq Tq q. revert st tr Rc X Un Al NR Ir. induction ls as [|l ls IH]; intros st tr Rc X Un Al NR Ir.
  - simpl in X. injection X as <- <-. contradiction.
  - apply exec_cons_inv in X. destruct X as (s1 & e1 & e2 & H1 & H2 & ->). simpl in Al. destruct Al as ((_ & Co) & Al). rewrite H1 in Al.
    rewrite answered_app. apply in_app_iff. apply in_app_iff in Ir as [Ir|Ir].
    + left. destruct (C36_invoked _ _ _ _ _ _ _ _ _ _ _ _ Rc Co (proj1 Un) H1 Ir An) as (-> & _). simpl. rewrite Nat.eqb_refl. now left.
    + destruct (unanswered_step _ _ _ _ _ _ _ Rc Un H1) as [A|Un1]; auto.
      { intros d0 v ->. apply (NR d0 v). now left. }
      right. apply (IH s1); auto.
      * eapply reach_step; eauto.
      * intros d0 v I. apply (NR d0 v). now right.
Qed.
Print Assumptions C36_answered.

(** Checking [always] by computation. *)
Fixpoint alwaysb (p : state -> bool) (ls : list label) (st : state) : bool :=
  p st && match ls with
          | [] => true
          | l :: ls' => match step l st with Some (st', _) => alwaysb p ls' st' | None => true end
          end.
Lemma alwaysb_ok p (P : state -> Prop) : (forall st, p st = true -> P st) -> forall ls st, alwaysb p ls st = true -> always P ls st.
Proof.
  intros Hp. induction ls as [|l ls IH]; intros st H; simpl in H |- *; apply andb_true_iff in H as (H1 & H2); split; auto.
  destruct (step l st) as [[s1 e1]|]; auto.
Qed.

(** One bus, running, with subscriber 1, which belongs to consumer 0. *)
Definition act_okb (st : state) : bool :=
  match s_buses st, s_subs st, s_conss st with
  | [x], [_; q], [y] => b_run x && existsb (Nat.eqb 1) (b_subs x) && Nat.eqb (co_sub y) 1 &&
      match s_cb q with Some (CbConsumer 0) => true | _ => false end
  | _, _, _ => false
  end.
Lemma act_okb_ok st : act_okb st = true -> serving 0 0 1 st /\ consumer_on st 0 1.
Proof.
  unfold act_okb. destruct (s_buses st) as [|x [|]] eqn:Eb; try discriminate. destruct (s_subs st) as [|q0 [|q [|]]] eqn:Es; try discriminate.
  destruct (s_conss st) as [|y [|]] eqn:Ec; try discriminate. intros H. apply andb_true_iff in H as (H & H4). apply andb_true_iff in H as (H & H3).
  apply andb_true_iff in H as (H1 & H2). apply existsb_exists in H2 as (n & I & E). apply Nat.eqb_eq in E. subst n. apply Nat.eqb_eq in H3.
  split.
  - split; [exists x; unfold get_bus; rewrite Eb; auto|]. split; [constructor|].
    intros c xc _ Gc. unfold get_bus in Gc. rewrite Eb in Gc. destruct c as [|[|]]; try discriminate. injection Gc as <-. auto.
  - exists y, q. rewrite Es, Ec. repeat split; auto. destruct (s_cb q) as [[| | |[|]]|]; try discriminate. reflexivity.
Qed.

Example C36_case : exists st tr st' tr', exec (act_setup ++ act_request) init = Some (st, tr) /\ unanswered 0 "id1" 9 st /\
  (exists x, get_bus st 0 = Some x /\ current x = []) /\
  always (fun st => serving 0 0 1 st /\ consumer_on st 0 1) (act_provide ++ act_respond ++ act_deliver ++ act_done) st /\
  exec (act_provide ++ act_respond ++ act_deliver ++ act_done) st = Some (st', tr') /\ In (EvEnd 0 act_m1) tr' /\
  (forall d v, ~ In (LRequest 0 "id1" d (Some v)) (act_provide ++ act_respond ++ act_deliver ++ act_done)) /\
  answer (bm_data (snd act_m1)) "id1" (Val (DInt 2)) /\ In (EvInvoke 0 1 act_m1 (CallRequest 0 "id1" 9 (Val (DInt 2)))) tr' /\
  ~ open_request st' 0 "id1" 9.
Proof.
  do 4 eexists. split; [vm_compute; reflexivity|]. split.
  { split; [eexists; vm_compute; auto|]. intros r b v d (x & m & ss & stk & rest & G & R).
    destruct r as [|r]; [injection G as <-; discriminate|destruct r; discriminate]. }
  split; [eexists; split; reflexivity|]. split; [apply (alwaysb_ok act_okb); [apply act_okb_ok|vm_compute; reflexivity]|].
  split; [vm_compute; reflexivity|]. split; [vm_compute; auto 40|]. split.
  { intros d v I. vm_compute in I. repeat destruct I as [I|I]; discriminate || contradiction. }
  split; [eexists; vm_compute; auto|]. split; [vm_compute; auto 40|].
  intros (y & N & O). vm_compute in N. injection N as <-. discriminate.
Qed.

(** * C37 *)

(** A provider's callback gets the invocation id and the whole message; if the message was made by
    RequestAsync, that is the envelope around the request - the request itself is under "request". *)
Theorem C37_envelope : forall ls st ta tb r s m p id u d,
  exec ls init = Some (st, ta ++ EvInvoke r s m (CallProvider p id u d) :: tb) ->
  d = bm_data (snd m) /\ has_id d id /\ In m (accepted r ta) /\
  ((exists c d0 v, In (LRequest c id d0 (Some v)) ls /\ d = request_of id d0) \/ published ls (snd m)).
Proof.
  intros ls st ta tb r s m p id u d X.
  destruct (invoke_point _ _ _ _ _ _ _ _ X) as (ls1 & ls2 & st1 & st2 & tr1 & tr2 & b & x & q & -> & X1 & H & X2 & -> & G & R & Nq & Ac & Rv).
  assert (reach st1) as Rc by (exists ls1, tr1; auto).
  destruct (receive_provider _ _ _ _ _ _ _ Rv) as (q' & y & Nq' & Ecb & Ny & O & Ed & Hi). assert (q' = q) as -> by congruence.
  destruct (w_pcb _ (reach_wired _ Rc) _ _ _ Nq Ecb) as (y1 & Ny1 & Es). assert (y1 = y) as -> by congruence.
  destruct (current_sent _ _ _ _ x m X1 G) as (Acc & Sent); [rewrite R; now left|].
  split; auto. split; auto. split; [rewrite accepted_app; apply in_app_iff; auto|].
  assert (exists t, s_topic q = (t ++ "/request")%string) as (t & Tq).
  { destruct (w_prov _ (reach_wired _ Rc) _ _ Ny) as (t & q0 & z & N0 & T0 & _). exists t. rewrite Es in N0. congruence. }
  assert (bm_topic (snd m) = (t ++ "/request")%string) as Tm.
  { destruct Ac as [Ac|Ac]; [congruence|]. rewrite Tq in Ac. now apply request_not_all in Ac. }
  destruct Sent as [[(p' & I)|(b' & I)]|[(_ & t' & T')|((c & id' & d' & v & I & E) & _)]].
  - right; left. exists p'. apply in_app_iff; auto.
  - right; right. exists b'. apply in_app_iff; auto.
  - exfalso. rewrite Tm in T'. now apply request_not_response in T'.
  - left. exists c, d', v. rewrite <- Ed in E. apply has_id_envelope in Hi. rewrite E in Hi. simpl in Hi. injection Hi as <-.
    split; auto. apply in_app_iff; auto.
Qed.
Print Assumptions C37_envelope.

(** The envelope of a request is never the request, which is unchanged under its key. *)
Theorem C37_request_inside : forall id d,
  request_of id d <> d /\ olookup "request" (kids_dict (request_of id d)) = Some d /\ has_id (request_of id d) id.
Proof.
  intros id d. split; [|split; [reflexivity|eexists; split; reflexivity]].
  intros E. apply (f_equal dg_depth) in E. simpl in E. lia.
Qed.
Print Assumptions C37_request_inside.

(** A well-formed request that reaches the provider's subscriber enters the callback in the same
    step. *)
Theorem C37_invoked : forall st p s y u l st' evs r b m id,
  provider_on st p s -> nth_error (s_provs st) p = Some y -> pr_cb y = Some u ->
  step l st = Some (st', evs) -> In (EvReceive r b s m) evs -> has_id (bm_data (snd m)) id ->
  evs = [EvReceive r b s m; EvInvoke r s m (CallProvider p id u (bm_data (snd m)))].
Proof.
  intros st p s y u l st' evs r b m id Po Ny Cb H I Hi.
  destruct (receive_step _ _ _ _ _ _ _ _ H I) as (x & ss & stk & rest & x' & _ & G & R & Ec & G' & Rv).
  apply has_id_envelope in Hi. rewrite (receive_prov _ _ _ _ _ Po Ny), Hi, Cb in Rv. apply Rv.
Qed.
Print Assumptions C37_invoked.

Example C37_case : exists st ta, exec (act_setup ++ act_request ++ act_provide) init =
    Some (st, ta ++ EvInvoke 0 0 act_m0 (CallProvider 0 "id1" 5 (request_of "id1" (Val (DInt 1)))) :: []) /\
  provider_on st 0 0.
Proof.
  do 2 eexists. split.
  - match goal with |- ?a = Some (?s, _) => let v := eval vm_compute in a in
      match v with Some (?s', ?t) => let p := eval vm_compute in (removelast t) in
        instantiate (2 := s'); instantiate (1 := p) end end. vm_compute. reflexivity.
  - do 2 eexists. vm_compute. auto.
Qed.

(** * C38 *)

Lemma crashes_lost r rest e : crashes r (map (EvLost r) rest ++ [EvStop r (Some e)]) = [e].
Proof. induction rest; simpl; auto. now rewrite Nat.eqb_refl. Qed.

(** A message without a string under "invocationId" that reaches an action subscriber ends the run
    of the bus with InvalidOperation. *)
Theorem C38_malformed : forall st s l st' evs r b m,
  (exists c, consumer_on st c s) \/ (exists p, provider_on st p s) ->
  step l st = Some (st', evs) -> In (EvReceive r b s m) evs -> (forall id, ~ has_id (bm_data (snd m)) id) ->
  crashes r evs = [InvalidOperation] /\ (exists x', get_bus st' r = Some x' /\ b_runner x' = RIdle).
Proof.
  intros st s l st' evs r b m D H I Nh.
  destruct (receive_step _ _ _ _ _ _ _ _ H I) as (x & ss & stk & rest & x' & _ & G & R & Ec & G' & Rv).
  assert (envelope_id (bm_data (snd m)) = None) as E.
  { destruct (envelope_id (bm_data (snd m))) as [id|] eqn:E; auto. apply has_id_envelope in E. destruct (Nh _ E). }
  assert (receive st s (snd m) = InvThrow InvalidOperation) as Er.
  { destruct D as [(c & Co)|(p & Po)].
    - pose proof Co as (y & q & Ny & _). now rewrite (receive_consumer _ _ _ _ _ Co Ny), E.
    - pose proof Po as (y & q & Ny & _). now rewrite (receive_prov _ _ _ _ _ Po Ny), E. }
  rewrite Er in Rv. destruct Rv as (-> & R'). split; [|eauto].
  apply (crashes_lost r (m :: rest)).
Qed.
Print Assumptions C38_malformed.

(** A well-formed one does not: at a consumer nothing is thrown before the callback is entered; at
    a provider the only exception is that of calling a null callback. *)
Theorem C38_wellformed : forall st s l st' evs r b m id,
  step l st = Some (st', evs) -> In (EvReceive r b s m) evs -> has_id (bm_data (snd m)) id ->
  ((exists c, consumer_on st c s) -> crashes r evs = []) /\
  (forall p y, provider_on st p s -> nth_error (s_provs st) p = Some y ->
     (pr_cb y <> None -> crashes r evs = []) /\ (pr_cb y = None -> crashes r evs = [BadFunctionCall])).
Proof.
  intros st s l st' evs r b m id H I Hi. apply has_id_envelope in Hi.
  destruct (receive_step _ _ _ _ _ _ _ _ H I) as (x & ss & stk & rest & x' & _ & G & R & Ec & G' & Rv). split.
  - intros (c & Co). pose proof Co as (y & q & Ny & _). rewrite (receive_consumer _ _ _ _ _ Co Ny), Hi in Rv.
    destruct (olookup id (co_open y)); destruct Rv as (-> & _); reflexivity.
  - intros p y Po Ny. rewrite (receive_prov _ _ _ _ _ Po Ny), Hi in Rv. split; intros C.
    + destruct (pr_cb y); [|congruence]. destruct Rv as (-> & _). reflexivity.
    + rewrite C in Rv. destruct Rv as (-> & _). apply (crashes_lost r (m :: rest)).
Qed.
Print Assumptions C38_wellformed.

(** What the callbacks compute from the datagram (Bus.h:140 and 165), as statements on datagrams in
    the sense of C03: reading [d["invocationId"]] as a string gives the id if there is one and throws
    InvalidOperation otherwise; on a well-formed envelope it leaves the datagram unchanged. *)
Theorem C38_read : forall d,
  (forall id, has_id d id -> dg_wf d -> spec_run [SOp 0 [SKey "invocationId"] (ORead TyStr)] [d] = ([d], [Ok (RData (DStr id))])) /\
  ((forall id, ~ has_id d id) -> snd (spec_run [SOp 0 [SKey "invocationId"] (ORead TyStr)] [d]) = [Throw InvalidOperation]).
Proof.
  intros d. split.
  - intros id (kvs & -> & E) W. cbn. rewrite E. cbn. inversion W as [| | |? So _]; subst.
    replace (oinsert "invocationId" (Val (DStr id)) kvs) with kvs; auto.
    apply osorted_ext; auto using osorted_insert. intros k. destruct (String.eqb_spec "invocationId" k) as [<-|Ne].
    + rewrite olookup_insert_eq; auto.
    + rewrite olookup_insert_ne; auto.
  - intros N. cbn. destruct (olookup "invocationId" (kids_dict d)) as [[|v|ts|kvs]|] eqn:E; cbn; auto.
    destruct v; cbn; auto. exfalso. destruct d as [| | |m]; try discriminate. apply (N s). exists m. auto.
Qed.
Print Assumptions C38_read.

Example C38_case : exists st tr st' evs, exec (act_setup ++ [LPub 0 "act/request"; LPublish 2 (Lst []); LFly 0; LFly 0; LRun 0; LRun 0; LRun 0]) init = Some (st, tr) /\
  provider_on st 0 0 /\ step (LRun 0) st = Some (st', evs) /\ In (EvReceive 0 0 0 (0, mkM "root" "act/request" (Lst []))) evs /\
  (forall id, ~ has_id (Lst []) id) /\ crashes 0 evs = [InvalidOperation].
Proof.
  do 4 eexists. split; [vm_compute; reflexivity|]. split; [do 2 eexists; vm_compute; auto|]. split; [vm_compute; reflexivity|].
  split; [vm_compute; auto|]. split; [intros id (kvs & E & _); discriminate|]. vm_compute. reflexivity.
Qed.

(** * C41 *)

(** RequestAsync without a callback throws and does nothing else. *)
Theorem C41_null : forall st c id d st' evs,
  step (LRequest c id d None) st = Some (st', evs) -> st' = st /\ evs = [EvRes (Throw (ArgumentNull "callback"))].
Proof. intros st c id d st' evs H. simpl in H. destruct (nth_error (s_conss st) c); [|discriminate]. now injection H as <- <-. Qed.
Print Assumptions C41_null.

(** With a callback it registers this one request, leaves all others alone, and begins one
    publication. *)
Theorem C41_registers : forall st c id d u st' evs,
  reach st -> step (LRequest c id d (Some u)) st = Some (st', evs) ->
  requests c evs = [(id, u)] /\ (forall c', c' <> c -> requests c' evs = []) /\
  (forall c' id' v, open_request st' c' id' v <-> (c' = c /\ id' = id /\ v = u) \/ (~ (c' = c /\ id' = id) /\ open_request st c' id' v)) /\
  length (s_flights st') = S (length (s_flights st)).
Proof.
  intros st c id d u st' evs Rc H. simpl in H. destruct (nth_error (s_conss st) c) as [y|] eqn:Ny; [|discriminate].
  destruct (begin_publish (co_pub y) _ _) as [[st2 e2]|] eqn:B; [|discriminate]. injection H as <- <-.
  apply begin_publish_inv in B. destruct B as (q & _ & B). destruct (w_cons _ (reach_wired _ Rc) _ _ Ny) as (So & _).
  assert (s_conss st2 = list_set c (mkCons (co_sub y) (co_pub y) (oinsert id u (co_open y))) (s_conss st)) as Ec
    by (destruct B as [(_ & -> & _)|(_ & -> & _)]; reflexivity).
  assert (length (s_flights st2) = S (length (s_flights st))) as El
    by (destruct B as [(_ & -> & _)|(_ & -> & _)]; simpl; rewrite app_length; simpl; lia).
  assert (forall c', requests c' e2 = []) as Er by (intros; destruct B as [(_ & _ & ->)|(_ & _ & ->)]; reflexivity).
  split; [unfold requests in *; simpl; rewrite Nat.eqb_refl, Er; reflexivity|].
  split; [intros c' Ne; unfold requests in *; simpl; assert (c =? c' = false) as -> by (apply Nat.eqb_neq; auto); rewrite Er; reflexivity|].
  split; auto. intros c' id' v. unfold open_request. rewrite Ec. pose proof (nth_error_Some_lt _ _ _ Ny) as L.
  destruct (Nat.eq_dec c' c) as [->|Ne].
  - rewrite list_set_eq by auto. destruct (string_dec id' id) as [->|Ni].
    + split.
      * intros (y' & E & O). injection E as <-. simpl in O. rewrite olookup_insert_eq in O by auto. left. repeat split; congruence.
      * intros [(_ & _ & ->)|(N & _)]; [|exfalso; auto]. eexists. split; [reflexivity|]. simpl. now rewrite olookup_insert_eq by auto.
    + split.
      * intros (y' & E & O). injection E as <-. simpl in O. rewrite olookup_insert_ne in O by auto. right. split; [tauto|]. eauto.
      * intros [(_ & E & _)|(_ & y' & Ny' & O)]; [congruence|]. assert (y' = y) as -> by congruence.
        eexists. split; [reflexivity|]. simpl. now rewrite olookup_insert_ne by auto.
  - rewrite list_set_ne by auto. split; [intros O; right; split; [tauto|auto]|]. intros [(E & _)|(_ & O)]; [congruence|auto].
Qed.
Print Assumptions C41_registers.

(** That publication is a message with the envelope of the request on the topic of the consumer's
    publisher: whatever other threads do it is handed over exactly once, unless the bus is detached or
    the publisher deleted before that. *)
Theorem C41_publishes : forall st c y z x t id d u st1 evs ls st2 tr i m,
  reach st -> nth_error (s_conss st) c = Some y -> nth_error (s_pubs st) (co_pub y) = Some z -> p_fn z = true ->
  get_bus st (p_bus z) = Some x -> b_fn x = Some t ->
  i = length (s_flights st) -> m = mkM (b_name x) (p_topic z) (request_of id d) ->
  step (LRequest c id d (Some u)) st = Some (st1, evs) -> exec ls st1 = Some (st2, tr) ->
  (handed i (evs ++ tr) = [] /\ returned i (evs ++ tr) = [] /\ enabled (LFly i) st2) \/
  (handed i (evs ++ tr) = [(t, m)] /\ returned i (evs ++ tr) = [Ok tt]) \/
  (handed i (evs ++ tr) = [] /\ (detached (p_bus z) st2 \/ reset (co_pub y) st2)).
Proof.
  intros st c y z x t id d u st1 evs ls st2 tr i m Rc Ny Nz F G Ft -> -> H X.
  assert (reach st1) as Rc1 by (eapply reach_step; eauto).
  cbn [step] in H. rewrite Ny in H. destruct (begin_publish (co_pub y) _ _) as [[s2 e2]|] eqn:B; [|discriminate]. injection H as <- <-.
  destruct (begin_publish_inv _ _ _ _ _ B) as (z' & N' & [(F' & E1 & ->)|(F' & _)]); simpl in N'; [|congruence].
  assert (z' = z) as -> by congruence. simpl in E1.
  assert (flying (length (s_flights st)) (co_pub y) (p_bus z) t (mkM (b_name x) (p_topic z) (request_of id d)) s2 []) as Fl.
  { rewrite E1. split; [exists z; auto|]. split; [exists x; auto|]. left. split; [|auto]. simpl. rewrite nth_error_app2, Nat.sub_diag; auto. }
  pose proof (flying_exec _ _ _ _ _ _ _ _ _ _ Rc1 Fl X) as ((y2 & N2 & B2 & _) & (x2 & G2 & _ & Fx) & Fi). simpl in Fi |- *.
  destruct Fi as [(A & Bh & C)|[(A & Bh & C)|(A & [(Bh & C)|[(Bh & D & C)|(Bh & D & C)]])]].
  - left. split; auto. split; auto. unfold enabled. simpl. unfold fly_step. rewrite A, N2, B2, G2.
    destruct (p_fn y2); eauto. destruct (test_bus_fn _ _ _) as [[]]; eauto.
  - left. split; auto. split; auto. unfold enabled. simpl. unfold fly_step. rewrite A, G2.
    destruct Fx as [-> | ->]; eauto. destruct (call_target _ _ _ _); eauto.
  - right; left. auto.
  - right; right. auto.
  - right; right. auto.
Qed.
Print Assumptions C41_publishes.

(** A consumer created for [topic] on bus [b] publishes on <topic>/request of [b] and listens on
    <topic>/response of [b], for ever. *)
Theorem C41_topics : forall st b topic st1 evs ls st2 tr,
  step (LConsumer b topic) st = Some (st1, evs) -> exec ls st1 = Some (st2, tr) ->
  exists c y z q, evs = [EvRes (Ok (RNew c))] /\ nth_error (s_conss st2) c = Some y /\
    nth_error (s_pubs st2) (co_pub y) = Some z /\ p_topic z = (topic ++ "/request")%string /\ p_bus z = b /\
    nth_error (s_subs st2) (co_sub y) = Some q /\ s_topic q = (topic ++ "/response")%string.
Proof.
  intros st b topic st1 evs ls st2 tr H X.
  assert (exists y z q, evs = [EvRes (Ok (RNew (length (s_conss st))))] /\ nth_error (s_conss st1) (length (s_conss st)) = Some y /\
    nth_error (s_pubs st1) (co_pub y) = Some z /\ p_topic z = (topic ++ "/request")%string /\ p_bus z = b /\
    nth_error (s_subs st1) (co_sub y) = Some q /\ s_topic q = (topic ++ "/response")%string) as (y & z & q & Ev & Ny & Nz & Tz & Bz & Nq & Tq).
  { step_cases H. simpl. acc. simpl. do 3 eexists. split; [reflexivity|]. rewrite nth_snoc_new. split; [reflexivity|]. simpl. rewrite !nth_snoc_new. repeat split. }
  exists (length (s_conss st)). clear H. revert st1 y z q tr X Ny Nz Tz Bz Nq Tq. induction ls as [|l ls IH]; intros st1 y z q tr X Ny Nz Tz Bz Nq Tq.
  - simpl in X. injection X as <- <-. exists y, z, q. repeat split; auto.
  - apply exec_cons_inv in X. destruct X as (s1 & e1 & e2 & H1 & H2 & ->).
    destruct (step_cons _ _ _ _ _ _ H1 Ny) as (y' & Ny' & Es & Ep & _). destruct (step_pub _ _ _ _ _ _ H1 Nz) as (z' & Nz' & F1 & F2 & _).
    destruct (step_sub _ _ _ _ _ _ H1 Nq) as (q' & Nq' & F3 & _).
    apply (IH s1 y' z' q' e2); auto; congruence.
Qed.
Print Assumptions C41_topics.

(** The statements that build the envelope (ActionConsumer.cpp:35-37), in the sense of C03: variable
    0 is the request, variable 1 the envelope; the request is unchanged. *)
Theorem C41_envelope : forall id d,
  spec_run [SDecl TEmpty; SOp 1 [SKey "invocationId"] (OSet (DStr id)); SAssign 1 [SKey "request"] 0] [d]
  = ([d; request_of id d], [Ok RHandle; Ok RUnit; Ok RUnit]).
Proof. reflexivity. Qed.
Print Assumptions C41_envelope.

Example C41_case : exists st tr y z x st1 evs st2 tr2, exec act_setup init = Some (st, tr) /\ nth_error (s_conss st) 0 = Some y /\
  nth_error (s_pubs st) (co_pub y) = Some z /\ p_fn z = true /\ get_bus st (p_bus z) = Some x /\ b_fn x = Some (ToQueue 0) /\
  step (LRequest 0 "id1" (Val (DInt 1)) (Some 9)) st = Some (st1, evs) /\ exec [LFly 0; LFly 0] st1 = Some (st2, tr2) /\
  handed 0 (evs ++ tr2) = [(ToQueue 0, snd act_m0)].
Proof.
  do 9 eexists. split; [vm_compute; reflexivity|]. split; [vm_compute; reflexivity|]. split; [vm_compute; reflexivity|]. split; [reflexivity|].
  split; [vm_compute; reflexivity|]. split; [reflexivity|]. split; [vm_compute; reflexivity|]. split; [vm_compute; reflexivity|]. vm_compute. reflexivity.
Qed.

(** * C64: the corrected form of C35 *)

Theorem C64_at_most_once : forall ls st tr c,
  exec ls init = Some (st, tr) -> never_throws c ls ->
  NoDup (map fst (requests c tr)) -> NoDup (map fst (answered c tr)).
Proof. exact C35_at_most_once_partial. Qed.
Print Assumptions C64_at_most_once.

Theorem C64_later : forall ls st tr c s id l st' evs r b m,
  exec ls init = Some (st, tr) -> never_throws c ls -> NoDup (map fst (requests c tr)) ->
  consumer_on st c s -> In id (map fst (answered c tr)) ->
  step l st = Some (st', evs) -> In (EvReceive r b s m) evs -> has_id (bm_data (snd m)) id ->
  evs = [EvReceive r b s m] /\ s_conss st' = s_conss st.
Proof. exact C35_later_partial. Qed.
Print Assumptions C64_later.

(** A request whose callback throws stays open, like every other one. *)
Theorem C64_throw_keeps : forall st r e st' evs,
  reach st -> step (LThrow r e) st = Some (st', evs) ->
  forall c id u, open_request st c id u <-> open_request st' c id u.
Proof.
  intros st r e st' evs Rc H c id u. assert (s_conss st' = s_conss st) as E.
  { step_cases H; acc; reflexivity. }
  unfold open_request. rewrite E. reflexivity.
Qed.
Print Assumptions C64_throw_keeps.

(** The next answer invokes it again (C36_invoked), as here. *)
Example C64_case : exists st tr st1 evs1 st2 tr2 st3 evs3, exec act_all init = Some (st, tr) /\
  calling st 0 0 (CallRequest 0 "id1" 9 (Val (DInt 2))) /\ open_request st 0 "id1" 9 /\
  step (LThrow 0 (OtherException "x")) st = Some (st1, evs1) /\
  exec [ LStart 0; LRespond 0 "id1" (Val (DInt 3)); LFly 2; LFly 2; LRun 0; LRun 0; LRun 0; LRun 0 ] st1 = Some (st2, tr2) /\
  open_request st2 0 "id1" 9 /\ consumer_on st2 0 1 /\ step (LRun 0) st2 = Some (st3, evs3) /\
  In (EvInvoke 0 1 (2, mkM "root" "act/response" (response_of "id1" (Val (DInt 3)))) (CallRequest 0 "id1" 9 (Val (DInt 3)))) evs3.
Proof.
  do 8 eexists. split; [vm_compute; reflexivity|]. split; [do 5 eexists; vm_compute; split; reflexivity|].
  split; [eexists; vm_compute; auto|]. split; [vm_compute; reflexivity|]. split; [vm_compute; reflexivity|].
  split; [eexists; vm_compute; auto|]. split; [do 2 eexists; vm_compute; auto|]. split; [vm_compute; reflexivity|]. vm_compute. auto.
Qed.

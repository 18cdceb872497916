(** C84: the functions a bus thread is executing, and the calls that replace them meanwhile. *)
From Coq Require Import String List Arith ZArith Bool Lia.
From Verif Require Import Prelude OMap DatagramModel DatagramSpec BusModel BusSpec BusProofs BusTree BusLocks BusLocks2 BusLocks3
  BusFlight BusDist BusOnce BusProgress ActionSpec ActionProofs BusDeliveryProps BusLockProps ReplaceSpec.
Import ListNotations.
Open Scope list_scope.
Open Scope nat_scope.

Lemma receive_in_place st s m c : receive st s m = InvCall c -> in_place st s c.
Proof.
  unfold receive, in_place. destruct (nth_error (s_subs st) s) as [q|]; [|discriminate]. intros H. exists q. split; auto. revert H.
  destruct (s_cb q) as [[v|[v|]|p|k]|] eqn:Ec; try discriminate.
  - intros [= <-]. reflexivity.
  - intros [= <-]. reflexivity.
  - destruct (envelope_id (bm_data m)); [|discriminate]. destruct (nth_error (s_provs st) p) as [y|] eqn:N; [|discriminate].
    destruct (pr_cb y) eqn:E; [|discriminate]. intros [= <-]. eauto.
  - destruct (envelope_id (bm_data m)); [|discriminate]. destruct (nth_error (s_conss st) k) as [y|] eqn:N; [|discriminate].
    destruct (olookup _ (co_open y)) eqn:E; [|discriminate]. intros [= <-]. eauto.
Qed.

Lemma invoke_point l st st' evs r b s m c : step l st = Some (st', evs) -> In (EvReceive r b s m) evs -> In (EvInvoke r s m c) evs ->
  calling st' r b c /\ in_place st' s c.
Proof.
  intros H I J. destruct (invoke_inv _ _ _ _ _ _ _ _ H J) as (x & b' & ss & stk & rest & y & x' & -> & G & R & Ny & Ac & Rv & Ev & G' & R' & _).
  rewrite Ev in I. destruct I as [I|[I|[]]]; [|discriminate]. injection I as ->.
  split; [exists x', m, ss, stk, rest; auto|].
  pose proof (receive_in_place _ _ _ _ Rv) as P.
  cbn [step] in H. unfold run_step in H. rewrite G, R in H. rewrite Ny in H.
  destruct (ant_matches (s_topic y) (bm_topic (snd m))); [|rewrite Ev in H; discriminate]. rewrite Rv in H.
  assert (st' = upd_bus r (with_runner (RDist m (FSubs b ss :: stk) (Some c) rest)) st) as -> by congruence.
  unfold in_place in *. rewrite subs_upd, provs_upd, conss_upd. exact P.
Qed.

Lemma in_place_step l st st' evs r b s c :
  reach st -> calling st r b c -> in_place st s c -> step l st = Some (st', evs) ->
  l <> LReturn r -> (forall e, l <> LThrow r e) -> ~ assigns st b s c l -> in_place st' s c.
Proof.
  intros Rc C (y & Ny & P) H N1 N2 NA.
  assert (~ exists b', l = LDelSub b' s) as ND.
  { intros (b' & ->). destruct (Nat.eq_dec b' b) as [->|Ne]; [|apply NA; simpl; auto].
    destruct C as (x & m & ss & stk & rest & G & R).
    destruct (call_locks st r x c Rc G) as (m' & b0 & ss' & stk' & rest' & z & R' & Gz & Lz & _); [now rewrite R|].
    rewrite R in R'. injection R' as _ <- _ _ _. cbn [step] in H. rewrite Gz, Lz in H. discriminate. }
  destruct (step_sub _ _ _ _ _ _ H Ny) as (y' & Ny' & _ & Cb).
  assert (s_cb y' = s_cb y) as Ec.
  { destruct Cb as [E|[(u & -> & _)|[(u & -> & _)|[(b' & -> & _)|[(p & q & -> & Nq & Eq & _)|(k & q & -> & Nq & Eq & _)]]]]]; auto; exfalso.
    - now apply NA.
    - now apply NA.
    - eauto.
    - apply NA. simpl. eauto.
    - apply NA. simpl. eauto. }
  exists y'. split; auto. rewrite Ec. destruct c as [u m|u d|p id u d|k id u d]; auto.
  - destruct P as (Ep & z & Nz & Ez). split; auto. destruct (step_prov _ _ _ _ _ _ H Nz) as (z' & Nz' & _ & _ & [E|(-> & _)]).
    + exists z'. split; auto. congruence.
    + exfalso. apply NA. reflexivity.
  - destruct P as (Ep & z & Nz & Ez). split; auto. destruct (step_cons _ _ _ _ _ _ H Nz) as (z' & Nz' & _ & _ & [(E & _)|[(i & d' & v & e & -> & E & _)|D]]).
    + exists z'. split; auto. congruence.
    + exists z'. split; auto. rewrite E. destruct (String.eqb_spec i id) as [->|Ne]; [|rewrite olookup_insert_ne; auto].
      exfalso. apply NA. simpl. auto.
    + destruct D as (r' & x & m & stk & rest & i & u' & d' & -> & G & R & E). exfalso.
      assert (r = r') as ->; [|now apply N1].
      destruct (k_call _ (reach_lock _ Rc) _ _ (CallRequest k i u' d') G) as (b' & ss & stk' & Es); [now rewrite R|]. rewrite R in Es. simpl in Es. subst stk.
      eapply one_request; [exact Rc|exact C|]. exists x, m, ss, stk', rest. split; [exact G|exact R].
Qed.

Lemma owner_exec st ls st' tr : exec ls st = Some (st', tr) ->
  (forall p y, nth_error (s_provs st) p = Some y -> exists y', nth_error (s_provs st') p = Some y' /\ pr_sub y' = pr_sub y) /\
  (forall k y, nth_error (s_conss st) k = Some y -> exists y', nth_error (s_conss st') k = Some y' /\ co_sub y' = co_sub y).
Proof.
  revert st tr. induction ls as [|l ls IH]; intros st tr X.
  - simpl in X. injection X as <- <-. split; eauto.
  - apply exec_cons_inv in X. destruct X as (s1 & e1 & e2 & H1 & H2 & ->). destruct (IH _ _ H2) as (A & B). split.
    + intros p y N. destruct (step_prov _ _ _ _ _ _ H1 N) as (y1 & N1 & E1 & _). destruct (A _ _ N1) as (y2 & N2 & E2). exists y2. split; auto. congruence.
    + intros k y N. destruct (step_cons _ _ _ _ _ _ H1 N) as (y1 & N1 & E1 & _). destruct (B _ _ N1) as (y2 & N2 & E2). exists y2. split; auto. congruence.
Qed.

(** While a callback runs, every std::function through which it was called keeps its content, unless another thread (or the
    callback itself) sets a callback of the subscriber, deletes the subscriber through another bus, finishes the construction of
    the owner of the subscriber, resets the called provider, or makes a request with the id that is being answered. *)
Theorem C84_kept : forall st l st1 evs r b s m c ls st2 tr,
  reach st -> step l st = Some (st1, evs) -> In (EvReceive r b s m) evs -> In (EvInvoke r s m c) evs ->
  exec ls st1 = Some (st2, tr) -> still_inside r ls -> Forall (fun l' => ~ assigns st2 b s c l') ls ->
  in_place st2 s c.
Proof.
  intros st l st1 evs r b s m c ls st2 tr Rc H I J X F NA. destruct (invoke_point _ _ _ _ _ _ _ _ _ H I J) as (C & P).
  assert (reach st1) as Rc1 by (eapply reach_step; eauto). clear st l evs Rc H I J.
  revert st1 tr X Rc1 C P F NA. induction ls as [|l ls IH]; intros st1 tr X Rc1 C P F NA.
  - simpl in X. now injection X as <- <-.
  - pose proof (owner_exec _ _ _ _ X) as (Op & Ok). apply exec_cons_inv in X. destruct X as (s1 & e1 & e2 & H1 & H2 & ->).
    inversion F as [|? ? (F1 & F1') F2]; subst. inversion NA as [|? ? A1 A2]; subst.
    assert (calling s1 r b c) as C1. { eapply (calling_stays st1 r b c [l]); eauto; [simpl; rewrite H1; reflexivity|repeat constructor; auto]. }
    eapply IH; eauto; [eapply reach_step; eauto|]. eapply in_place_step; eauto.
    intros Q. apply A1. destruct l; simpl in Q |- *; auto.
    + destruct Q as (y & N & E). destruct (Op _ _ N) as (y' & N' & E'). exists y'. split; auto. congruence.
    + destruct Q as (y & N & E). destruct (Ok _ _ N) as (y' & N' & E'). exists y'. split; auto. congruence.
Qed.
Print Assumptions C84_kept.

Lemma only_top st r f stk g : stack_ok st r (f :: stk) -> In g stk -> exists b todo, g = FKids b todo.
Proof.
  revert f. induction stk as [|h stk IH]; intros f Sk I; [contradiction|].
  inversion Sk; subst. destruct I as [<-|I]; eauto.
Qed.

(** No bus of the tree but the one whose callback runs has its subscribers locked. *)
Lemma others_free st r b c b' y : reach st -> calling st r b c -> below st r b' -> b' <> b -> get_bus st b' = Some y -> b_slock y = false.
Proof.
  intros Rc (x & m & ss & stk & rest & G & R) B Ne Gy. destruct (b_slock y) eqn:L; auto. exfalso.
  pose proof (reach_tree _ Rc) as T. pose proof (reach_lock _ Rc) as K.
  destruct (k_s _ K _ _ Gy L) as (r' & todo & Is). destruct (in_stack_root _ _ _ T Is) as (z & Gz & Rz). destruct Is as (z' & Gz' & If).
  assert (z' = z) as -> by congruence.
  assert (b_root x = true) as Rx by (eapply (t_runner _ T); eauto; rewrite R; discriminate).
  pose proof (stack_below _ _ _ _ (k_stack _ K _ _ Gz) If) as Br. simpl in Br.
  assert (r' = r) as -> by (eapply (roots_equal st r' r b'); eauto).
  assert (z = x) as -> by congruence. rewrite R in If. simpl in If. pose proof (k_stack _ K _ _ G) as Sk. rewrite R in Sk. simpl in Sk.
  destruct If as [If|If]; [injection If as -> _; contradiction|].
  destruct (only_top _ _ _ _ _ Sk If) as (? & ? & Q). discriminate.
Qed.

(** None of these waits for the callback: at any moment while it runs, they go through, and the function that is being executed
    is gone or another one while the bus thread is still inside it. *)
Theorem C84_replaced : forall st l st1 evs r b s m c ls st2 tr,
  reach st -> step l st = Some (st1, evs) -> In (EvReceive r b s m) evs -> In (EvInvoke r s m c) evs ->
  exec ls st1 = Some (st2, tr) -> still_inside r ls ->
  (exists st3 e, step (LSetMsg s None) st2 = Some (st3, e) /\ calling st3 r b c /\ ~ in_place st3 s c) /\
  (forall b' x, get_bus st2 b' = Some x -> below st2 r b' -> b' <> b ->
     exists st3 e, step (LDelSub b' s) st2 = Some (st3, e) /\ calling st3 r b c /\ ~ in_place st3 s c) /\
  (forall p id u d, c = CallProvider p id u d ->
     exists st3 e, step (LResetProvider p) st2 = Some (st3, e) /\ calling st3 r b c /\ ~ in_place st3 s c) /\
  (forall k id u d d' v, c = CallRequest k id u d -> v <> u ->
     exists st3 e, step (LRequest k id d' (Some v)) st2 = Some (st3, e) /\ calling st3 r b c /\ ~ in_place st3 s c).
Proof.
  intros st l st1 evs r b s m c ls st2 tr Rc H I J X F. destruct (invoke_point _ _ _ _ _ _ _ _ _ H I J) as (C & P).
  assert (reach st1) as Rc1 by (eapply reach_step; eauto). assert (reach st2) as Rc2 by (eapply reach_exec; eauto).
  pose proof (calling_stays _ _ _ _ _ _ _ C X F) as C2.
  assert (forall l' st3 e, step l' st2 = Some (st3, e) -> l' <> LReturn r -> (forall e', l' <> LThrow r e') -> calling st3 r b c) as Stay.
  { intros l' st3 e H' Q1 Q2. eapply (calling_stays st2 r b c [l']); eauto; [simpl; rewrite H'; reflexivity|repeat constructor; auto]. }
  assert (exists y, nth_error (s_subs st2) s = Some y) as (y & Ny).
  { destruct P as (y & Ny & _). clear - X Ny. revert st1 tr X y Ny. induction ls as [|l ls IH]; intros st1 tr X y Ny.
    - simpl in X. injection X as <- <-. eauto.
    - apply exec_cons_inv in X. destruct X as (s1 & e1 & e2 & H1 & H2 & ->). destruct (step_sub _ _ _ _ _ _ H1 Ny) as (y1 & N1 & _). eauto. }
  assert (forall st3, (exists y', nth_error (s_subs st3) s = Some y' /\ s_cb y' = None) -> ~ in_place st3 s c) as Gone.
  { intros st3 (y' & N' & E') (y2 & N2 & Q). assert (y2 = y') as -> by congruence. rewrite E' in Q. destruct c; try discriminate; now destruct Q. }
  pose proof (nth_error_Some_lt _ _ _ Ny) as Ls.
  assert (forall st0, s_subs st0 = s_subs st2 -> exists st3, set_cb s None st0 = Some st3 /\ exists y', nth_error (s_subs st3) s = Some y' /\ s_cb y' = None) as Set0.
  { intros st0 E0. unfold set_cb. rewrite E0, Ny. eexists. split; [reflexivity|]. simpl. rewrite list_set_eq by auto. eauto. }
  split; [|split; [|split]].
  - destruct (Set0 st2 eq_refl) as (st3 & E3 & Y3). exists st3, [EvRes (Ok RNone)].
    assert (step (LSetMsg s None) st2 = Some (st3, [EvRes (Ok RNone)])) as H3 by (cbn [step]; simpl option_map; rewrite E3; reflexivity).
    split; auto. split; [|auto]. eapply Stay; eauto; discriminate.
  - intros b' x G B Ne. pose proof (others_free _ _ _ _ _ _ Rc2 C2 B Ne G) as L.
    destruct (Set0 (set_bus b' (with_subs (filter (fun y => negb (Nat.eqb y s)) (b_subs x)) x) st2) eq_refl) as (st3 & E3 & Y3).
    exists st3, [EvRes (Ok RNone)].
    assert (step (LDelSub b' s) st2 = Some (st3, [EvRes (Ok RNone)])) as H3 by (cbn [step]; rewrite G, L, E3; reflexivity).
    split; auto. split; [|auto]. eapply Stay; eauto; discriminate.
  - intros p id u d ->. destruct P as (y1 & _ & _ & z & Nz & _). destruct (proj1 (owner_exec _ _ _ _ X) _ _ Nz) as (z2 & Nz2 & _).
    eexists. eexists. assert (step (LResetProvider p) st2 = Some (set_provs (list_set p (mkProv (pr_sub z2) (pr_pub z2) None) (s_provs st2)) st2, [EvRes (Ok RNone)])) as H3
      by (cbn [step]; rewrite Nz2; reflexivity).
    split; [exact H3|]. split; [eapply Stay; eauto; discriminate|].
    intros (y' & _ & _ & z' & N' & E'). simpl in N'. rewrite list_set_eq in N' by (eapply nth_error_Some_lt; eauto). injection N' as <-. discriminate.
  - intros k id u d d' v -> Nv. destruct P as (y1 & _ & _ & z & Nz & _). destruct (proj2 (owner_exec _ _ _ _ X) _ _ Nz) as (z2 & Nz2 & _).
    assert (exists st3 e, step (LRequest k id d' (Some v)) st2 = Some (st3, e)) as (st3 & e & H3).
    { cbn [step]. rewrite Nz2. destruct (g_cons _ (reach_range _ Rc2) _ _ Nz2) as (_ & q & Nq). unfold begin_publish. simpl. rewrite Nq. destruct (p_fn q); eauto. }
    exists st3, e. split; auto. split; [eapply Stay; eauto; discriminate|].
    intros (y' & _ & _ & z' & N' & E'). destruct (step_cons _ _ _ _ _ _ H3 Nz2) as (z3 & N3 & _ & _ & D). assert (z3 = z') as -> by congruence.
    destruct D as [(_ & D)|[(i & d2 & v2 & e2 & Q & E & _)|D]].
    + now apply (D id d' v).
    + injection Q as <- <- <-. rewrite E, olookup_insert_eq' in E'. congruence.
    + destruct D as (? & ? & ? & ? & ? & ? & ? & ? & Q & _). discriminate.
Qed.
Print Assumptions C84_replaced.

(** Subscriber 2 of bus 3 is being served; it is deleted through bus 2, of the same tree. Deleting it through its own bus waits (C31). *)
Example C84_case : exists st tr st1 st2 tr2,
  exec (ex_setup ++ ex_publish ++ ex_begin ++ firstn 9 ex_dist) init = Some (st, tr) /\
  step (LRun 0) st = Some (st1, [EvReceive 0 3 2 ex_msg0; EvInvoke 0 2 ex_msg0 (CallData 9 (Val (DInt 5%Z)))]) /\
  in_place st1 2 (CallData 9 (Val (DInt 5%Z))) /\
  exec [LPublish 0 (Val (DInt 6%Z)); LFly 2; LFly 2; LSetData 1 (Some 11)] st1 = Some (st2, tr2) /\
  still_inside 0 [LPublish 0 (Val (DInt 6%Z)); LFly 2; LFly 2; LSetData 1 (Some 11)] /\
  Forall (fun l => ~ assigns st2 3 2 (CallData 9 (Val (DInt 5%Z))) l) [LPublish 0 (Val (DInt 6%Z)); LFly 2; LFly 2; LSetData 1 (Some 11)] /\
  below st2 0 2 /\ enabled (LDelSub 2 2) st2 /\ ~ enabled (LDelSub 3 2) st2.
Proof.
  do 5 eexists. split; [vm_compute; reflexivity|]. split; [vm_compute; reflexivity|].
  split; [eexists; split; vm_compute; reflexivity|]. split; [vm_compute; reflexivity|].
  split; [repeat constructor; discriminate|]. split; [repeat constructor; simpl; auto|].
  split; [apply (below_kid _ _ 0); [constructor|]; eexists; split; [vm_compute; reflexivity|]; vm_compute; auto|].
  split; [do 2 eexists; vm_compute; reflexivity|]. intros (? & ? & E). vm_compute in E. discriminate.
Qed.

(** A provider that is reset while it answers, and a response during whose callback the same id is used again. *)
Definition ex_action : list label :=
  [ LNewRoot "r"%string; LProvider 0 "a"%string (Some 3); LInstallProvider 0; LConsumer 0 "a"%string; LInstallConsumer 0; LStart 0;
    LRequest 0 "i"%string (Val (DInt 1%Z)) (Some 5); LFly 0; LFly 0; LRun 0; LRun 0; LRun 0 ].
Example C84_case_provider : exists st tr st1 evs m d,
  exec ex_action init = Some (st, tr) /\ step (LRun 0) st = Some (st1, evs) /\
  In (EvReceive 0 0 0 m) evs /\ In (EvInvoke 0 0 m (CallProvider 0 "i"%string 3 d)) evs /\ enabled (LResetProvider 0) st1.
Proof.
  do 6 eexists. split; [vm_compute; reflexivity|]. split; [vm_compute; reflexivity|]. split; [left; reflexivity|].
  split; [right; left; reflexivity|]. do 2 eexists. vm_compute. reflexivity.
Qed.
Example C84_case_request : exists st tr st1 evs m,
  exec (ex_action ++ [LRun 0; LRespond 0 "i"%string (Val (DInt 2%Z)); LFly 1; LFly 1; LReturn 0; LRun 0; LRun 0; LRun 0; LRun 0; LRun 0;
                     LRun 0; LRun 0; LRun 0; LRun 0; LRun 0]) init = Some (st, tr) /\
  step (LRun 0) st = Some (st1, evs) /\
  In (EvReceive 0 0 1 m) evs /\ In (EvInvoke 0 1 m (CallRequest 0 "i"%string 5 (Val (DInt 2%Z)))) evs /\ enabled (LRequest 0 "i"%string (Val (DInt 3%Z)) (Some 6)) st1.
Proof.
  do 5 eexists. split; [vm_compute; reflexivity|]. split; [vm_compute; reflexivity|]. split; [left; reflexivity|].
  split; [right; left; reflexivity|]. do 2 eexists. vm_compute. reflexivity.
Qed.

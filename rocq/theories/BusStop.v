(** Stopping a root bus; deleted publishers; publications of a detached bus. *)
From Coq Require Import String Ascii List Arith ZArith Bool Lia Sorted.
From Verif Require Import Prelude OMap DatagramModel DatagramSpec BusModel BusSpec BusProofs BusTree BusLocks BusLocks2 BusLocks3 BusDist BusAccount BusOnce BusServe BusFlight BusDetach BusProgress BusDeliver.
Import ListNotations.
Open Scope list_scope.

(** ** Stop *)

Lemma stopped_step l st st' evs r x x' :
  step l st = Some (st', evs) -> get_bus st r = Some x -> get_bus st' r = Some x' -> l <> LStart r -> b_run x = false -> b_run x' = false.
Proof.
  intros H G G' N R. destruct (step_delta _ _ _ _ _ _ H G) as (x1 & G1 & D). rewrite G' in G1. injection G1 as <-.
  destruct (d_run _ _ _ _ _ _ D) as [E|[(E & _)|[(_ & E)|(i & b & ks & stk & _ & _ & E)]]]; congruence.
Qed.

(** What has happened to the messages in hand of root [r] since it was stopped in a state with
    bus record [x]; [d] are messages drained afterwards. *)
Record winding (r : nat) (x : bus) (st : state) (tr : list event) : Prop := mkWind {
  w_bus : exists x' d, get_bus st r = Some x' /\ b_run x' = false /\
    settled r tr ++ current x' ++ batch x' = current x ++ batch x ++ d /\
    b_queue x ++ accepted r tr = d ++ b_queue x' /\
    (b_runner x <> RDrain -> d = []) /\ (b_runner x' = RDrain -> b_runner x = RDrain /\ d = []) /\
    (crashes r tr = [] -> completed r tr ++ current x' = current x /\ discarded r tr ++ batch x' = batch x ++ d);
  w_begun : begun r tr = [];
  w_recv : forall b s m, In (b, s, m) (received r tr) -> current x = [m];
  w_cur : forall x', get_bus st r = Some x' -> current x' = [] \/ current x' = current x }.

Lemma accepted_queue l st st' evs r x x' :
  step l st = Some (st', evs) -> get_bus st r = Some x -> get_bus st' r = Some x' -> ~ runner_label l r ->
  b_queue x' = b_queue x ++ accepted r evs.
Proof.
  intros H G G' N. destruct (step_delta _ _ _ _ _ _ H G) as (x1 & G1 & D). rewrite G' in G1. injection G1 as <-.
  assert ((exists i, l = LFly i) \/ forall i, l <> LFly i) as [(i & ->)|NF] by (destruct l; try (right; discriminate); left; eauto).
  - destruct (fly_queue _ _ _ _ _ _ H G) as (x2 & G2 & _ & [(E1 & E2 & _)|(m & E1 & E2 & _)]); rewrite G' in G2; injection G2 as <-; rewrite E1, E2; auto. now rewrite app_nil_r.
  - rewrite (accept_label _ _ _ _ _ H NF), app_nil_r.
    destruct (d_queue _ _ _ _ _ _ D) as [(E & _)|[->|(i & ->)]]; auto; [simpl in N; congruence|exfalso; eapply NF; reflexivity].
Qed.

Lemma wind_run st r x l rn act evs x' :
  rcase st r x l (b_runner x) rn act evs -> b_run x = false ->
  b_runner x' = rn -> b_queue x' = match act with ADrain => [] | _ => b_queue x end ->
  exists d, settled r evs ++ current x' ++ batch x' = current x ++ batch x ++ d /\ b_queue x = d ++ b_queue x' /\
    (b_runner x <> RDrain -> d = []) /\ b_runner x' <> RDrain /\ begun r evs = [] /\
    (forall b s m, In (b, s, m) (received r evs) -> current x = [m]) /\
    (current x' = [] \/ current x' = current x) /\
    (crashes r evs = [] -> completed r evs ++ current x' = current x /\ discarded r evs ++ batch x' = batch x ++ d).
Proof.
  intros R F E1 E2. unfold current, batch. rewrite E1, E2.
  assert (forall (l : list pubn), settled r (map (EvLost r) l) = l) as SL.
  { induction l0; simpl; auto. rewrite Nat.eqb_refl. simpl. now f_equal. }
  inversion R; subst; try congruence;
    try (exists (@nil pubn); simpl; rewrite ?Nat.eqb_refl, ?app_nil_r; repeat (split; try discriminate; auto); simpl; intuition congruence).
  - exists (b_queue x). simpl. rewrite app_nil_r. repeat (split; try discriminate; auto); try (intros; congruence); intros ? ? ? [].
  - exists (@nil pubn). rewrite !app_nil_r.
    change (settled r (EvReceive r b s m :: map (EvLost r) (m :: rest) ++ [EvStop r (Some e)])) with (settled r (map (EvLost r) (m :: rest) ++ [EvStop r (Some e)])).
    rewrite settled_lost. split; [reflexivity|]. split; [reflexivity|]. split; [auto|]. split; [discriminate|]. split.
    { simpl. rewrite begun_app. simpl. rewrite app_nil_r. apply flat_lost. auto. }
    split; [|split; auto].
    { intros b0 s0 m0. simpl. rewrite Nat.eqb_refl. simpl. intros [I|I]; [congruence|]. exfalso. unfold received in I. rewrite flat_map_app, flat_lost in I by auto. destruct I. }
    simpl. rewrite crashes_app. simpl. rewrite Nat.eqb_refl. intros C. apply app_eq_nil in C. destruct C; discriminate.
  - exists (@nil pubn). rewrite !app_nil_r. rewrite settled_lost. split; [reflexivity|]. split; [reflexivity|]. split; [auto|]. split; [discriminate|]. split.
    { simpl. rewrite begun_app. simpl. rewrite app_nil_r. apply flat_lost. auto. }
    split; [|split; auto].
    { intros b0 s0 m0. simpl. intros I. exfalso. unfold received in I. rewrite flat_map_app, flat_lost in I by auto. destruct I. }
    simpl. rewrite crashes_app. simpl. rewrite Nat.eqb_refl. intros C. apply app_eq_nil in C. destruct C; discriminate.
Qed.

Lemma received_app r t1 t2 : received r (t1 ++ t2) = received r t1 ++ received r t2.
Proof. apply flat_map_app. Qed.

Lemma winding_step l st st' evs r x tr :
  winding r x st tr -> step l st = Some (st', evs) -> l <> LStart r -> winding r x st' (tr ++ evs).
Proof.
  intros [(x0 & d & G & R & Es & Eq & Ed & Edr & Ec) Wb Wr Wc] H N.
  destruct (step_delta _ _ _ _ _ _ H G) as (x' & G' & D).
  pose proof (stopped_step _ _ _ _ _ _ _ H G G' N R) as R'. specialize (Wc _ G).
  destruct (runner_label_dec l r) as [RL|RL].
  - destruct (run_inv' _ _ _ _ _ H RL) as (xx & rn & act & G0 & RC & E). rewrite G in G0. injection G0 as <-.
    assert (accepted r evs = []) as Ea. { eapply accept_label; eauto. intros i ->. exact RL. }
    pose proof G' as G1. rewrite E, run_view, G in G1. simpl in G1. injection G1 as G1. rewrite Nat.eqb_refl in G1.
    assert (b_runner x' = rn /\ b_queue x' = match act with ADrain => [] | _ => b_queue x0 end) as (Rn & Qn) by (subst x'; simpl; destruct act; auto).
    destruct (wind_run _ _ _ _ _ _ _ _ RC R Rn Qn) as (dd & A1 & A2 & A3 & A4 & A5 & A6 & A7 & A8).
    constructor.
    + exists x', (d ++ dd). split; auto. split; auto. split.
      { rewrite settled_app, <- app_assoc, A1. rewrite (app_assoc (current x0)), (app_assoc (settled r tr)), Es. now rewrite <- !app_assoc. }
      split. { rewrite accepted_app, Ea, app_nil_r, Eq, A2. now rewrite app_assoc. }
      split. { intros Nd. rewrite (Ed Nd). simpl. apply A3. intros F. apply Edr in F. tauto. }
      split; [intros F; contradiction|].
      rewrite crashes_app, completed_app, discarded_app. intros C. apply app_eq_nil in C. destruct C as (C1 & C2).
      destruct (Ec C1) as (B1 & B2). destruct (A8 C2) as (B3 & B4). rewrite <- !app_assoc. rewrite B3, B4. split; auto.
      rewrite app_assoc, B2. now rewrite <- app_assoc.
    + now rewrite begun_app, Wb, A5.
    + intros b s m. rewrite received_app. intros I. apply in_app_iff in I. destruct I as [I|I]; [eauto|].
      apply A6 in I. destruct Wc as [Wc|Wc]; congruence.
    + intros x2 G2. rewrite G' in G2. injection G2 as <-. destruct A7 as [A7|A7]; auto. rewrite A7. auto.
  - destruct (proj_other _ _ _ _ _ H RL) as (P1 & P2 & P3 & _ & P5 & P6 & P7).
    assert (b_runner x' = b_runner x0) as Er.
    { destruct (d_runner _ _ _ _ _ _ D) as [E|[E|(E & _)]]; [auto|contradiction|contradiction]. }
    pose proof (accepted_queue _ _ _ _ _ _ _ H G G' RL) as Q.
    assert (current x' = current x0 /\ batch x' = batch x0) as (E1 & E2) by (unfold current, batch; rewrite Er; auto).
    constructor.
    + exists x', d. rewrite settled_app, accepted_app, crashes_app, completed_app, discarded_app, P1, P3, P5, P7, E1, E2, Er, !app_nil_r.
      split; auto. split; auto. split; auto. split; auto. rewrite app_assoc, Eq, Q. now rewrite app_assoc.
    + now rewrite begun_app, Wb, P2.
    + intros b s m. rewrite received_app, P6, app_nil_r. eauto.
    + intros x2 G2. rewrite G' in G2. injection G2 as <-. now rewrite E1.
Qed.

Lemma winding_exec ls : forall st st' tr0 tr r x,
  winding r x st tr0 -> exec ls st = Some (st', tr) -> ~ In (LStart r) ls -> winding r x st' (tr0 ++ tr).
Proof.
  induction ls as [|l ls IH]; intros st st' tr0 tr r x W X N.
  - simpl in X. injection X as <- <-. now rewrite app_nil_r.
  - apply exec_cons_inv in X. destruct X as (st1 & e1 & e2 & H1 & H2 & ->). rewrite app_assoc.
    apply (IH st1); auto; [|intros I; apply N; now right]. eapply winding_step; eauto. intros ->. apply N. now left.
Qed.

Lemma winding_start st st1 evs r x : step (LStop r) st = Some (st1, evs) -> get_bus st r = Some x ->
  winding r x st1 [] /\ evs = [EvRes (Ok RNone)].
Proof.
  intros H G. simpl in H. rewrite G in H. injection H as <- <-. split; auto.
  assert (get_bus (set_bus r (with_run false x) st) r = Some (with_run false x)) as G1 by (now rewrite get_set, Nat.eqb_refl, G).
  constructor.
  - exists (with_run false x), []. split; auto. split; auto. simpl. rewrite !app_nil_r. auto 8.
  - reflexivity.
  - intros b s m [].
  - intros x' G'. rewrite G1 in G'. injection G' as <-. auto.
Qed.

(** ** Publishers *)

Lemma step_pubs l st st' evs b x : step l st = Some (st', evs) -> get_bus st b = Some x ->
  exists x', get_bus st' b = Some x' /\
    (b_pubs x' = b_pubs x \/ b_pubs x' = b_pubs x ++ [length (s_pubs st)] \/
     (exists p, l = LDelPub b p /\ b_pubs x' = filter (fun z => negb (Nat.eqb z p)) (b_pubs x))).
Proof.
  intros H G. pose proof (get_lt _ _ _ G) as L.
  destruct l; step_cases H; acc.
  all: repeat match goal with
       | |- context [Nat.eqb ?a ?b] => let E := fresh "Q" in destruct (Nat.eqb_spec a b) as [E|E]; [try subst a|]
       end; simpl in *; rewrite ?list_set_length in *; try lia.
  all: repeat match goal with
       | E : get_bus _ ?z = Some ?a, G : get_bus _ ?z = Some ?b |- _ => rewrite G in E; injection E as E; try subst a; try subst b
       end.
  all: rewrite ?G; simpl; eexists; (split; [reflexivity|]); simpl; auto.
  right; right. eauto.
Qed.

Lemma step_pubs_len l st st' evs : step l st = Some (st', evs) -> length (s_pubs st) <= length (s_pubs st').
Proof.
  intros H. destruct (Nat.le_gt_cases (length (s_pubs st)) (length (s_pubs st'))) as [L|L]; auto.
  exfalso. destruct (nth_error (s_pubs st) (length (s_pubs st'))) as [y|] eqn:N; [|apply nth_error_None in N; lia].
  destruct (step_pub _ _ _ _ _ _ H N) as (y' & N' & _). apply nth_error_Some_lt in N'. lia.
Qed.

(** Publisher [p] is not listed on bus [b]. *)
Definition unlisted (p b : nat) (st : state) : Prop :=
  p < length (s_pubs st) /\ exists x, get_bus st b = Some x /\ ~ In p (b_pubs x).

Lemma unlisted_step l st st' evs p b : step l st = Some (st', evs) -> unlisted p b st -> unlisted p b st'.
Proof.
  intros H (L & x & G & N). pose proof (step_pubs_len _ _ _ _ H). split; [lia|].
  destruct (step_pubs _ _ _ _ _ _ H G) as (x' & G' & [E|[E|(q & _ & E)]]); exists x'; split; auto; rewrite E; auto.
  - intros I. apply in_app_iff in I. destruct I as [I|[I|[]]]; [auto|lia].
  - intros I. apply filter_In in I. tauto.
Qed.

(** ** Publications through a detached bus *)

Lemma dry_step l st st' evs i k : detached k st -> through i k st -> step l st = Some (st', evs) -> through i k st' /\ handed i evs = [].
Proof.
  intros (x & G & F) T H.
  assert (forall f, nth_error (s_flights st) i = Some f -> l <> LFly i -> nth_error (s_flights st') i = Some f /\ handed i evs = []) as K.
  { intros f N NL. destruct (step_flight _ _ _ _ _ _ H N) as [E|(A & B & _)]; [contradiction|auto]. }
  assert ({l = LFly i} + {l <> LFly i}) as [->|NL].
  { destruct l; try (right; discriminate). destruct (Nat.eq_dec i0 i) as [->|]; [left; auto|right; congruence]. }
  - assert (forall f s, length (s_flights s) > i -> nth_error (s_flights (set_flights (list_set i f (s_flights s)) s)) i = Some f) as Q.
    { intros f s L. simpl. now apply list_set_eq. }
    assert (length (s_flights st) > i) as L.
    { destruct T as [(p & d & y & N & _)|[(m & N)|N]]; eapply nth_error_Some_lt; eauto. }
    destruct (fly_inv _ _ _ _ H) as [(p & d & xp & y & m & N & Np & Fp & Gy & Em & [(Fn & -> & ->)|(Fn & -> & ->)])|[(p & d & xp & N & Np & Fp & -> & ->)|(b & m & y & N & Gy & [(Fn & -> & ->)|[(g & Fn & -> & ->)|[(r0 & z & Fn & Gz & -> & ->)|(r0 & Fn & Gz & -> & ->)]]])]];
      try (split; [right; right; apply Q; auto|reflexivity]).
    + exfalso. destruct T as [(p' & d' & y' & N' & Np' & Ek)|[(m' & N')|N']]; rewrite N in N'; try discriminate.
      injection N' as <- <-. rewrite Np in Np'. injection Np' as <-. subst k. congruence.
    + exfalso. destruct T as [(p' & d' & y' & N' & Np' & Ek)|[(m' & N')|N']]; rewrite N in N'; try discriminate.
      injection N' as -> <-. congruence.
    + exfalso. destruct T as [(p' & d' & y' & N' & Np' & Ek)|[(m' & N')|N']]; rewrite N in N'; try discriminate.
      injection N' as -> <-. congruence.
  - destruct T as [(p & d & y & N & Np & E)|[(m & N)|N]].
    + destruct (K _ N NL) as (A & B). split; auto. left. destruct (step_pub _ _ _ _ _ _ H Np) as (y' & N' & _ & Eb & _).
      exists p, d, y'. repeat split; auto. congruence.
    + destruct (K _ N NL) as (A & B). split; auto. right; left. eauto.
    + destruct (K _ N NL) as (A & B). split; auto. right; right. auto.
Qed.

Lemma dry_exec ls : forall st st' tr i k, detached k st -> through i k st -> exec ls st = Some (st', tr) -> handed i tr = [].
Proof.
  induction ls as [|l ls IH]; intros st st' tr i k D T X.
  - simpl in X. injection X as <- <-. reflexivity.
  - apply exec_cons_inv in X. destruct X as (st1 & e1 & e2 & H1 & H2 & ->).
    destruct (dry_step _ _ _ _ _ _ D T H1) as (T' & E). rewrite handed_app, E. simpl. apply (IH st1 st' e2 i k); auto. eapply detached_step; eauto.
Qed.

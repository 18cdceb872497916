(** Lemmas on SyncModel: its two projections, and when the lambda runs. *)
From Coq Require Import String List Arith Bool Lia.
From Verif Require Import Prelude OMap DatagramModel DatagramSpec BusModel BusSpec BusProofs BusTree BusLocks BusLocks2 BusLocks3 BusDist BusAccount BusOnce BusServe BusDeliver.
From Verif Require Import BusDeliveryProps BusLockProps ActionSpec ActionProofs ActionProps RequestModel RequestProps SyncModel SyncSpec.
Import ListNotations.
Open Scope list_scope.

Lemma same_iff k c id u : same k c id u = true <-> c = k_c k /\ id = k_id k /\ u = k_u k.
Proof. unfold same. rewrite !andb_true_iff, !Nat.eqb_eq, String.eqb_eq. tauto. Qed.
Lemma same_refl k : same k (k_c k) (k_id k) (k_u k) = true.
Proof. apply same_iff. auto. Qed.

Lemma bus_of_app t1 t2 : bus_of (t1 ++ t2) = bus_of t1 ++ bus_of t2. Proof. apply flat_map_app. Qed.
Lemma req_of_app t1 t2 : req_of (t1 ++ t2) = req_of t1 ++ req_of t2. Proof. apply flat_map_app. Qed.
Lemma bus_labels_app t1 t2 : bus_labels (t1 ++ t2) = bus_labels t1 ++ bus_labels t2. Proof. apply flat_map_app. Qed.
Lemma calls_app k t1 t2 : calls k (t1 ++ t2) = calls k t1 ++ calls k t2. Proof. apply flat_map_app. Qed.
Lemma bus_of_JB l : bus_of (map JB l) = l. Proof. induction l; simpl; congruence. Qed.
Lemma bus_of_JQ l : bus_of (map JQ l) = []. Proof. induction l; simpl; auto. Qed.
Lemma req_of_JB l : req_of (map JB l) = []. Proof. induction l; simpl; auto. Qed.
Lemma req_of_JQ l : req_of (map JQ l) = l. Proof. induction l; simpl; congruence. Qed.

Lemma jexec_app k ls1 ls2 j j' tr : jexec k (ls1 ++ ls2) j = Some (j', tr) <->
  exists j1 t1 t2, jexec k ls1 j = Some (j1, t1) /\ jexec k ls2 j1 = Some (j', t2) /\ tr = t1 ++ t2.
Proof.
  revert j tr. induction ls1 as [|l ls1 IH]; intros j tr; simpl.
  - split; [intros H; exists j, [], tr; auto|]. intros (j1 & t1 & t2 & [= <- <-] & H & ->). exact H.
  - destruct (jstep k l j) as [[j1 e1]|].
    + split.
      * destruct (jexec k (ls1 ++ ls2) j1) as [[j2 e2]|] eqn:E; [|discriminate]. intros [= -> <-].
        apply IH in E. destruct E as (j3 & t1 & t2 & H1 & H2 & ->). rewrite H1. exists j3, (e1 ++ t1), t2. repeat split; auto. now rewrite app_assoc.
      * intros (j3 & t1 & t2 & H1 & H2 & ->). destruct (jexec k ls1 j1) as [[j4 e4]|] eqn:E4; [|discriminate]. injection H1 as <- <-.
        assert (jexec k (ls1 ++ ls2) j1 = Some (j', e4 ++ t2)) as ->; [apply IH; eauto 10|]. now rewrite app_assoc.
    + split; [discriminate|]. intros (j3 & t1 & t2 & H & _). discriminate.
Qed.

(** One step, in both projections. *)
Lemma jstep_inv k l j j' es : jstep k l j = Some (j', es) ->
  (exists q, j_q j = QLive q) /\
  ((exists l0 evs qe, l = JBus l0 /\ lambda_throws k (j_bus j) l0 = false /\ step l0 (j_bus j) = Some (j_bus j', evs) /\
     j_pub j' = pub_of k (j_bus j) l0 (j_pub j) /\
     qexec (sync_label k (j_bus j) l0 ++ flat_map (sync_event k (j_pub j')) evs) (j_q j) = Some (j_q j', qe) /\ es = map JB evs ++ map JQ qe) \/
   (exists l0 qe, l = JLocal l0 /\ own_step l0 = true /\ qstep l0 (j_q j) = Some (j_q j', qe) /\ j_bus j' = j_bus j /\ j_pub j' = j_pub j /\ es = map JQ qe)).
Proof.
  unfold jstep. destruct (j_q j) as [q|] eqn:Eq; [|discriminate]. intros H. split; [eauto|]. destruct l as [l|l].
  - left. destruct (lambda_throws k (j_bus j) l) eqn:L; [discriminate|]. destruct (step l (j_bus j)) as [[st' evs]|] eqn:S; [|discriminate].
    destruct (qexec _ _) as [[q' qe]|] eqn:Q; [|discriminate]. injection H as <- <-. exists l, evs, qe. simpl. repeat split; auto.
  - right. destruct (own_step l) eqn:O; [|discriminate]. destruct (qstep l (QLive q)) as [[q' qe]|] eqn:Q; [|discriminate].
    injection H as <- <-. exists l, qe. simpl. repeat split; auto.
Qed.

Lemma bus_proj k ls : forall j j' tr, jexec k ls j = Some (j', tr) -> exec (bus_labels ls) (j_bus j) = Some (j_bus j', bus_of tr).
Proof.
  induction ls as [|l ls IH]; intros j j' tr H; simpl in H; [injection H as <- <-; reflexivity|].
  destruct (jstep k l j) as [[j1 e1]|] eqn:S; [|discriminate]. destruct (jexec k ls j1) as [[j2 e2]|] eqn:E; [|discriminate]. injection H as <- <-.
  apply IH in E. rewrite bus_of_app. destruct (jstep_inv _ _ _ _ _ S) as (_ & [(l0 & evs & qe & -> & _ & St & _ & _ & ->)|(l0 & qe & -> & _ & _ & Eb & _ & ->)]).
  - cbn [bus_labels flat_map app]. fold (bus_labels ls). cbn [exec]. rewrite St, E, bus_of_app, bus_of_JB, bus_of_JQ, app_nil_r. reflexivity.
  - cbn [bus_labels flat_map app]. fold (bus_labels ls). rewrite bus_of_JQ. rewrite <- Eb. exact E.
Qed.

Definition enters (ls : list qlabel) : list dg := flat_map (fun l => match l with QEnter d => [d] | _ => [] end) ls.
Lemma enters_app l1 l2 : enters (l1 ++ l2) = enters l1 ++ enters l2. Proof. apply flat_map_app. Qed.
Lemma qstep_enters l m m' es : qstep l m = Some (m', es) -> q_entered es = enters [l].
Proof. intros H. destruct m as [st|]; [|discriminate]. destruct l; qcases H st; reflexivity. Qed.
Lemma qexec_enters ls : forall m m' es, qexec ls m = Some (m', es) -> q_entered es = enters ls.
Proof.
  induction ls as [|l ls IH]; intros m m' es H; simpl in H; [now injection H as <- <-|].
  destruct (qstep l m) as [[m1 e1]|] eqn:S; [|discriminate]. destruct (qexec ls m1) as [[m2 e2]|] eqn:E; [|discriminate]. injection H as <- <-.
  rewrite entered_app, (qstep_enters _ _ _ _ S), (IH _ _ _ E). symmetry. apply (enters_app [l]).
Qed.
Lemma sync_enters k i evs : enters (flat_map (sync_event k i) evs) = calls k evs.
Proof.
  induction evs as [|e evs IH]; [reflexivity|]. cbn [flat_map]. rewrite enters_app, IH. unfold calls. cbn [flat_map]. f_equal.
  destruct e; try reflexivity; simpl.
  - destruct c; try reflexivity. destruct (same k c id u); reflexivity.
  - destruct (same k c id u); reflexivity.
  - destruct i; [|reflexivity]. destruct (Nat.eqb i0 n); [|reflexivity]. destruct r; reflexivity.
Qed.
Lemma label_enters k st l : enters (sync_label k st l) = [].
Proof. destruct l; try reflexivity. simpl. destruct (in_lambda k st r); reflexivity. Qed.
Lemma sync_no_timeout k st l i evs : ~ In QTimeout (sync_label k st l ++ flat_map (sync_event k i) evs).
Proof.
  intros H. apply in_app_iff in H as [H|H].
  - destruct l; try contradiction. simpl in H. destruct (in_lambda k st r); destruct H as [H|[]] || contradiction; discriminate.
  - apply in_flat_map in H as (e & _ & H). destruct e; try contradiction; simpl in H.
    + destruct c; try contradiction. destruct (same k c id u); [destruct H as [H|[]]; discriminate|contradiction].
    + destruct (same k c id u); [destruct H as [H|[]]; discriminate|contradiction].
    + destruct i; [|contradiction]. destruct (Nat.eqb i0 n); [|contradiction]. destruct r; destruct H as [H|[]] || contradiction; discriminate.
Qed.

Lemma qexec_app_intro ls1 ls2 : forall m m1 m2 t1 t2, qexec ls1 m = Some (m1, t1) -> qexec ls2 m1 = Some (m2, t2) -> qexec (ls1 ++ ls2) m = Some (m2, t1 ++ t2).
Proof.
  induction ls1 as [|l ls1 IH]; intros m m1 m2 t1 t2 H1 H2; simpl in *; [injection H1 as <- <-; exact H2|].
  destruct (qstep l m) as [[m3 e3]|]; [|discriminate]. destruct (qexec ls1 m3) as [[m4 e4]|] eqn:E; [|discriminate]. injection H1 as <- <-.
  rewrite (IH _ _ _ _ _ E H2). now rewrite app_assoc.
Qed.

Lemma req_proj k ls : forall j j' tr, jexec k ls j = Some (j', tr) ->
  exists qls, qexec qls (j_q j) = Some (j_q j', req_of tr) /\ (In QTimeout qls -> In (JLocal QTimeout) ls) /\ q_entered (req_of tr) = calls k (bus_of tr).
Proof.
  induction ls as [|l ls IH]; intros j j' tr H; simpl in H; [injection H as <- <-; exists []; repeat split; auto|].
  destruct (jstep k l j) as [[j1 e1]|] eqn:S; [|discriminate]. destruct (jexec k ls j1) as [[j2 e2]|] eqn:E; [|discriminate]. injection H as <- <-.
  destruct (IH _ _ _ E) as (qls & Q & T & En). rewrite req_of_app, bus_of_app, entered_app, calls_app, En.
  destruct (jstep_inv _ _ _ _ _ S) as (_ & [(l0 & evs & qe & -> & _ & St & _ & Q0 & ->)|(l0 & qe & -> & O & Q0 & Eb & _ & ->)]).
  - rewrite req_of_app, req_of_JB, req_of_JQ, bus_of_app, bus_of_JB, bus_of_JQ, app_nil_r. simpl.
    exists ((sync_label k (j_bus j) l0 ++ flat_map (sync_event k (j_pub j1)) evs) ++ qls). split; [eapply qexec_app_intro; eauto|]. split.
    + intros I. apply in_app_iff in I as [I|I]; [now apply sync_no_timeout in I|]. right. auto.
    + f_equal. rewrite (qexec_enters _ _ _ _ Q0), enters_app, label_enters, sync_enters. reflexivity.
  - rewrite req_of_JQ, bus_of_JQ. exists (l0 :: qls). split; [cbn [qexec]; rewrite Q0, Q; reflexivity|]. split.
    + intros [->|I]; [now left|right; auto].
    + rewrite (qstep_enters _ _ _ _ Q0). destruct l0; try discriminate O; reflexivity.
Qed.

(** ** Callbacks, step by step *)

Lemma calling_back l st st' evs r b c : reach st -> step l st = Some (st', evs) -> calling st' r b c ->
  (calling st r b c /\ l <> LReturn r /\ forall e, l <> LThrow r e) \/
  (exists s m, l = LRun r /\ evs = [EvReceive r b s m; EvInvoke r s m c]).
Proof.
  intros Rc H (x' & m & ss & stk & rest & G' & R').
  destruct (get_bus st r) as [x|] eqn:G.
  2: { exfalso. assert (b_runner x' = RIdle) as E; [|congruence].
       destruct (step_new _ _ _ _ _ _ H G G') as (_ & _ & [(n & _ & _ & ->)|[(n & g & _ & _ & ->)|(b0 & xb & n & t & _ & _ & _ & _ & _ & ->)]]); reflexivity. }
  destruct (runner_label_dec l r) as [RL|RL].
  - right. destruct (run_inv' _ _ _ _ _ H RL) as (x0 & rn & act & G0 & RC & E). rewrite G in G0. injection G0 as <-.
    rewrite E, run_view, G in G'. simpl in G'. injection G' as <-. simpl in R'. rewrite Nat.eqb_refl in R'. subst rn.
    inversion RC; subst. exists s, m. auto.
  - left. assert (b_runner x = b_runner x') as ER.
    { destruct (step_delta _ _ _ _ _ _ H G) as (x2 & G2 & D). rewrite G' in G2. injection G2 as <-.
      destruct (d_runner _ _ _ _ _ _ D) as [E|[E|(_ & _ & _ & E)]]; [auto|contradiction|congruence]. }
    split; [exists x, m, ss, stk, rest; split; auto; congruence|]. split; [intros ->; now apply RL|intros e ->; now apply RL].
Qed.

Lemma calling_forth l st st' evs r b c : step l st = Some (st', evs) -> calling st r b c ->
  calling st' r b c \/ l = LReturn r \/ exists e, l = LThrow r e.
Proof.
  intros H C. assert (l = LReturn r \/ (exists e, l = LThrow r e) \/ (l <> LReturn r /\ forall e, l <> LThrow r e)) as [->|[E|E]]; auto.
  { destruct l; try (right; right; split; [discriminate|intros e0; discriminate]; fail).
    - destruct (Nat.eq_dec r0 r) as [->|N]; auto. right; right. split; [congruence|intros ?; discriminate].
    - destruct (Nat.eq_dec r0 r) as [->|N]; eauto. right; right. split; [discriminate|intros ?; congruence]. }
  left. assert (exec [l] st = Some (st', evs)) as X by (simpl; rewrite H; now rewrite app_nil_r).
  apply (calling_stays _ _ _ _ _ _ _ C X). constructor; [exact E|constructor].
Qed.

(** A thread inside a callback delivers nothing. *)
Lemma inside_silent st r b c ls st' tr : reach st -> calling st r b c -> exec ls st = Some (st', tr) -> still_inside r ls ->
  forall e, In e tr -> match e with EvInvoke r' _ _ _ | EvReceive r' _ _ _ | EvBegin r' _ | EvEnd r' _ => r' <> r | _ => True end.
Proof.
  revert st tr. induction ls as [|l ls IH]; intros st tr Rc C X F e I.
  - simpl in X. injection X as <- <-. contradiction.
  - apply exec_cons_inv in X. destruct X as (s1 & e1 & e2 & H1 & H2 & ->). inversion F as [|? ? F1 F2]; subst.
    apply in_app_iff in I as [I|I].
    + assert (~ (l = LRun r)) as NR.
      { intros ->. destruct C as (x & m & ss & stk & rest & G & R). cbn [step] in H1. unfold run_step in H1. rewrite G, R in H1. simpl in H1. destruct ss; discriminate. }
      assert (~ runner_label l r) as RL. { intros RL. destruct l; simpl in RL; try contradiction; subst; [now apply NR|now apply (proj1 F1)|now apply (proj2 F1 e0)]. }
      pose proof (other_events _ _ _ _ _ _ H1 RL I) as Ab. destruct e; auto; simpl in Ab; apply Nat.eqb_neq in Ab; auto.
    + apply (IH s1 e2); auto; [eapply reach_step; eauto|].
      destruct (calling_forth _ _ _ _ _ _ _ H1 C) as [C1|[->|(e0 & ->)]]; auto; [now destruct (proj1 F1)|now destruct (proj2 F1 e0)].
Qed.

(** ** Which bus thread can answer *)

(** The response subscriber of consumer [c] is registered on a bus under [r], if anywhere. *)
Definition home (r c : nat) (st : state) : Prop :=
  exists y, nth_error (s_conss st) c = Some y /\ co_sub y < length (s_subs st) /\
    forall b x, get_bus st b = Some x -> In (co_sub y) (b_subs x) -> below st r b.

Lemma home_step r c l st st' evs : home r c st -> step l st = Some (st', evs) -> home r c st'.
Proof.
  intros (y & Ny & L & B) H. destruct (step_cons _ _ _ _ _ _ H Ny) as (y' & Ny' & Es & _). exists y'. split; auto. rewrite Es.
  split. { pose proof (step_len _ _ _ _ H). lia. }
  intros b x' G' I. destruct (step_subs_inv _ _ _ _ _ _ _ H G' I) as [(x & G & I0 & _)|(x & G & _ & _ & E & _)]; [|lia].
  eapply step_below_mono; eauto.
Qed.
Lemma home_exec r c ls : forall st st' tr, home r c st -> exec ls st = Some (st', tr) -> home r c st'.
Proof.
  induction ls as [|l ls IH]; intros st st' tr A X; [simpl in X; injection X as <- <-; auto|].
  apply exec_cons_inv in X. destruct X as (s1 & e1 & e2 & H1 & H2 & _). apply (IH s1 st' e2); auto. eapply home_step; eauto.
Qed.

Lemma home_intro st r c y b x : reach st -> nth_error (s_conss st) c = Some y -> get_bus st b = Some x -> In (co_sub y) (b_subs x) -> below st r b ->
  home r c st.
Proof.
  intros Rc Ny G I B. pose proof (reach_tree _ Rc) as T. exists y. split; auto. split; [eapply (t_sublt _ T); eauto|].
  intros b' x' G' I'. assert (b' = b) as -> by (eapply (t_subone _ T); eauto). exact B.
Qed.

Lemma home_calling st r c x r' b id u d : reach st -> home r c st -> get_bus st r = Some x -> b_root x = true ->
  calling st r' b (CallRequest c id u d) -> r' = r.
Proof.
  intros Rc (y & Ny & _ & B) G R C. pose proof (reach_tree _ Rc) as T. pose proof (reach_lock _ Rc) as K.
  destruct (reach_sub_held _ Rc _ _ _ _ _ _ C) as (z & y' & Ny' & Gz & I). assert (y' = y) as -> by congruence.
  specialize (B _ _ Gz I). destruct C as (x' & m & ss & stk & rest & G' & R').
  assert (b_root x' = true) as Rx by (eapply (t_runner _ T); eauto; rewrite R'; discriminate).
  pose proof (k_stack _ K _ _ G') as Sk. rewrite R' in Sk. simpl in Sk. pose proof (stack_below _ _ _ _ Sk (or_introl eq_refl)) as B'. simpl in B'.
  eapply (roots_equal st r' r b); eauto.
Qed.

Lemma home_invoke r c x ls : forall st st' tr r' s m id u d, reach st -> home r c st -> get_bus st r = Some x -> b_root x = true ->
  exec ls st = Some (st', tr) -> In (EvInvoke r' s m (CallRequest c id u d)) tr -> r' = r.
Proof.
  revert x. induction ls as [|l ls IH]; intros x st st' tr r' s m id u d Rc Ho G R X I; [simpl in X; injection X as <- <-; contradiction|].
  apply exec_cons_inv in X. destruct X as (s1 & e1 & e2 & H1 & H2 & ->).
  destruct (step_delta _ _ _ _ _ _ H1 G) as (x1 & G1 & D). pose proof (d_root _ _ _ _ _ _ D) as R1. rewrite R in R1.
  assert (reach s1) as Rc1 by (eapply reach_step; eauto). pose proof (home_step _ _ _ _ _ _ Ho H1) as Ho1.
  apply in_app_iff in I as [I|I]; [|eapply IH; eauto].
  destruct (invoke_inv _ _ _ _ _ _ _ _ H1 I) as (x0 & b & ss & stk & rest & y & x' & -> & G0 & R0 & Ny & Ac & Rv & Ev & G' & R' & _).
  eapply (home_calling s1 r c x1 r' b); eauto. exists x', m, ss, stk, rest. eauto.
Qed.

Lemma calls_in k tr d : In d (calls k tr) <-> exists r s m, In (EvInvoke r s m (CallRequest (k_c k) (k_id k) (k_u k) d)) tr.
Proof.
  unfold calls. rewrite in_flat_map. split.
  - intros (e & I & J). destruct e; try contradiction. destruct c; try contradiction. destruct (same k c id u) eqn:E; [|contradiction].
    destruct J as [<-|[]]. apply same_iff in E as (-> & -> & ->). eauto.
  - intros (r & s & m & I). eexists. split; [exact I|]. simpl. rewrite same_refl. now left.
Qed.
Lemma calls_nil k tr : (forall r s m d, ~ In (EvInvoke r s m (CallRequest (k_c k) (k_id k) (k_u k) d)) tr) -> calls k tr = [].
Proof.
  intros N. destruct (calls k tr) as [|d l] eqn:E; auto. exfalso. assert (In d (calls k tr)) as I by (rewrite E; now left).
  apply calls_in in I as (r & s & m & I). eapply N; eauto.
Qed.

(** ** The lambda runs when the callback does *)

Definition payload (c : cpc) : option dg :=
  match c with CIdle => None | CTest d | CWrite d | CWriting d | CClear d | CNotify d | CEnd d => Some d end.
Definition lambda_at (k : skey) (st : state) (r b : nat) (d : dg) : Prop := calling st r b (CallRequest (k_c k) (k_id k) (k_u k) d).
Definition linked (k : skey) (j : jstate) : Prop :=
  match j_q j with
  | QUndef => True
  | QLive q => match payload (q_c q) with
               | None => forall r b d, ~ lambda_at k (j_bus j) r b d
               | Some d => exists r b, lambda_at k (j_bus j) r b d
               end
  end.

Lemma in_lambda_iff k st r : reach st -> in_lambda k st r = true <-> exists b d, lambda_at k st r b d.
Proof.
  intros Rc. unfold in_lambda, lambda_at, calling. split.
  - destruct (get_bus st r) as [x|] eqn:G; [|discriminate]. destruct (b_runner x) as [| | | |m stk [[]|] rest] eqn:R; try discriminate.
    intros E. apply same_iff in E as (-> & -> & ->). destruct (k_call _ (reach_lock _ Rc) r x (CallRequest (k_c k) (k_id k) (k_u k) d) G) as (b & ss & stk' & Es); [now rewrite R|].
    rewrite R in Es. simpl in Es. subst stk. exists b, d, x, m, ss, stk', rest. auto.
  - intros (b & d & x & m & ss & stk & rest & -> & ->). apply same_refl.
Qed.

(** The lambda's labels among those of a bus step. *)
Definition quiet (l : qlabel) : Prop := match l with QRegister | QPublish | QFail _ => True | _ => False end.
Lemma quiet_exec ls : Forall quiet ls -> forall q m es, qexec ls (QLive q) = Some (m, es) -> exists q', m = QLive q' /\ q_c q' = q_c q.
Proof.
  induction 1 as [|l ls Ql _ IH]; intros q m es H; simpl in H; [injection H as <- <-; eauto|].
  destruct (qstep1 l q) as [[m1 e1]|] eqn:S; [|discriminate]. destruct (qexec ls m1) as [[m2 e2]|] eqn:E; [|discriminate]. injection H as <- <-.
  assert (exists q1, m1 = QLive q1 /\ q_c q1 = q_c q) as (q1 & -> & E1).
  { change (qstep l (QLive q) = Some (m1, e1)) in S. destruct l; try contradiction; qcases S q; simpl; eauto. }
  destruct (IH _ _ _ E) as (q' & -> & E'). exists q'. split; auto. congruence.
Qed.
Lemma sync_quiet k i evs : calls k evs = [] -> Forall quiet (flat_map (sync_event k i) evs).
Proof.
  induction evs as [|e evs IH]; intros C; [constructor|]. change (e :: evs) with ([e] ++ evs) in C. rewrite calls_app in C.
  apply app_eq_nil in C as (C1 & C2). cbn [flat_map]. apply Forall_app. split; [|auto]. clear - C1.
  destruct e; try constructor; simpl in *.
  - destruct c; try constructor. destruct (same k c id u); [discriminate|constructor].
  - destruct (same k c id u); repeat constructor.
  - destruct i; [|constructor]. destruct (Nat.eqb i0 n); [|constructor]. destruct r; repeat constructor.
Qed.

Lemma linked_step k l j j' es : reach (j_bus j) -> linked k j -> jstep k l j = Some (j', es) -> linked k j'.
Proof.
  intros Rc L S. destruct (jstep_inv _ _ _ _ _ S) as ((q & Eq) & [(l0 & evs & qe & -> & Th & St & _ & Q & _)|(l0 & qe & -> & O & Q & Eb & _ & _)]).
  - unfold linked in L. rewrite Eq in L, Q. unfold linked. destruct (calls k evs) as [|d ds] eqn:Ec.
    + destruct (sync_label k (j_bus j) l0) as [|a la] eqn:El.
      * simpl in Q. destruct (quiet_exec _ (sync_quiet _ _ _ Ec) _ _ _ Q) as (q' & -> & Eq'). rewrite Eq'. destruct (payload (q_c q)) as [d|].
        -- destruct L as (r & b & Ca). exists r, b. destruct (calling_forth _ _ _ _ _ _ _ St Ca) as [C1|[->|(e & ->)]]; auto; exfalso.
           ++ simpl in El. assert (in_lambda k (j_bus j) r = true) as E by (apply in_lambda_iff; eauto). rewrite E in El. discriminate.
           ++ simpl in Th. assert (in_lambda k (j_bus j) r = true) as E by (apply in_lambda_iff; eauto). congruence.
        -- intros r b d C. destruct (calling_back _ _ _ _ _ _ _ Rc St C) as [(C0 & _)|(s & m & -> & ->)]; [eapply L; eauto|].
           assert (In d (calls k [EvReceive r b s m; EvInvoke r s m (CallRequest (k_c k) (k_id k) (k_u k) d)])) as I by (apply calls_in; exists r, s, m; right; now left).
           rewrite Ec in I. contradiction.
      * destruct l0; try discriminate El. simpl in El. destruct (in_lambda k (j_bus j) r) eqn:Ei; [|discriminate]. injection El as <- <-.
        apply in_lambda_iff in Ei as (b & d & Ca); auto. cbn [app] in Q.
        cbn [qexec] in Q. destruct (qstep QEnd (QLive q)) as [[q1 e1]|] eqn:Q1; [|discriminate].
        destruct (qexec (flat_map _ evs) q1) as [[q2 e2]|] eqn:Q2; [|discriminate]. injection Q as <- <-.
        assert (exists p, q1 = QLive p /\ q_c p = CIdle) as (p & -> & Ep). { qcases Q1 q; simpl; eauto. }
        destruct (quiet_exec _ (sync_quiet _ _ _ Ec) _ _ _ Q2) as (q' & -> & Eq'). rewrite Eq', Ep. simpl.
        intros r' b' d' C. destruct (calling_back _ _ _ _ _ _ _ Rc St C) as [(C0 & N & _)|(s & m & E & _)]; [|discriminate].
        apply N. f_equal. eapply one_request; eauto.
    + assert (In d (calls k evs)) as I by (rewrite Ec; now left). apply calls_in in I as (r & s & m & I).
      destruct (invoke_inv _ _ _ _ _ _ _ _ St I) as (x0 & b & ss & stk & rest & y & x' & -> & G0 & R0 & Ny & Ac & Rv & -> & G' & R' & _).
      cbn [flat_map sync_label sync_event app] in Q. rewrite same_refl in Q. cbn [app qexec] in Q.
      destruct (qstep (QEnter d) (QLive q)) as [[q1 e1]|] eqn:Q1; [|discriminate]. injection Q as <- <-.
      qcases Q1 q; simpl; exists r, b, x', m, ss, stk, rest; auto.
  - unfold linked in *. rewrite Eq in L, Q. rewrite Eb. destruct l0; try discriminate O; qcases Q q; simpl in *; auto.
Qed.

Lemma jexec_reach k ls j j' tr : reach (j_bus j) -> jexec k ls j = Some (j', tr) -> reach (j_bus j').
Proof. intros Rc X. eapply reach_exec; [exact Rc|eapply bus_proj; eauto]. Qed.

Lemma linked_exec k ls : forall j j' tr, reach (j_bus j) -> linked k j -> jexec k ls j = Some (j', tr) -> linked k j'.
Proof.
  induction ls as [|l ls IH]; intros j j' tr Rc L X; simpl in X; [now injection X as <- <-|].
  destruct (jstep k l j) as [[j1 e1]|] eqn:S; [|discriminate]. destruct (jexec k ls j1) as [[j2 e2]|] eqn:E; [|discriminate]. injection X as <- <-.
  apply (IH j1 j2 e2); auto; [|eapply linked_step; eauto].
  apply (jexec_reach k [l] j j1 (e1 ++ [])); auto. simpl. now rewrite S.
Qed.

Lemma linked_init k : linked k jinit.
Proof. intros r b d (x & m & ss & stk & rest & G & _). destruct r; discriminate. Qed.

(** ** Splitting at an event *)

Lemma event_point ls : forall st st' ta e tb, exec ls st = Some (st', ta ++ e :: tb) ->
  exists ls1 l ls2 st1 st2 t1 e1 e2 t2, ls = ls1 ++ l :: ls2 /\ exec ls1 st = Some (st1, t1) /\ step l st1 = Some (st2, e1 ++ e :: e2) /\
    exec ls2 st2 = Some (st', t2) /\ ta = t1 ++ e1 /\ tb = e2 ++ t2.
Proof.
  induction ls as [|l ls IH]; intros st st' ta e tb X; [simpl in X; destruct ta; discriminate|].
  apply exec_cons_inv in X. destruct X as (s1 & e1 & e2 & H1 & H2 & E).
  symmetry in E. apply app_eq_app in E. destruct E as (z & [(E1 & E2)|(E1 & E2)]).
  - destruct z as [|z0 z].
    + rewrite app_nil_r in E1. subst e1. simpl in E2. subst e2. destruct (IH s1 st' [] e tb H2) as (ls1 & l1 & ls2 & n1 & n2 & u1 & f1 & f2 & u2 & -> & X1 & S & X2 & A & ->).
      exists (l :: ls1), l1, ls2, n1, n2, (ta ++ u1), f1, f2, u2. split; [reflexivity|]. split; [cbn [exec]; rewrite H1, X1; reflexivity|].
      split; auto. split; auto. split; auto. rewrite <- app_assoc, <- A, app_nil_r. reflexivity.
    + injection E2 as <- ->. subst e1. exists [], l, ls, st, s1, [], ta, z, e2. repeat split; auto.
  - subst ta e2. destruct (IH s1 st' z e tb H2) as (ls1 & l1 & ls2 & n1 & n2 & u1 & f1 & f2 & u2 & -> & X1 & S & X2 & -> & ->).
    exists (l :: ls1), l1, ls2, n1, n2, (e1 ++ u1), f1, f2, u2. split; [reflexivity|]. split; [cbn [exec]; rewrite H1, X1; reflexivity|].
    repeat split; auto. now rewrite app_assoc.
Qed.

Lemma jevent_point k ls : forall j j' ta e tb, jexec k ls j = Some (j', ta ++ e :: tb) ->
  exists ls1 l ls2 j1 j2 t1 e1 e2 t2, ls = ls1 ++ l :: ls2 /\ jexec k ls1 j = Some (j1, t1) /\ jstep k l j1 = Some (j2, e1 ++ e :: e2) /\
    jexec k ls2 j2 = Some (j', t2) /\ ta = t1 ++ e1 /\ tb = e2 ++ t2.
Proof.
  induction ls as [|l ls IH]; intros j j' ta e tb X; [simpl in X; destruct ta; discriminate|].
  cbn [jexec] in X. destruct (jstep k l j) as [[s1 e1]|] eqn:H1; [|discriminate]. destruct (jexec k ls s1) as [[s2 e2]|] eqn:H2; [|discriminate].
  injection X as <- E.
  apply app_eq_app in E. destruct E as (z & [(E1 & E2)|(E1 & E2)]).
  - destruct z as [|z0 z].
    + rewrite app_nil_r in E1. subst e1. simpl in E2. subst e2. destruct (IH s1 s2 [] e tb H2) as (ls1 & l1 & ls2 & n1 & n2 & u1 & f1 & f2 & u2 & -> & X1 & S & X2 & A & ->).
      exists (l :: ls1), l1, ls2, n1, n2, (ta ++ u1), f1, f2, u2. split; [reflexivity|]. split; [cbn [jexec]; rewrite H1, X1; reflexivity|].
      split; auto. split; auto. split; auto. rewrite <- app_assoc, <- A, app_nil_r. reflexivity.
    + injection E2 as <- ->. subst e1. exists [], l, ls, j, s1, [], ta, z, e2. repeat split; auto.
  - subst ta e2. destruct (IH s1 s2 z e tb H2) as (ls1 & l1 & ls2 & n1 & n2 & u1 & f1 & f2 & u2 & -> & X1 & S & X2 & -> & ->).
    exists (l :: ls1), l1, ls2, n1, n2, (e1 ++ u1), f1, f2, u2. split; [reflexivity|]. split; [cbn [jexec]; rewrite H1, X1; reflexivity|].
    repeat split; auto. now rewrite app_assoc.
Qed.

(** Request returns in a step of its own. *)
Lemma return_point k ls j j' ta v tb : jexec k ls j = Some (j', ta ++ JQ (QeReturn v) :: tb) ->
  exists ls1 ls2 j1 j2, ls = ls1 ++ JLocal QReturn :: ls2 /\ jexec k ls1 j = Some (j1, ta) /\ jstep k (JLocal QReturn) j1 = Some (j2, [JQ (QeReturn v)]) /\
    jexec k ls2 j2 = Some (j', tb).
Proof.
  intros X. destruct (jevent_point _ _ _ _ _ _ _ X) as (ls1 & l & ls2 & j1 & j2 & t1 & e1 & e2 & t2 & -> & X1 & S & X2 & -> & ->).
  assert (l = JLocal QReturn /\ e1 = [] /\ e2 = []) as (-> & -> & ->).
  { destruct (jstep_inv _ _ _ _ _ S) as ((q & Eq) & [(l0 & evs & qe & -> & _ & _ & _ & Q & E)|(l0 & qe & -> & O & Q & _ & _ & E)]).
    - exfalso. assert (In (QeReturn v) qe) as I.
      { assert (In (JQ (QeReturn v)) (map JB evs ++ map JQ qe)) as I by (rewrite <- E; apply in_app_iff; right; now left).
        apply in_app_iff in I as [I|I]; apply in_map_iff in I as (z & Ez & I); [discriminate|injection Ez as ->; exact I]. }
      clear - Q I. assert (forall l, In l (sync_label k (j_bus j1) l0 ++ flat_map (sync_event k (j_pub j2)) evs) -> l <> QReturn) as N.
      { intros l J ->. apply in_app_iff in J as [J|J].
        - destruct l0; try contradiction. simpl in J. destruct (in_lambda k (j_bus j1) r); destruct J as [J|[]] || contradiction; discriminate.
        - apply in_flat_map in J as (e & _ & J). destruct e; try contradiction; simpl in J.
          + destruct c; try contradiction. destruct (same k c id u); [destruct J as [J|[]]; discriminate|contradiction].
          + destruct (same k c id u); [destruct J as [J|[]]; discriminate|contradiction].
          + destruct (j_pub j2); [|contradiction]. destruct (Nat.eqb i n); [|contradiction]. destruct r; destruct J as [J|[]] || contradiction; discriminate. }
      revert N Q I. generalize (j_q j2). generalize (sync_label k (j_bus j1) l0 ++ flat_map (sync_event k (j_pub j2)) evs). generalize (j_q j1). intros m l m'. revert m qe.
      induction l as [|a l IH]; intros m qe N Q I; simpl in Q; [injection Q as <- <-; contradiction|].
      destruct (qstep a m) as [[m1 f1]|] eqn:S1; [|discriminate]. destruct (qexec l m1) as [[m2 f2]|] eqn:E2; [|discriminate]. injection Q as <- <-.
      apply in_app_iff in I as [I|I]; [|apply (IH m1 f2); auto; intros b J; apply N; now right].
      assert (a <> QReturn) as Na by (apply N; now left). destruct m as [st|]; [|discriminate].
      destruct a; qcases S1 st; simpl in I; try contradiction; destruct I as [I|[]]; try discriminate; congruence.
    - rewrite Eq in Q. revert Q. generalize (j_q j2). intros m2 Q. destruct l0; try discriminate O; qcases Q q; simpl in E; destruct e1 as [|? [|]]; try discriminate; injection E as E; auto; congruence. }
  exists ls1, ls2, j1, j2. rewrite app_nil_r. simpl. auto.
Qed.

(** ** The beginning and the end of a distribution *)

Lemma begin_inv l st st' evs r m : step l st = Some (st', evs) -> In (EvBegin r m) evs ->
  l = LRun r /\ evs = [EvBegin r m] /\ exists x, get_bus st r = Some x /\ current x = [].
Proof.
  intros H I. assert (about r (EvBegin r m) = true) as Ab by (simpl; apply Nat.eqb_refl).
  destruct (runner_label_dec l r) as [RL|RL]; [|rewrite (other_events _ _ _ _ _ _ H RL I) in Ab; discriminate].
  destruct (run_inv' _ _ _ _ _ H RL) as (x & rn & act & G & RC & E).
  inversion RC; subst l rn act evs; cbn [In] in I; try contradiction;
    repeat match goal with H : _ \/ _ |- _ => destruct H as [I|I]; try discriminate I; try contradiction end;
    try (exfalso; apply in_app_iff in I as [I|[I|[]]]; [apply in_map_iff in I as (? & I & _)|]; discriminate).
  injection I as <-. split; auto. split; auto. exists x. split; auto. unfold current.
  match goal with Q : _ = b_runner x |- _ => rewrite <- Q end. reflexivity.
Qed.

Lemma end_inv l st st' evs r m : step l st = Some (st', evs) -> In (EvEnd r m) evs ->
  l = LRun r /\ evs = [EvEnd r m] /\ exists x rest x', get_bus st r = Some x /\ b_runner x = RDist m [] None rest /\
    get_bus st' r = Some x' /\ b_runner x' = RBatch rest.
Proof.
  intros H I. assert (about r (EvEnd r m) = true) as Ab by (simpl; apply Nat.eqb_refl).
  destruct (runner_label_dec l r) as [RL|RL]; [|rewrite (other_events _ _ _ _ _ _ H RL I) in Ab; discriminate].
  destruct (run_inv' _ _ _ _ _ H RL) as (x & rn & act & G & RC & E).
  inversion RC; subst l rn act evs; cbn [In] in I; try contradiction;
    repeat match goal with H : _ \/ _ |- _ => destruct H as [I|I]; try discriminate I; try contradiction end;
    try (exfalso; apply in_app_iff in I as [I|[I|[]]]; [apply in_map_iff in I as (? & I & _)|]; discriminate).
  injection I as <-. split; auto. split; auto. match goal with Q : _ = b_runner x |- _ => rename Q into R0 end.
  rewrite E, run_view, G. exists x. rewrite <- R0. do 2 eexists. split; [reflexivity|]. split; [reflexivity|]. split; [reflexivity|]. simpl. now rewrite Nat.eqb_refl.
Qed.

Lemma unanswered_exec c id u ls : forall st st' tr, reach st -> unanswered c id u st -> exec ls st = Some (st', tr) ->
  (forall d v, ~ In (LRequest c id d (Some v)) ls) -> In (id, u) (answered c tr) \/ unanswered c id u st'.
Proof.
  induction ls as [|l ls IH]; intros st st' tr Rc Un X N; [simpl in X; injection X as <- <-; auto|].
  apply exec_cons_inv in X. destruct X as (s1 & e1 & e2 & H1 & H2 & ->). rewrite answered_app, in_app_iff.
  destruct (unanswered_step _ _ _ _ _ _ _ Rc Un H1) as [A|Un1]; auto; [intros d v ->; apply (N d v); now left|].
  destruct (IH s1 st' e2) as [A|A]; auto; [eapply reach_step; eauto|intros d v I; apply (N d v); now right].
Qed.

Lemma always_split (P : state -> Prop) ls1 : forall ls2 st st1 t1, exec ls1 st = Some (st1, t1) -> always P (ls1 ++ ls2) st -> always P ls2 st1.
Proof.
  induction ls1 as [|l ls1 IH]; intros ls2 st st1 t1 X A; [simpl in X; injection X as <- <-; auto|].
  apply exec_cons_inv in X. destruct X as (s1 & e1 & e2 & H1 & H2 & ->). simpl in A. rewrite H1 in A. destruct A as (_ & A). eapply IH; eauto.
Qed.
Lemma always_prefix (P : state -> Prop) ls1 : forall ls2 st, always P (ls1 ++ ls2) st -> always P ls1 st.
Proof.
  induction ls1 as [|l ls1 IH]; intros ls2 st A; simpl in *; [destruct ls2; simpl in A; tauto|].
  destruct A as (A0 & A). split; auto. destruct (step l st) as [[s1 e1]|]; eauto.
Qed.
Lemma always_here (P : state -> Prop) ls st : always P ls st -> P st.
Proof. destruct ls; simpl; tauto. Qed.

(** A response distributed from beginning to end has its request answered. *)
Lemma answered_begun ls st st' r m ta tb b c s id u d :
  reach st -> exec ls st = Some (st', ta ++ EvBegin r m :: tb) -> unanswered c id u st ->
  always (fun st => serving r b s st /\ consumer_on st c s) ls st ->
  (forall d v, ~ In (LRequest c id d (Some v)) ls) ->
  In (EvEnd r m) tb -> answer (bm_data (snd m)) id d ->
  (exists y, nth_error (s_subs st) s = Some y /\ s_topic y = bm_topic (snd m)) ->
  In (id, u) (answered c (ta ++ EvBegin r m :: tb)).
Proof.
  intros Rc X Un Al N Ie An (y & Ny & Ty).
  destruct (event_point _ _ _ _ _ _ X) as (ls1 & l & ls2 & st1 & st2 & t1 & e1 & e2 & t2 & -> & X1 & H & X2 & -> & ->).
  assert (In (EvBegin r m) (e1 ++ EvBegin r m :: e2)) as I by (apply in_app_iff; right; now left).
  destruct (begin_inv _ _ _ _ _ _ H I) as (-> & E & Cu). assert (e1 = [] /\ e2 = []) as (-> & ->).
  { destruct e1 as [|? [|]]; try discriminate E. injection E as ->. auto. }
  rewrite app_nil_r, answered_app, in_app_iff.
  destruct (unanswered_exec c id u ls1 st st1 t1 Rc Un X1) as [A|Un1]; auto; [intros d0 v J; apply (N d0 v); apply in_app_iff; auto|].
  right. apply (C36_answered (LRun r :: ls2) st1 st' (EvBegin r m :: t2) r b c s id u m d); auto.
  - eapply reach_exec; eauto.
  - cbn [exec]. rewrite H, X2. reflexivity.
  - eapply always_split; eauto.
  - intros d0 v J. apply (N d0 v). apply in_app_iff; auto.
  - right. exact Ie.
  - clear - Ny Ty X1. revert st y Ny Ty t1 X1. induction ls1 as [|l ls1 IH]; intros st y Ny Ty t1 X1; [simpl in X1; injection X1 as <- <-; eauto|].
    apply exec_cons_inv in X1. destruct X1 as (s1 & f1 & f2 & H1 & H2 & ->). destruct (step_sub _ _ _ _ _ _ H1 Ny) as (y1 & Ny1 & Ty1 & _).
    eapply (IH s1 y1); eauto. congruence.
Qed.

(** A response that reaches the subscriber has its request answered. *)
Lemma answered_received c s id u d r b m ls : forall st st' tr,
  reach st -> exec ls st = Some (st', tr) -> unanswered c id u st -> always (fun st => consumer_on st c s) ls st ->
  (forall d v, ~ In (LRequest c id d (Some v)) ls) -> In (EvReceive r b s m) tr -> answer (bm_data (snd m)) id d -> In (id, u) (answered c tr).
Proof.
  induction ls as [|l ls IH]; intros st st' tr Rc X Un Al NR Ir An.
  - simpl in X. injection X as <- <-. contradiction.
  - apply exec_cons_inv in X. destruct X as (s1 & e1 & e2 & H1 & H2 & ->). simpl in Al. destruct Al as (Co & Al). rewrite H1 in Al.
    rewrite answered_app. apply in_app_iff. apply in_app_iff in Ir as [Ir|Ir].
    + left. destruct (C36_invoked _ _ _ _ _ _ _ _ _ _ _ _ Rc Co (proj1 Un) H1 Ir An) as (-> & _). simpl. rewrite Nat.eqb_refl. now left.
    + destruct (unanswered_step _ _ _ _ _ _ _ Rc Un H1) as [A|Un1]; auto.
      { intros d0 v ->. apply (NR d0 v). now left. }
      right. apply (IH s1 st' e2); auto; [eapply reach_step; eauto|]. intros d0 v I. apply (NR d0 v). now right.
Qed.

Lemma calls_answered k tr : In (k_id k, k_u k) (answered (k_c k) tr) -> calls k tr <> [].
Proof.
  intros I E. unfold answered in I. apply in_flat_map in I as (e & I & J). destruct e; try contradiction. destruct c; try contradiction.
  destruct (Nat.eqb_spec c (k_c k)) as [->|]; [|contradiction]. destruct J as [J|[]]. injection J as -> ->.
  assert (In d (calls k tr)) as K by (apply calls_in; eauto). rewrite E in K. contradiction.
Qed.

(** ** After Request *)

(** Entered after Request has gone, the lambda does not get past its first step. *)
Lemma over_stuck ls : forall q q' es, q_w q = WLeft -> q_c q = CIdle \/ (exists d, q_c q = CTest d) -> qexec ls (QLive q) = Some (QLive q', es) ->
  q_w q' = WLeft /\ (q_c q' = CIdle /\ q_c q = CIdle /\ q_entered es = [] \/ exists d, q_c q' = CTest d).
Proof.
  induction ls as [|l ls IH]; intros q q' es W C X; simpl in X.
  - injection X as <- <-. split; auto. destruct C as [C|C]; auto.
  - destruct (qstep1 l q) as [[m1 e1]|] eqn:S; [|discriminate]. destruct (qexec ls m1) as [[m2 e2]|] eqn:E; [|discriminate]. injection X as -> <-.
    destruct m1 as [q1|]; [|destruct ls; discriminate].
    assert (q_w q1 = WLeft /\ (q_c q1 = CIdle /\ q_c q = CIdle /\ e1 = [] \/ exists d, q_c q1 = CTest d)) as (W1 & C1).
    { change (qstep l (QLive q) = Some (QLive q1, e1)) in S. destruct q as [w c rg wt rs]; simpl in *; subst w. clear E IH.
      destruct C as [->|(d & ->)]; destruct l; simpl in S; unfold qstep1, w_set, c_set, local in S; simpl in S; try discriminate.
      destruct rg; [|discriminate]. injection S as <- <-. simpl. eauto. }
    destruct (IH q1 q' e2) as (W' & D); auto; [destruct C1 as [(C1 & _)|C1]; auto|]. split; auto.
    destruct D as [(D1 & D2 & D3)|D]; auto. left. destruct C1 as [(_ & C0 & ->)|(d & C1)]; [auto|congruence].
Qed.

(** Without a call of the lambda Request waits until it times out. *)
Lemma no_call_timeout ls : forall m tr, qexec ls qinit = Some (m, tr) -> q_entered tr = [] ->
  exists q, m = QLive q /\ q_c q = CIdle /\ q_waiting q = true /\ (q_w q = WReturn \/ q_w q = WFinal \/ (exists v, In (QeReturn v) tr) -> In QTimeout ls).
Proof.
  induction ls as [|l ls IH] using rev_ind; intros m tr X E.
  - simpl in X. injection X as <- <-. eexists. split; [reflexivity|]. split; auto. split; auto. intros [W|[W|(v & [])]]; discriminate.
  - apply qexec_app in X. destruct X as (m1 & t1 & t2 & X1 & X2 & ->). rewrite entered_app in E. apply app_eq_nil in E as (E1 & E2).
    destruct (IH _ _ X1 E1) as (q & -> & C & Wt & T). cbn [qexec] in X2. destruct (qstep l (QLive q)) as [[m2 e2]|] eqn:S; [|discriminate].
    injection X2 as <- <-. rewrite app_nil_r in *.
    assert (forall P : Prop, (P -> In QTimeout ls) -> (P -> In QTimeout (ls ++ [l]))) as Mono by (intros P Hp p; apply in_app_iff; auto).
    destruct q as [w c rg wt rs]; simpl in *; subst c wt.
    destruct l; simpl in S; unfold qstep1, w_set, c_set, local in S; simpl in S; destruct w as [ | | | |[]| | |]; try discriminate S;
      try (destruct rg; [injection S as <- <-; discriminate E2|discriminate]);
      injection S as <- <-; simpl; eexists; (split; [reflexivity|]); (split; [reflexivity|]); (split; [reflexivity|]); simpl;
      intros Hy; apply in_app_iff; try (right; left; reflexivity); left; apply T;
      destruct Hy as [Hy|[Hy|(v & Hy)]]; try discriminate Hy; auto; right; right; rewrite ?app_nil_r in Hy; eauto;
      apply in_app_iff in Hy as [Hy|[Hy|[]]]; try discriminate; eauto.
Qed.

(** ** The publication of the request *)
Lemma qexec_fail e ls : forall m m' es, qexec ls m = Some (m', es) -> (In (QeThrow e) es <-> In (QFail e) ls).
Proof.
  induction ls as [|l ls IH]; intros m m' es H; simpl in H; [injection H as <- <-; simpl; tauto|].
  destruct (qstep l m) as [[m1 e1]|] eqn:S; [|discriminate]. destruct (qexec ls m1) as [[m2 e2]|] eqn:E; [|discriminate].
  injection H as <- <-. rewrite in_app_iff, (IH _ _ _ E). simpl.
  assert (In (QeThrow e) e1 <-> l = QFail e) as ->; [|tauto].
  destruct m as [st|]; [|discriminate]. clear IH E. destruct l; qcases S st; simpl; split; intros H; try contradiction; try discriminate;
    try (destruct H as [H|[]]; congruence); try (injection H as ->; now left).
Qed.
Lemma sync_fail k n e st l evs : In (QFail e) (sync_label k st l ++ flat_map (sync_event k (Some n)) evs) <-> In (EvFlight n (Throw e)) evs.
Proof.
  rewrite in_app_iff, in_flat_map. split.
  - intros [I|(ev & I & J)].
    + exfalso. destruct l; simpl in I; try contradiction. destruct (in_lambda k st r); simpl in I; [destruct I as [I|[]]; discriminate|contradiction].
    + destruct ev; simpl in J; try contradiction.
      * destruct c; try contradiction. destruct (same k c id u); [destruct J as [J|[]]; discriminate|contradiction].
      * destruct (same k c id u); [destruct J as [J|[]]; discriminate|contradiction].
      * destruct (Nat.eqb_spec i n) as [->|]; [|contradiction]. destruct r; simpl in J; try contradiction; destruct J as [J|[]]; try discriminate. injection J as ->. exact I.
  - intros I. right. eexists. split; [exact I|]. simpl. rewrite Nat.eqb_refl. now left.
Qed.

Definition made (n : nat) (j : jstate) : Prop := j_pub j = Some n /\ match j_q j with QLive q => q_w q <> WRegister | QUndef => True end.

Lemma registered_stays ls : forall m m' es, qexec ls m = Some (m', es) ->
  match m with QLive q => q_w q <> WRegister | QUndef => True end ->
  ~ In QRegister ls /\ match m' with QLive q => q_w q <> WRegister | QUndef => True end.
Proof.
  induction ls as [|l ls IH]; intros m m' es H W; simpl in H; [injection H as <- <-; simpl; auto|].
  destruct (qstep l m) as [[m1 e1]|] eqn:S; [|discriminate]. destruct (qexec ls m1) as [[m2 e2]|] eqn:E; [|discriminate].
  injection H as <- <-. destruct m as [st|]; [|discriminate].
  assert (l <> QRegister /\ match m1 with QLive q => q_w q <> WRegister | QUndef => True end) as (N & W1).
  { clear IH E. destruct l; qcases S st; simpl in *; split; try discriminate; try congruence; auto. }
  destruct (IH _ _ _ E W1) as (A & B). split; auto. intros [->|I]; auto.
Qed.

Lemma request_registers k c id d u st st' evs i : step (LRequest c id d (Some u)) st = Some (st', evs) -> same k c id u = true ->
  In QRegister (flat_map (sync_event k i) evs).
Proof.
  cbn [step]. intros H S. destruct (nth_error (s_conss st) c) as [x|]; [|discriminate].
  destruct (begin_publish _ _ _) as [[st2 ev]|]; [|discriminate]. injection H as <- <-. simpl. rewrite S. now left.
Qed.

Lemma made_step k n l j j' es : made n j -> jstep k l j = Some (j', es) -> made n j'.
Proof.
  intros (P & W) S. destruct (jstep_inv _ _ _ _ _ S) as (_ & [(l0 & evs & qe & -> & _ & St & Ep & Q & ->)|(l0 & qe & -> & _ & Q & _ & Ep & ->)]).
  - destruct (registered_stays _ _ _ _ Q W) as (N & W1). split; [|exact W1]. rewrite Ep, P. rewrite Ep, P in N.
    unfold pub_of in *. destruct l0; auto. destruct u as [u|]; auto. destruct (same k c id u) eqn:E; auto.
    exfalso. apply N. apply in_app_iff. right. exact (request_registers _ _ _ _ _ _ _ _ _ St E).
  - split; [congruence|]. assert (qexec [l0] (j_q j) = Some (j_q j', qe ++ [])) as Q1 by (simpl; rewrite Q; reflexivity).
    apply (registered_stays _ _ _ _ Q1 W).
Qed.

(** A step ends Request by an exception exactly if it ends its publication by it. *)
Lemma fail_step k n l j j' es e : j_pub j' = Some n -> jstep k l j = Some (j', es) ->
  (In (JQ (QeThrow e)) es <-> In (JB (EvFlight n (Throw e))) es).
Proof.
  intros P S. destruct (jstep_inv _ _ _ _ _ S) as (_ & [(l0 & evs & qe & -> & _ & St & Ep & Q & ->)|(l0 & qe & -> & O & Q & _ & Ep & ->)]).
  - rewrite P in Q. pose proof (qexec_fail e _ _ _ _ Q) as A. rewrite sync_fail in A. rewrite !in_app_iff, !in_map_iff. split.
    + intros [(x & E & _)|(x & E & I)]; [discriminate|]. injection E as ->. left. exists (EvFlight n (Throw e)). split; auto. now apply A.
    + intros [(x & E & I)|(x & E & _)]; [|discriminate]. injection E as ->. right. eexists. split; [reflexivity|]. now apply A.
  - rewrite !in_map_iff. split; intros (x & E & I); [|discriminate]. injection E as ->. exfalso.
    assert (qexec [l0] (j_q j) = Some (j_q j', qe ++ [])) as Q1 by (simpl; rewrite Q; reflexivity).
    rewrite app_nil_r in Q1. apply (proj1 (qexec_fail e _ _ _ _ Q1)) in I as [->|[]]. discriminate.
Qed.

Lemma fail_exec k n e ls : forall j j' tr, made n j -> jexec k ls j = Some (j', tr) ->
  (In (JQ (QeThrow e)) tr <-> In (JB (EvFlight n (Throw e))) tr).
Proof.
  induction ls as [|l ls IH]; intros j j' tr M H; simpl in H; [injection H as <- <-; simpl; tauto|].
  destruct (jstep k l j) as [[j1 e1]|] eqn:S; [|discriminate]. destruct (jexec k ls j1) as [[j2 e2]|] eqn:E; [|discriminate]. injection H as <- <-.
  pose proof (made_step _ _ _ _ _ _ M S) as M1. rewrite !in_app_iff, (IH _ _ _ M1 E), (fail_step _ _ _ _ _ _ e (proj1 M1) S). tauto.
Qed.

(** Request ends once. *)
Lemma over_once ls : forall m m' es, qexec ls m = Some (m', es) -> match m with QLive q => q_w q = WLeft | QUndef => True end -> ~ q_over es.
Proof.
  induction ls as [|l ls IH]; intros m m' es H W; simpl in H; [injection H as <- <-; apply over_nil|].
  destruct (qstep l m) as [[m1 e1]|] eqn:S; [|discriminate]. destruct (qexec ls m1) as [[m2 e2]|] eqn:E; [|discriminate].
  injection H as <- <-. rewrite over_snoc. destruct m as [st|]; [|discriminate]. intros [O|O].
  - clear IH E. destruct l; qcases S st; simpl in *; try discriminate; try (now apply over_nil in O); apply over_one in O; contradiction.
  - revert O. eapply IH; eauto. assert (qexec [l] (QLive st) = Some (m1, e1 ++ [])) as Q1 by (cbn [qexec]; rewrite S; reflexivity).
    exact (q_over_stays _ _ _ _ Q1 W).
Qed.

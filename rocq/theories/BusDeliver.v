(** Further lemmas about delivery: the delivery list of a message described by
    membership, uniqueness of the end of a distribution, running buses. *)
From Coq Require Import String Ascii List Arith ZArith Bool Lia Sorted.
From Verif Require Import Prelude OMap DatagramModel DatagramSpec BusModel BusSpec BusProofs BusTree BusLocks BusLocks2 BusLocks3 BusDist BusAccount BusOnce BusServe BusFlight BusDetach BusProgress.
Import ListNotations.
Open Scope list_scope.

(** ** The delivery list by membership *)

Lemma takers_in st t ss own : takers st t ss own ->
  forall s, In s own <-> In s ss /\ exists y, nth_error (s_subs st) s = Some y /\ accepts (s_topic y) t.
Proof.
  induction 1 as [|s0 y ss l N A T IH|s0 y ss l N A T IH]; intros s; simpl.
  - tauto.
  - rewrite IH. split.
    + intros [<-|(I & E)]; split; eauto.
    + intros ([<-|I] & E); auto.
  - rewrite IH. split.
    + intros (I & E); split; auto.
    + intros ([<-|I] & (y' & N' & A')); [congruence|]. split; eauto.
Qed.

Lemma takers_nodup st t ss own : takers st t ss own -> NoDup ss -> NoDup own.
Proof.
  induction 1 as [|s0 y ss l N A T IH|s0 y ss l N A T IH]; intros D; inversion D; subst; auto.
  constructor; auto. intros I. apply (takers_in _ _ _ _ T) in I. tauto.
Qed.

Lemma delivers_sound st t :
  (forall a l, delivers st t a l -> forall b s, In (b, s) l -> tree_inv st -> served st t a b s) /\
  (forall ks l, delivers_all st t ks l -> forall b s, In (b, s) l -> tree_inv st -> exists k, In k ks /\ served st t k b s).
Proof.
  assert (forall P Q : Prop, P -> (P -> Q) -> P /\ Q) as PQ by tauto.
  apply PQ.
  - apply (delivers_mind st t (fun a l => forall b s, In (b, s) l -> tree_inv st -> served st t a b s)
             (fun ks l => forall b s, In (b, s) l -> tree_inv st -> exists k, In k ks /\ served st t k b s)).
    + intros b x G R b0 s [].
    + intros a x own bel G R T D ID b s I TI. apply in_app_iff in I. destruct I as [I|I].
      * apply in_map_iff in I. destruct I as (s0 & E & I). injection E as <- <-.
        apply (takers_in _ _ _ _ T) in I. destruct I as (I & Y).
        split; [constructor|]. split; [|split; eauto].
        intros c B1 B2. pose proof (below_le _ _ _ TI B1). pose proof (below_le _ _ _ TI B2).
        assert (c = a) as -> by lia. eauto.
      * destruct (ID _ _ I TI) as (k & Ik & (B & RN & S & Y)).
        assert (kid st a k) as K by (exists x; auto).
        split; [eapply below_trans; [econstructor 2; [constructor|exact K]|exact B]|]. split; [|auto].
        intros c B1 B2. destruct (below_first _ _ _ B1) as [->|(k' & K' & B')]; eauto.
        destruct (Nat.eq_dec k' k) as [->|Ne]; [apply RN; auto|].
        exfalso. eapply (siblings st a k' k b); eauto. eapply below_trans; eauto.
    + intros b s [].
    + intros k ks l1 l2 D1 I1 D2 I2 b s I TI. apply in_app_iff in I. destruct I as [I|I].
      * exists k. split; [now left|auto].
      * destruct (I2 _ _ I TI) as (k' & Ik & S). exists k'. split; [now right|auto].
  - intros A ks l D. induction D as [|k ks l1 l2 D1 D2 IH]; intros b s I TI; [destruct I|].
    apply in_app_iff in I. destruct I as [I|I].
    + exists k. split; [now left|]. eapply A; eauto.
    + destruct (IH _ _ I TI) as (k' & Ik & S). exists k'. split; [now right|auto].
Qed.

Lemma delivers_complete st t :
  (forall a l, delivers st t a l -> forall b s, served st t a b s -> In (b, s) l) /\
  (forall ks l, delivers_all st t ks l -> forall k b s, In k ks -> served st t k b s -> In (b, s) l).
Proof.
  assert (forall P Q : Prop, P -> (P -> Q) -> P /\ Q) as PQ by tauto.
  apply PQ.
  - apply (delivers_mind st t (fun a l => forall b s, served st t a b s -> In (b, s) l)
             (fun ks l => forall k b s, In k ks -> served st t k b s -> In (b, s) l)).
    + intros a x G R b s (B & RN & _). destruct (RN a (below_refl _ _) B) as (xa & Ga & Ra). congruence.
    + intros a x own bel G R T D ID b s (B & RN & (xb & Gb & Ib) & Y). apply in_app_iff.
      destruct (below_first _ _ _ B) as [->|(k & K & Bk)].
      * left. apply in_map. apply (takers_in _ _ _ _ T). rewrite G in Gb. injection Gb as <-. auto.
      * right. destruct K as (x' & G' & Ik). rewrite G in G'. injection G' as <-. apply (ID k); auto.
        split; auto. split; [|split; eauto]. intros c B1 B2. apply RN; auto.
        eapply below_trans; [econstructor 2; [constructor|exists x; eauto]|exact B1].
    + intros k b s [].
    + intros k ks l1 l2 D1 I1 D2 I2 k0 b s [<-|I] S; apply in_app_iff; [left|right]; eauto.
  - intros A ks l D. induction D as [|k ks l1 l2 D1 D2 IH]; intros k0 b s I S; [destruct I|].
    apply in_app_iff. destruct I as [<-|I]; [left; eapply A; eauto|right; eauto].
Qed.

Lemma nodup_app {A} (l1 l2 : list A) : NoDup l1 -> NoDup l2 -> (forall x, In x l1 -> In x l2 -> False) -> NoDup (l1 ++ l2).
Proof.
  induction 1 as [|a l1 N D IH]; intros D2 F; simpl; auto. constructor.
  - intros I. apply in_app_iff in I. destruct I as [I|I]; [auto|]. apply (F a); [now left|auto].
  - apply IH; auto. intros x I1 I2. apply (F x); [now right|auto].
Qed.

Lemma delivers_nodup st t : tree_inv st ->
  (forall a l, delivers st t a l -> NoDup l) /\
  (forall ks l, delivers_all st t ks l -> NoDup ks -> (exists p, forall k, In k ks -> kid st p k) -> NoDup l).
Proof.
  intros TI. assert (forall P Q : Prop, P -> (P -> Q) -> P /\ Q) as PQ by tauto.
  assert (forall k ks l1 l2, delivers st t k l1 -> NoDup l1 -> delivers_all st t ks l2 -> (NoDup ks -> (exists p, forall k, In k ks -> kid st p k) -> NoDup l2) ->
            NoDup (k :: ks) -> (exists p, forall k', In k' (k :: ks) -> kid st p k') -> NoDup (l1 ++ l2)) as C.
  { intros k ks l1 l2 D1 N1 D2 I2 N (p & F). inversion N; subst. apply nodup_app; auto.
    - apply I2; auto. exists p. intros; apply F; now right.
    - intros [b s] i1 i2. destruct (proj1 (delivers_sound st t) _ _ D1 _ _ i1 TI) as (B1 & _).
      destruct (proj2 (delivers_sound st t) _ _ D2 _ _ i2 TI) as (k' & Ik & (B2 & _)).
      assert (k <> k') as Ne by (intros ->; auto).
      eapply (siblings st p k k' b TI); eauto; apply F; simpl; auto. }
  apply PQ.
  - apply (delivers_mind st t (fun a l => NoDup l)
             (fun ks l => NoDup ks -> (exists p, forall k, In k ks -> kid st p k) -> NoDup l)); [constructor| |constructor|].
    + intros a x own bel G R T D ID. apply nodup_app.
      * apply FinFun.Injective_map_NoDup; [intros u v E; congruence|]. eapply takers_nodup; eauto. eapply (t_subnd _ TI); eauto.
      * apply ID; [apply (t_sorted _ TI _ _ G)|]. exists a. intros k I. exists x. auto.
      * intros [b s] i1 i2. apply in_map_iff in i1. destruct i1 as (s0 & E & _). injection E as <- <-.
        destruct (proj2 (delivers_sound st t) _ _ D _ _ i2 TI) as (k' & Ik & (B2 & _)).
        assert (kid st a k') as K by (exists x; auto). apply (t_lt _ TI) in K. apply (below_le _ _ _ TI) in B2. lia.
    + intros. eapply C; eauto.
  - intros A ks l D. induction D; [constructor|]. intros. eapply C; eauto.
Qed.

(** ** The end of a distribution *)

Lemma app_split {A} (l1 l2 a c : list A) e : l1 ++ l2 = a ++ e :: c ->
  (exists d, l1 = a ++ e :: d /\ c = d ++ l2) \/ (exists d, a = l1 ++ d /\ l2 = d ++ e :: c).
Proof.
  revert a. induction l1 as [|x l1 IH]; intros a E; simpl in *.
  - right. exists a. auto.
  - destruct a as [|y a]; simpl in E.
    + injection E as -> <-. left. exists l1. auto.
    + injection E as -> E. destruct (IH _ E) as [(d & -> & ->)|(d & -> & ->)]; [left|right]; exists d; auto.
Qed.

(** From the beginning of the distribution of [m] to its end nothing else ends. *)
Lemma first_end ls : forall st st' tr r x m stk c rest pre post,
  exec ls st = Some (st', tr) -> get_bus st r = Some x -> b_runner x = RDist m stk c rest ->
  tr = pre ++ EvEnd r m :: post -> ~ In m (settled r pre) ->
  completed r pre = [] /\ forall e, ~ In (EvStop r (Some e)) pre.
Proof.
  induction ls as [|l ls IH]; intros st st' tr r x m stk c rest pre post H G R E N.
  - simpl in H. injection H as <- <-. destruct pre; discriminate.
  - apply exec_cons_inv in H. destruct H as (st1 & e1 & e2 & H1 & H2 & Et). rewrite Et in E.
    destruct (runner_label_dec l r) as [RL|RL].
    + destruct (run_inv' _ _ _ _ _ H1 RL) as (x0 & rn & act & G0 & RC & Es). rewrite G in G0. injection G0 as <-. rewrite R in RC.
      assert (exists x1, get_bus st1 r = Some x1 /\ b_runner x1 = rn) as (x1 & G1 & R1).
      { rewrite Es, run_view, G. simpl. eexists. split; [reflexivity|]. simpl. now rewrite Nat.eqb_refl. }
      assert ((exists stk' c', rn = RDist m stk' c' rest /\ completed r e1 = [] /\ (forall e, ~ In (EvStop r (Some e)) e1) /\ ~ In (EvEnd r m) e1) \/
              e1 = [EvEnd r m] \/ (In m (settled r e1) /\ ~ In (EvEnd r m) e1)) as [(stk' & c' & -> & C1 & S1 & E1)|[-> |(L & E1)]].
      { inversion RC; subst; auto;
          try (left; do 2 eexists; split; [reflexivity|]; split; [reflexivity|]; split; [intros e F; simpl in F|intros F; simpl in F]; intuition congruence).
        - right; right. split.
          + simpl. rewrite settled_lost. simpl. rewrite Nat.eqb_refl. now left.
          + intros F. simpl in F. destruct F as [F|[F|F]]; try discriminate. apply in_app_iff in F. destruct F as [F|[F|[]]]; [|discriminate]. apply in_map_iff in F. destruct F as (? & F & _). discriminate.
        - right; right. split.
          + rewrite settled_lost. now left.
          + intros F. simpl in F. destruct F as [F|F]; try discriminate. apply in_app_iff in F. destruct F as [F|[F|[]]]; [|discriminate]. apply in_map_iff in F. destruct F as (? & F & _). discriminate. }
      * destruct (app_split _ _ _ _ _ E) as [(d & Ed & _)|(d & -> & Ed)].
        -- exfalso. apply E1. rewrite Ed. apply in_app_iff. right. now left.
        -- destruct (IH _ _ _ _ _ _ _ _ _ d post H2 G1 R1 Ed) as (A & B); [intros I; apply N; rewrite settled_app; apply in_app_iff; auto|].
           split; [rewrite completed_app, C1; auto|]. intros e I. apply in_app_iff in I. destruct I as [I|I]; [eapply S1|eapply B]; eauto.
      * destruct pre as [|p0 pre]; [split; auto|]. simpl in E. injection E as <- _. exfalso. apply N. simpl. rewrite Nat.eqb_refl. now left.
      * destruct (app_split _ _ _ _ _ E) as [(d & Ed & _)|(d & -> & Ed)].
        -- exfalso. apply E1. rewrite Ed. apply in_app_iff. right. now left.
        -- exfalso. apply N. rewrite settled_app. apply in_app_iff. auto.
    + destruct (runner_stays _ _ _ _ _ _ H1 RL G) as (x1 & G1 & R1); [rewrite R; discriminate|]. rewrite R in R1.
      destruct (proj_other _ _ _ _ _ H1 RL) as (_ & _ & _ & _ & Cr & _ & Co).
      assert (~ In (EvEnd r m) e1) as E1. { intros I. pose proof (other_events _ _ _ _ _ _ H1 RL I) as F. simpl in F. rewrite Nat.eqb_refl in F. discriminate. }
      destruct (app_split _ _ _ _ _ E) as [(d & Ed & _)|(d & -> & Ed)].
      * exfalso. apply E1. rewrite Ed. apply in_app_iff. right. now left.
      * destruct (IH _ _ _ _ _ _ _ _ _ d post H2 G1 R1 Ed) as (A & B); [intros I; apply N; rewrite settled_app; apply in_app_iff; auto|].
        split; [rewrite completed_app, Co; auto|]. intros e I. apply in_app_iff in I. destruct I as [I|I]; [|eapply B; eauto].
        pose proof (other_events _ _ _ _ _ _ H1 RL I) as F. simpl in F. rewrite Nat.eqb_refl in F. discriminate.
Qed.

(** ** Subscribers are listed in the order of their creation *)

Lemma filter_sorted f l : StronglySorted lt l -> StronglySorted lt (filter f l).
Proof.
  induction 1 as [|a l S IH F]; simpl; [constructor|]. destruct (f a); auto. constructor; auto.
  rewrite Forall_forall in *. intros x I. apply filter_In in I. apply F. tauto.
Qed.

Lemma reach_subs_sorted st : reach st -> forall b x, get_bus st b = Some x -> StronglySorted lt (b_subs x).
Proof.
  intros Rc. induction Rc as [|l st st' evs Rc IH H] using reach_ind; intros b x G.
  - destruct b; discriminate.
  - destruct (get_bus st b) as [x0|] eqn:G0.
    + destruct (step_delta _ _ _ _ _ _ H G0) as (x' & G' & D). rewrite G in G'. injection G' as <-.
      destruct (d_subs _ _ _ _ _ _ D) as [E|[(_ & _ & E & _)|(s & _ & _ & E)]]; rewrite E; eauto using filter_sorted.
      apply sorted_snoc; eauto. intros y I. eapply (t_sublt _ (reach_tree _ Rc)); eauto.
    + destruct (step_new _ _ _ _ _ _ H G0 G) as (_ & _ & [(n & _ & _ & ->)|[(n & g & _ & _ & ->)|(b' & xb & n & t & _ & _ & _ & _ & _ & ->)]]); constructor.
Qed.

(** ** Buses on the path were running *)

Lemma ran_with_app r m c ls ls' : ran_with r m c ls -> ran_with r m c (ls ++ ls').
Proof.
  intros (ls1 & ls2 & st1 & tr1 & x1 & xc & -> & R). exists ls1, (ls2 ++ ls'), st1, tr1, x1, xc. rewrite app_assoc. auto.
Qed.

Lemma ran_now r m c ls st tr x xc : exec ls init = Some (st, tr) -> get_bus st r = Some x -> In m (current x ++ batch x) ->
  get_bus st c = Some xc -> b_run xc = true -> ran_with r m c ls.
Proof. intros. exists ls, [], st, tr, x, xc. rewrite app_nil_r. auto 8. Qed.

Lemma path_ran r ls st tr : exec ls init = Some (st, tr) ->
  forall x m stk c rest f, get_bus st r = Some x -> b_runner x = RDist m stk c rest -> In f stk -> ran_with r m (frame_bus f) ls.
Proof.
  revert ls st tr. apply (exec_trace_ind init (fun st ls tr => forall x m stk c rest f, get_bus st r = Some x -> b_runner x = RDist m stk c rest -> In f stk -> ran_with r m (frame_bus f) ls)).
  - intros x m stk c rest f G. destruct r; discriminate.
  - intros ls l st st' tr evs X IH H x m stk c rest f G R I.
    destruct (runner_label_dec l r) as [RL|RL].
    + destruct (run_inv' _ _ _ _ _ H RL) as (x0 & rn & act & G0 & RC & Es).
      rewrite Es, run_view, G0 in G. simpl in G. injection G as <-. simpl in R. rewrite Nat.eqb_refl in R. subst rn.
      inversion RC; subst; match goal with E : _ = b_runner x0 |- _ => rename E into R0; symmetry in R0 end; simpl in I; try match goal with J : _ \/ _ |- _ => destruct J as [<-|I'] end; try contradiction; simpl;
        try (apply ran_with_app; eapply (IH _ _ _ _ _ _ G0 R0); simpl; eauto; fail).
      * apply ran_with_app. eapply (ran_now _ _ _ _ _ _ _ _ X G0); eauto. unfold current, batch. rewrite R0. now left.
      * apply ran_with_app. eapply (IH _ _ _ _ _ (FSubs b []) G0 R0). now left.
      * apply ran_with_app. eapply (IH _ _ _ _ _ (FSubs b (s :: ss)) G0 R0). now left.
      * apply ran_with_app. eapply (IH _ _ _ _ _ (FSubs b (s :: ss)) G0 R0). now left.
      * apply ran_with_app. eapply (IH _ _ _ _ _ (FSubs b (s :: ss)) G0 R0). now left.
      * apply ran_with_app. eapply (IH _ _ _ _ _ (FLock b) G0 R0). now left.
      * apply ran_with_app. eapply (ran_now _ _ _ _ _ _ _ _ X G0); eauto. unfold current, batch. rewrite R0. now left.
      * destruct I' as [<-|I']; apply ran_with_app; [eapply (IH _ _ _ _ _ (FKids b (k :: ks)) G0 R0); now left|eapply (IH _ _ _ _ _ _ G0 R0); now right].
      * apply ran_with_app. eapply (IH _ _ _ _ _ (FKids b (k :: ks)) G0 R0). now left.
    + destruct (get_bus st r) as [x0|] eqn:G0.
      * destruct (step_delta _ _ _ _ _ _ H G0) as (x' & G' & D). rewrite G in G'. injection G' as <-.
        destruct (d_runner _ _ _ _ _ _ D) as [E|[E|(_ & _ & _ & E)]]; [|contradiction|congruence].
        apply ran_with_app. rewrite E in R. exact (IH x0 _ _ _ _ _ eq_refl R I).
      * destruct (step_new _ _ _ _ _ _ H G0 G) as (_ & _ & [(n & _ & _ & ->)|[(n & g & _ & _ & ->)|(b' & xb & n & t & _ & _ & _ & _ & _ & ->)]]); discriminate.
Qed.

(** ** Sublists *)

Lemma sublist_sorted (l2 : list pubn) : forall l1, StronglySorted lt (map fst l1) -> StronglySorted lt (map fst l2) -> incl l1 l2 -> sublist l1 l2.
Proof.
  induction l2 as [|b l2 IH]; intros l1 S1 S2 I.
  - destruct l1 as [|a l1]; [constructor|]. destruct (I a (or_introl eq_refl)).
  - simpl in S2. inversion S2 as [|? ? S2' F2]; subst. destruct l1 as [|a l1]; [apply sl_skip; apply IH; auto; intros x []|].
    simpl in S1. inversion S1 as [|? ? S1' F1]; subst. rewrite Forall_forall in F1, F2.
    destruct (I a (or_introl eq_refl)) as [->|Ia].
    + constructor. apply IH; auto. intros x Ix. destruct (I x (or_intror Ix)) as [->|J]; auto.
      specialize (F1 _ (in_map fst _ _ Ix)). lia.
    + apply sl_skip. apply IH; auto. intros x [<-|Ix]; auto. destruct (I x (or_intror Ix)) as [->|J]; auto.
      specialize (F1 _ (in_map fst _ _ Ix)). specialize (F2 _ (in_map fst _ _ Ia)). lia.
Qed.

(** ** A root bus that is not stopped keeps running *)

Lemma run_kept_step l st st' evs r x x' :
  reach st -> step l st = Some (st', evs) -> get_bus st r = Some x -> get_bus st' r = Some x' -> l <> LStop r ->
  (b_runner x <> RIdle -> b_run x = true) -> b_runner x' <> RIdle -> b_run x' = true.
Proof.
  intros Rc H G G' N K NI.
  assert (reach st') as Rc' by (eapply reach_step; eauto).
  destruct (step_delta _ _ _ _ _ _ H G) as (x1 & G1 & D). rewrite G' in G1. injection G1 as <-.
  assert (b_runner x <> RIdle \/ (l = LStart r /\ b_runner x' = RWait)) as [A|(-> & _)].
  { destruct (d_runner _ _ _ _ _ _ D) as [E|[E|(E & _ & _ & W)]]; [left; congruence| |auto].
    left. destruct (run_inv' _ _ _ _ _ H E) as (x0 & rn & act & G0 & RC & Es). rewrite G in G0. injection G0 as <-.
    intros B. rewrite B in RC. inversion RC. }
  - destruct (d_run _ _ _ _ _ _ D) as [E|[(_ & E)|[(E & _)|(i & b & ks & stk & _ & E & _)]]]; [rewrite E; auto|auto|contradiction|].
    exfalso. pose proof (k_dstack _ (reach_lock _ Rc) _ _ E) as DS.
    destruct (dstack_frame _ _ _ DS (or_introl eq_refl)) as (y & pre & Gy & _ & Ek).
    assert (kid st b r) as Kd. { exists y. split; auto. rewrite Ek. apply in_app_iff. right. now left. }
    pose proof (root_no_parent _ _ _ _ (reach_tree _ Rc) Kd G). pose proof (t_runner _ (reach_tree _ Rc) _ _ G A). congruence.
  - destruct (d_run _ _ _ _ _ _ D) as [E|[(_ & E)|[(E & _)|(i & b & ks & stk & E & _)]]]; auto; try discriminate.
    simpl in H. rewrite G in H. assert (b_root x' = true) as Rt by (eapply (t_runner _ (reach_tree _ Rc')); eauto).
    rewrite (d_root _ _ _ _ _ _ D) in Rt. rewrite Rt in H. destruct (b_runner x); try discriminate.
    injection H as <- <-. rewrite get_set, Nat.eqb_refl, G in G'. injection G' as <-. reflexivity.
Qed.

Lemma run_kept r : forall ls st tr, exec ls init = Some (st, tr) -> ~ In (LStop r) ls ->
  (forall x, get_bus st r = Some x -> b_runner x <> RIdle -> b_run x = true) /\
  (crashes r tr = [] -> discarded r tr = []).
Proof.
  apply (exec_trace_ind init (fun st ls tr => ~ In (LStop r) ls -> (forall x, get_bus st r = Some x -> b_runner x <> RIdle -> b_run x = true) /\ (crashes r tr = [] -> discarded r tr = []))).
  - intros _. split; auto. intros x G. destruct r; discriminate.
  - intros ls l st st' tr evs X IH H N.
    destruct IH as [IH1 IH2]; [intros I; apply N; apply in_app_iff; auto|].
    assert (l <> LStop r) as Nl by (intros ->; apply N; apply in_app_iff; right; now left).
    assert (reach st) as Rc by (exists ls, tr; auto).
    split.
    + intros x G NI. destruct (get_bus st r) as [x0|] eqn:G0.
      * eapply run_kept_step; eauto.
      * destruct (step_new _ _ _ _ _ _ H G0 G) as (_ & _ & [(n & _ & _ & ->)|[(n & g & _ & _ & ->)|(b' & xb & n & t & _ & _ & _ & _ & _ & ->)]]); simpl in NI; congruence.
    + rewrite crashes_app, discarded_app. intros C. apply app_eq_nil in C. destruct C as [C1 C2]. rewrite IH2; auto. simpl.
      destruct (runner_label_dec l r) as [RL|RL]; [|apply (proj_other _ _ _ _ _ H RL)].
      destruct (run_inv' _ _ _ _ _ H RL) as (x0 & rn & act & G0 & RC & Es).
      inversion RC; subst; auto.
      * exfalso. match goal with E : _ = b_runner x0 |- _ => rename E into R0 end. rewrite (IH1 _ G0) in *; [discriminate|]. rewrite <- R0. discriminate.
      * exfalso. simpl in C2. rewrite crashes_app in C2. apply app_eq_nil in C2. destruct C2 as [_ C2]. simpl in C2. rewrite Nat.eqb_refl in C2. discriminate.
      * exfalso. simpl in C2. rewrite crashes_app in C2. apply app_eq_nil in C2. destruct C2 as [_ C2]. simpl in C2. rewrite Nat.eqb_refl in C2. discriminate.
Qed.

Lemma settled_completed r tr : discarded r tr = [] -> settled r tr = completed r tr.
Proof.
  induction tr as [|e tr IH]; intros D; auto. destruct e; simpl in *; auto;
    destruct (Nat.eqb_spec root r); simpl in *; rewrite ?IH; auto; discriminate.
Qed.

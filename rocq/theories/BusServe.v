(** A subscriber that stays registered under running buses meets every message; what a
    delivery says about registration; settled messages and deleted subscribers are not met again. *)
From Coq Require Import String Ascii List Arith ZArith Bool Lia Sorted.
From Verif Require Import Prelude OMap DatagramModel DatagramSpec BusModel BusSpec BusProofs BusTree BusLocks BusLocks2 BusLocks3 BusDist BusAccount BusOnce.
Import ListNotations.
Open Scope list_scope.

Lemma below_first st a b : below st a b -> a = b \/ exists k, kid st a k /\ below st k b.
Proof.
  induction 1 as [|b c B IH K]; auto. right. destruct IH as [->|(k & Kk & Bk)].
  - exists c. split; auto. constructor.
  - exists k. split; auto. econstructor 2; eauto.
Qed.

Definition takes (st : state) (s : nat) (m : pubn) : Prop :=
  exists y, nth_error (s_subs st) s = Some y /\ accepts (s_topic y) (bm_topic (snd m)).

Lemma takes_step l st st' evs s m : step l st = Some (st', evs) -> takes st s m -> takes st' s m.
Proof.
  intros H (y & N & A). destruct (step_sub _ _ _ _ _ _ H N) as (y' & N' & E & _). exists y'. split; auto. now rewrite E.
Qed.

Lemma ahead_or st r x l m stk c rest rn act evs b s :
  tree_inv st -> stack_ok st r stk -> serving r b s st -> takes st s m ->
  rcase st r x l (RDist m stk c rest) rn act evs -> ahead st stk b s ->
  (exists stk' c', rn = RDist m stk' c' rest /\ (ahead st stk' b s \/ In (EvReceive r b s m) evs)) \/ rn = RIdle.
Proof.
  intros T Sk ((xb & Gb & Is) & Br & Run) (yt & Nt & At) R (f & I & A). inversion R; subst; simpl in I; auto; try contradiction; left; do 2 eexists; (split; [reflexivity|]).
  - left. destruct I as [<-|I]; [|exists f; split; auto; now right].
    exists (FLock b0). split; [now left|]. destruct A as [[_ []]|A]; exact A.
  - left. destruct I as [<-|I]; [|exists f; split; auto; now right].
    exists (FSubs b0 ss). split; [now left|]. destruct A as [[-> [->|J]]|A]; [|left; auto|right; auto].
    exfalso. apply ant_accepts in At. assert (y = yt) by congruence. subst. congruence.
  - destruct I as [<-|I]; [|left; exists f; split; auto; now right].
    destruct A as [[Eb [Es|J]]|A]; [right; subst; now left| |]; left; exists (FSubs b0 ss); (split; [now left|]).
    { left; auto. } { right; auto. }
  - destruct I as [<-|I]; [|left; exists f; split; auto; now right].
    destruct A as [[Eb [Es|J]]|A]; [right; subst; now left| |]; left; exists (FSubs b0 ss); (split; [now left|]).
    { left; auto. } { right; auto. }
  - left. destruct I as [<-|I]; [|exists f; split; auto; now right].
    exists (FKids b0 (map snd (b_kids y))). split; [now left|]. destruct A as [N B].
    destruct (below_first _ _ _ B) as [E|(k & (y' & Gy & Ik) & Bk)]; [congruence|].
    exists k. split; auto. congruence.
  - left. destruct I as [<-|I]; [destruct A as (k & [] & _)|]. exists f; auto.
  - left. destruct I as [<-|I]; [|exists f; split; auto; right; now right].
    destruct A as (k' & [<-|Ik] & B).
    + exists (FSubs k (b_subs y)). split; [now left|]. destruct (Nat.eq_dec k b) as [->|N].
      * left. split; auto. congruence.
      * right; auto.
    + exists (FKids b0 ks). split; [right; now left|]. exists k'; auto.
  - left. destruct I as [<-|I]; [|exists f; split; auto; now right].
    exists (FKids b0 ks). split; [now left|]. destruct A as (k' & [<-|Ik] & B); [|exists k'; auto].
    pose proof (Run _ _ B ltac:(eassumption)). congruence.
  - left. exists f; auto.
Qed.

Definition due (r b s : nat) (st : state) (tr : list event) : Prop :=
  (forall m, In (EvEnd r m) tr -> takes st s m -> In (EvReceive r b s m) tr) /\
  (forall x m stk c rest, get_bus st r = Some x -> b_runner x = RDist m stk c rest -> takes st s m ->
     ahead st stk b s \/ In (EvReceive r b s m) tr).

Lemma takes_back l st st' evs s m : step l st = Some (st', evs) -> s < length (s_subs st) -> takes st' s m -> takes st s m.
Proof.
  intros H L (y & N & A). destruct (nth_error (s_subs st) s) as [y0|] eqn:N0; [|apply nth_error_None in N0; lia].
  destruct (step_sub _ _ _ _ _ _ H N0) as (y' & N' & E & _). exists y0. split; auto. rewrite <- E. congruence.
Qed.

Lemma due_step l st st' evs tr r b s :
  tree_inv st -> lock_inv st -> serving r b s st -> due r b s st tr -> step l st = Some (st', evs) -> due r b s st' (tr ++ evs).
Proof.
  intros T K Sv [D1 D2] H.
  assert (s < length (s_subs st)) as Ls. { destruct Sv as ((xb & Gb & Is) & _). eapply (t_sublt _ T); eauto. }
  destruct (runner_label_dec l r) as [RL|RL].
  - destruct (run_inv' _ _ _ _ _ H RL) as (x & rn & act & G & RC & E).
    assert (forall x', get_bus st' r = Some x' -> b_runner x' = rn) as Er.
    { intros x' G'. rewrite E, run_view, G in G'. injection G' as <-. simpl. now rewrite Nat.eqb_refl. }
    pose proof (k_stack _ K _ _ G) as Sk.
    split.
    + intros m I Tk. apply (takes_back _ _ _ _ _ _ H Ls) in Tk. apply in_app_iff. apply in_app_iff in I. destruct I as [I|I]; auto.
      inversion RC; subst l rn act evs; simpl in I;
        repeat match goal with H : _ \/ _ |- _ => destruct H as [I|I]; try discriminate I; try contradiction end; try contradiction.
      * injection I as ->. match goal with E : RDist _ _ _ _ = b_runner x |- _ => symmetry in E; destruct (D2 _ _ _ _ _ G E Tk) as [(f & [] & _)|J] end. auto.
      * exfalso. apply in_app_iff in I. destruct I as [I|[I|[]]]; [|discriminate]. apply in_map_iff in I. destruct I as (? & ? & _). discriminate.
      * exfalso. apply in_app_iff in I. destruct I as [I|[I|[]]]; [|discriminate]. apply in_map_iff in I. destruct I as (? & ? & _). discriminate.
    + intros x' m stk c rest G' R' Tk. apply (takes_back _ _ _ _ _ _ H Ls) in Tk.
      rewrite (Er _ G') in R'. destruct (b_runner x) as [| | |ms|m0 stk0 c0 rest0] eqn:R.
      * inversion RC.
      * inversion RC; subst; discriminate.
      * inversion RC; subst; discriminate.
      * left. assert (m = m /\ stk = [FSubs r (b_subs x)]) as [_ ->] by (inversion RC; subst; try discriminate; split; congruence).
        apply (ahead_mono _ _ _ _ _ _ _ H). exists (FSubs r (b_subs x)). split; [now left|].
        destruct Sv as ((xb & Gb & Is) & Br & _). destruct (Nat.eq_dec r b) as [->|N]; [left|right; auto].
        split; auto. congruence.
      * assert (m0 = m) as -> by (inversion RC; subst; congruence).
        destruct (D2 _ _ _ _ _ G R Tk) as [Ah|J]; [|right; apply in_app_iff; auto].
        simpl in Sk. destruct (ahead_or _ _ _ _ _ _ _ _ _ _ _ _ _ T Sk Sv Tk RC Ah) as [(stk' & c' & E' & [A'|J])|E']; [| |congruence].
        -- left. apply (ahead_mono _ _ _ _ _ _ _ H). congruence.
        -- right. apply in_app_iff; auto.
  - split.
    + intros m I Tk. apply (takes_back _ _ _ _ _ _ H Ls) in Tk. apply in_app_iff. apply in_app_iff in I. destruct I as [I|I]; auto.
      pose proof (other_events _ _ _ _ _ _ H RL I) as O. simpl in O. rewrite Nat.eqb_refl in O. discriminate.
    + intros x' m stk c rest G' R' Tk. apply (takes_back _ _ _ _ _ _ H Ls) in Tk.
      destruct (runner_back _ _ _ _ _ _ _ _ _ _ H RL G' R') as (x & G & R).
      destruct (D2 _ _ _ _ _ G R Tk) as [Ah|J]; [left; eapply ahead_mono; eauto|right; apply in_app_iff; auto].
Qed.

Lemma due_exec ls : forall st st' tr0 tr r b s,
  reach st -> always (serving r b s) ls st -> due r b s st tr0 -> exec ls st = Some (st', tr) -> due r b s st' (tr0 ++ tr).
Proof.
  induction ls as [|l ls IH]; intros st st' tr0 tr r b s Rc Al D H; simpl in H.
  - injection H as <- <-. now rewrite app_nil_r.
  - destruct (step l st) as [[st1 e1]|] eqn:E; [|discriminate]. destruct (exec ls st1) as [[st2 e2]|] eqn:E2; [|discriminate].
    injection H as <- <-. simpl in Al. rewrite E in Al. destruct Al as [Sv Al]. rewrite app_assoc.
    apply (IH st1); eauto using reach_step. eapply due_step; eauto using reach_tree, reach_lock.
Qed.

(** ** Registration at the time of a delivery *)

Lemma receive_registered l st st' evs r b s m :
  tree_inv st -> lock_inv st -> step l st = Some (st', evs) -> In (EvReceive r b s m) evs ->
  takes st s m /\ (exists xb, get_bus st b = Some xb /\ In s (b_subs xb)) /\ below st r b /\ (exists x, get_bus st r = Some x /\ b_root x = true).
Proof.
  intros T K H I. destruct (receive_inv _ _ _ _ _ _ _ _ H I) as (x & ss & stk & rest & y & _ & G & R & N & A & _).
  destruct (top_sub_registered _ _ _ _ _ _ _ _ _ _ T K G R) as (xb & Gb & Ib & _).
  pose proof (k_stack _ K _ _ G) as Sk. rewrite R in Sk. simpl in Sk.
  repeat split.
  - exists y; auto.
  - exists xb; auto.
  - apply (stack_below _ _ _ _ Sk (or_introl eq_refl)).
  - exists x. split; auto. eapply (t_runner _ T); eauto. rewrite R. discriminate.
Qed.

(** ** Deleted subscribers *)

Definition gone (s : nat) (st : state) : Prop :=
  s < length (s_subs st) /\ forall b x, get_bus st b = Some x -> ~ In s (b_subs x).

Lemma gone_step l st st' evs s : gone s st -> step l st = Some (st', evs) -> gone s st'.
Proof.
  intros [L N] H. split.
  - destruct (step_len _ _ _ _ H) as (_ & Len & _). lia.
  - intros b x' G' I. destruct (step_subs_inv _ _ _ _ _ _ _ H G' I) as [(x & G & I' & _)|(x & _ & _ & _ & -> & _)]; [|lia].
    apply (N _ _ G I').
Qed.

Lemma gone_receive l st st' evs s : tree_inv st -> lock_inv st -> gone s st -> step l st = Some (st', evs) ->
  forall r b m, ~ In (EvReceive r b s m) evs.
Proof.
  intros T K [L N] H r b m I. destruct (receive_registered _ _ _ _ _ _ _ _ T K H I) as (_ & (xb & Gb & Ib) & _). apply (N _ _ Gb Ib).
Qed.

Lemma gone_exec ls : forall st st' tr s, reach st -> gone s st -> exec ls st = Some (st', tr) ->
  gone s st' /\ forall r b m, ~ In (EvReceive r b s m) tr.
Proof.
  induction ls as [|l ls IH]; intros st st' tr s Rc G H; simpl in H.
  - injection H as <- <-. split; auto.
  - destruct (step l st) as [[st1 e1]|] eqn:E; [|discriminate]. destruct (exec ls st1) as [[st2 e2]|] eqn:E2; [|discriminate].
    injection H as <- <-. destruct (IH _ _ _ s (reach_step _ _ _ _ Rc E) (gone_step _ _ _ _ _ G E) E2) as [G2 N2]. split; auto.
    intros r b m I. apply in_app_iff in I. destruct I as [I|I]; [|eapply N2; eauto].
    eapply gone_receive; eauto using reach_tree, reach_lock.
Qed.

(** ** Settled messages *)

Lemma settled_gone ls0 st0 tr0 ls st tr r m :
  exec ls0 init = Some (st0, tr0) -> exec ls st0 = Some (st, tr) -> In m (settled r tr0) ->
  forall b s, ~ In (EvReceive r b s m) tr.
Proof.
  intros H0 H Im b s I.
  assert (In m (inbox r s tr)) as J by (apply in_inbox; eauto). clear I b.
  revert ls st tr H J.
  assert (forall ls st tr, exec ls st0 = Some (st, tr) -> ~ In m (inbox r s tr)) as Q; [|intros ls st tr H J; apply (Q _ _ _ H J)].
  apply (exec_trace_ind st0 (fun st _ tr => ~ In m (inbox r s tr))); [intros []|].
  intros ls l st st' tr evs X IH H J. rewrite inbox_app in J. apply in_app_iff in J. destruct J as [J|J]; auto.
  apply in_inbox in J. destruct J as (b & J). destruct (receive_inv _ _ _ _ _ _ _ _ H J) as (x & ss & stk & rest & y & _ & G & R & _).
  assert (exec (ls0 ++ ls) init = Some (st, tr0 ++ tr)) as Y by (rewrite exec_app, H0, X; reflexivity).
  assert (fst m < fst m); [|lia].
  apply (account_lt _ _ _ _ _ _ (account_all r _ _ _ Y) G).
  - rewrite settled_app. apply in_app_iff; auto.
  - apply in_app_iff. left. unfold current. rewrite R. now left.
Qed.

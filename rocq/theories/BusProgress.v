(** Locks: what blocks and what does not. *)
From Coq Require Import String Ascii List Arith ZArith Bool Lia Sorted.
From Verif Require Import Prelude OMap DatagramModel DatagramSpec BusModel BusSpec BusProofs BusTree BusLocks BusLocks2 BusLocks3 BusDist BusAccount BusOnce BusServe BusFlight BusDetach.
Import ListNotations.
Open Scope list_scope.

(** ** The bus thread *)

Lemma kid_get st p k : tree_inv st -> kid st p k -> exists y, get_bus st k = Some y.
Proof.
  intros T K. apply (t_lt _ T) in K. unfold get_bus. destruct (nth_error (s_buses st) k) eqn:E; eauto. apply nth_error_None in E. lia.
Qed.

(** The bus thread can only be held up by a thread inside Detach. *)
Lemma run_enabled st r x :
  tree_inv st -> lock_inv st -> get_bus st r = Some x -> b_runner x <> RIdle -> call_of (b_runner x) = None ->
  enabled (LRun r) st \/
  (exists m b stk rest i todo, b_runner x = RDist m (FLock b :: stk) None rest /\ in_dstack st i (DKids b todo)).
Proof.
  intros T K G NI NC. assert (b_root x = true) as Rx by (eapply (t_runner _ T); eauto).
  pose proof (k_stack _ K _ _ G) as S. unfold enabled. simpl. unfold run_step. rewrite G.
  destruct (b_runner x) as [| | |ms|m stk c rest] eqn:R.
  - congruence.
  - left. destruct (b_run x); eauto.
  - left. eauto.
  - left. destruct ms as [|m ms]; eauto. destruct (b_run x); eauto. destruct (b_slock x) eqn:L; eauto.
    exfalso. destruct (k_s _ K _ _ G L) as (r' & todo & (x' & G' & I)).
    assert (below st r' r) as B by (apply (stack_below _ _ _ _ (k_stack _ K _ _ G') I)).
    rewrite (below_root _ _ _ _ T B G Rx) in G'. rewrite G in G'. injection G' as <-. rewrite R in I. contradiction.
  - simpl in NC. subst c. simpl in S. destruct stk as [|[b [|s ss]|b|b [|k ks]] stk]; eauto.
    + left. destruct (stack_frame _ _ _ _ S (or_introl eq_refl)) as (xb & pre & Gb & _ & E).
      assert (s < length (s_subs st)) as L. { eapply (t_sublt _ T); eauto. rewrite E. apply in_app_iff. right. now left. }
      destruct (nth_error (s_subs st) s) as [y|] eqn:N; [|apply nth_error_None in N; lia].
      destruct (ant_matches _ _); eauto. destruct (receive _ _ _); eauto. unfold abort. eauto.
    + destruct (stack_frame _ _ _ _ S (or_introl eq_refl)) as (xb & Gb). rewrite Gb.
      destruct (b_klock xb) eqn:L; [|left; eauto]. right.
      destruct (k_k _ K _ _ Gb L) as [(r' & todo & I)|(i & todo & I)].
      * exfalso. assert (in_stack st r (FLock b)) as I0 by (exists x; rewrite R; split; auto; now left).
        assert (r' = r) as -> by (eapply (in_stack_unique _ _ _ _ _ T K I I0); reflexivity).
        destruct I as (x' & G' & I). rewrite G in G'. injection G' as <-. rewrite R in I. destruct I as [I|I]; [discriminate|].
        destruct (stack_above _ _ _ _ _ T S I) as [_ Lt]. simpl in Lt. lia.
      * exists m, b, stk, rest, i, todo. auto.
    + left. destruct (stack_frame _ _ _ _ S (or_introl eq_refl)) as (xb & pre & Gb & _ & E).
      assert (kid st b k) as Kk. { exists xb. split; auto. rewrite E. apply in_app_iff. right. now left. }
      destruct (kid_get _ _ _ T Kk) as (y & Gy). rewrite Gy. destruct (b_run y); eauto. destruct (b_slock y) eqn:L; eauto.
      exfalso. destruct (k_s _ K _ _ Gy L) as (r' & todo & I).
      destruct (in_stack_root _ _ _ T I) as (x' & G' & Rx'). destruct I as (x1 & G1 & I). rewrite G' in G1. injection G1 as <-.
      assert (below st r' k) as B' by (apply (stack_below _ _ _ _ (k_stack _ K _ _ G') I)).
      assert (below st r k) as B. { econstructor 2; [apply (stack_below _ _ _ _ S (or_introl eq_refl))|exact Kk]. }
      assert (r' = r) as -> by (eapply roots_equal; eauto).
      rewrite G in G'. injection G' as <-. rewrite R in I. destruct I as [I|I]; [discriminate|].
      destruct (tail_kids _ _ _ _ _ S I) as (? & ? & ?). discriminate.
Qed.

(** ** Threads inside Detach *)

Inductive dcost (st : state) : nat -> nat -> Prop :=
| dcost_bus b x n : get_bus st b = Some x -> dcosts st (map snd (b_kids x)) n -> dcost st b (2 + n)
with dcosts (st : state) : list nat -> nat -> Prop :=
| dcosts_nil : dcosts st [] 0
| dcosts_cons k ks a n : dcost st k a -> dcosts st ks n -> dcosts st (k :: ks) (1 + a + n).
Scheme dcost_mind := Minimality for dcost Sort Prop with dcosts_mind := Minimality for dcosts Sort Prop.

Lemma dcost_ex st : tree_inv st -> forall n b x, length (s_buses st) - b <= n -> get_bus st b = Some x -> exists c, dcost st b c.
Proof.
  intros T n. induction n as [|n IH]; intros b x L G.
  - apply get_lt in G. lia.
  - assert (forall ks, (forall k, In k ks -> kid st b k) -> exists c, dcosts st ks c) as Q.
    { induction ks as [|k ks IHk]; intros F; [eexists; constructor|].
      assert (kid st b k) as Kk by (apply F; now left).
      destruct (kid_get _ _ _ T Kk) as (y & Gy). pose proof (t_lt _ T _ _ Kk).
      destruct (IH k y) as (a & A); [lia|auto|]. destruct IHk as (c & C); [intros; apply F; now right|].
      eexists. econstructor; eauto. }
    destruct (Q (map snd (b_kids x))) as (c & C); [intros k I; exists x; auto|]. eexists. econstructor; eauto.
Qed.

Definition same_kids (st st' : state) : Prop := forall b x, get_bus st b = Some x -> exists x', get_bus st' b = Some x' /\ b_kids x' = b_kids x.

Lemma dcost_same st st' : same_kids st st' ->
  (forall b n, dcost st b n -> dcost st' b n) /\ (forall bs n, dcosts st bs n -> dcosts st' bs n).
Proof.
  intros S. split.
  - apply (dcost_mind st (dcost st') (dcosts st')); [|constructor|intros; econstructor; eauto].
    intros b x n G _ D. destruct (S _ _ G) as (x' & G' & E). econstructor; eauto. now rewrite E.
  - apply (dcosts_mind st (dcost st') (dcosts st')); [|constructor|intros; econstructor; eauto].
    intros b x n G _ D. destruct (S _ _ G) as (x' & G' & E). econstructor; eauto. now rewrite E.
Qed.

Inductive dwork (st : state) : list dframe -> nat -> Prop :=
| dw_nil : dwork st [] 0
| dw_lock b a ds n : dcost st b a -> dwork st ds n -> dwork st (DLock b :: ds) (a + n)
| dw_kids b todo a ds n : dcosts st todo a -> dwork st ds n -> dwork st (DKids b todo :: ds) (1 + a + n).

Inductive dtotal (st : state) : list (list dframe) -> nat -> Prop :=
| dt_nil : dtotal st [] 0
| dt_cons ds dss a n : dwork st ds a -> dtotal st dss n -> dtotal st (ds :: dss) (a + n).

Lemma dwork_same st st' ds n : same_kids st st' -> dwork st ds n -> dwork st' ds n.
Proof. intros S. destruct (dcost_same _ _ S) as [A B]. induction 1; econstructor; eauto. Qed.
Lemma dtotal_same st st' dss n : same_kids st st' -> dtotal st dss n -> dtotal st' dss n.
Proof. intros S. induction 1; econstructor; eauto using dwork_same. Qed.

Lemma dcosts_ex st ks : tree_inv st -> (forall k, In k ks -> exists y, get_bus st k = Some y) -> exists c, dcosts st ks c.
Proof.
  intros T. induction ks as [|k ks IH]; intros F; [eexists; constructor|].
  destruct (F k) as (y & G); [now left|]. destruct (dcost_ex st T _ k y (le_n _) G) as (a & A).
  destruct IH as (c & C); [intros; apply F; now right|]. eexists. econstructor; eauto.
Qed.

Lemma dwork_ex st ds : tree_inv st -> dstack_ok st ds -> exists n, dwork st ds n.
Proof.
  intros T. induction ds as [|f ds IH]; intros D; [eexists; constructor|].
  destruct (IH (dstack_tail _ _ _ D)) as (n & W). pose proof (dstack_frame _ _ f D (or_introl eq_refl)) as F.
  destruct f as [b|b todo]; simpl in F.
  - destruct F as (x & G). destruct (dcost_ex st T _ b x (le_n _) G) as (a & A). eexists. econstructor; eauto.
  - destruct F as (x & pre & G & _ & E). destruct (dcosts_ex st todo T) as (a & A).
    + intros k I. apply (kid_get st b); auto. exists x. split; auto. rewrite E. apply in_app_iff. auto.
    + eexists. econstructor; eauto.
Qed.

Lemma dtotal_ex st dss : tree_inv st -> (forall ds, In ds dss -> dstack_ok st ds) -> exists n, dtotal st dss n.
Proof.
  intros T. induction dss as [|ds dss IH]; intros F; [eexists; constructor|].
  destruct IH as (n & W); [intros; apply F; now right|]. destruct (dwork_ex st ds T) as (a & A); [apply F; now left|].
  eexists. econstructor; eauto.
Qed.

Lemma dtotal_set st dss i ds ds' n :
  dtotal st dss n -> nth_error dss i = Some ds -> (forall a, dwork st ds a -> exists a', dwork st ds' a' /\ S a' = a) ->
  exists n', dtotal st (list_set i ds' dss) n' /\ S n' = n.
Proof.
  intros D. revert i. induction D as [|ds0 dss a n W D IH]; intros i N Q; [destruct i; discriminate|].
  destruct i as [|i]; simpl in *.
  - injection N as ->. destruct (Q _ W) as (a' & W' & E). exists (a' + n). split; [econstructor; eauto|lia].
  - destruct (IH _ N Q) as (n' & D' & E). exists (a + n'). split; [econstructor; eauto|lia].
Qed.

Lemma detach_cost i st st' evs n :
  step (LDetachStep i) st = Some (st', evs) -> dtotal st (s_detaches st) n -> exists n', dtotal st' (s_detaches st') n' /\ S n' = n.
Proof.
  intros H D. destruct (detach_inv _ _ _ _ H) as (ds & ds' & a & N & C & E).
  assert (same_kids st st') as SK.
  { intros b x G. rewrite E, detach_view, G. simpl. eexists. split; reflexivity. }
  destruct (detach_rest i ds' a st) as (_ & Ed & _). rewrite E, Ed, <- E.
  destruct (dtotal_set st (s_detaches st) i ds ds' n D N) as (n' & D' & En).
  - intros w W. inversion C; subst; inversion W; subst.
    + match goal with X : dcost _ _ _ |- _ => inversion X; subst end.
      match goal with G1 : get_bus st b = Some ?u, G2 : get_bus st b = Some ?v |- _ => assert (u = v) by congruence; subst end.
      eexists. split; [econstructor; eauto|lia].
    + match goal with X : dcosts _ [] _ |- _ => inversion X; subst end. eexists. split; [eauto|lia].
    + match goal with X : dcosts _ (_ :: _) _ |- _ => inversion X; subst end. eexists. split; [econstructor; eauto; econstructor; eauto|lia].
  - exists n'. split; auto. eapply dtotal_same; eauto.
Qed.

(** If the bus thread waits for a lock held by a thread inside Detach, some such thread can go on. *)
Lemma detach_enabled st r x m b0 stk rest :
  tree_inv st -> lock_inv st -> get_bus st r = Some x -> b_runner x = RDist m (FLock b0 :: stk) None rest ->
  forall n b i todo, length (s_buses st) - b <= n -> below st b0 b -> in_dstack st i (DKids b todo) -> exists j, enabled (LDetachStep j) st.
Proof.
  intros T K G R n. assert (b_root x = true) as Rx. { eapply (t_runner _ T); eauto. rewrite R. discriminate. }
  pose proof (k_stack _ K _ _ G) as Sk. rewrite R in Sk. simpl in Sk.
  induction n as [|n IH]; intros b i todo L B (ds & N & I).
  - pose proof (k_dstack _ K _ _ N) as D. destruct (dstack_frame _ _ _ D I) as (y & ? & Gy & _). apply get_lt in Gy. lia.
  - pose proof (k_dstack _ K _ _ N) as D.
    destruct ds as [|f ds]; [contradiction|]. destruct f as [c|c [|k ks]].
    2,3: exists i; unfold enabled; simpl; unfold detach_step; rewrite N; eauto.
    destruct (dstack_frame _ _ (DLock c) D (or_introl eq_refl)) as (y & Gy).
    destruct (b_klock y) eqn:Lk.
    + assert (below st b c /\ b < c) as [Bc Lc].
      { destruct I as [I|I]; [discriminate|]. apply (dstack_above _ _ _ _ T D I). }
      destruct (k_k _ K _ _ Gy Lk) as [(r' & t & I')|(j & t & I')].
      * exfalso. assert (below st r c) as Brc. { eapply below_trans; [apply (stack_below _ _ _ _ Sk (or_introl eq_refl))|]. simpl. eapply below_trans; eauto. }
        destruct (in_stack_root _ _ _ T I') as (x' & G' & Rx'). destruct I' as (x1 & G1 & I'). rewrite G' in G1. injection G1 as <-.
        assert (below st r' c) as B' by (apply (stack_below _ _ _ _ (k_stack _ K _ _ G') I')).
        assert (r' = r) as -> by (eapply roots_equal; eauto).
        rewrite G in G'. injection G' as <-. rewrite R in I'. destruct I' as [I'|I']; [discriminate|].
        destruct (stack_above _ _ _ _ _ T Sk I') as [_ Lt]. simpl in Lt. pose proof (below_le _ _ _ T B). lia.
      * apply (IH c j t); auto; [lia|eapply below_trans; eauto].
    + exists i. unfold enabled. simpl. unfold detach_step. rewrite N, Gy, Lk. eauto.
Qed.

Lemma detach_keeps_runner i st st' evs r x :
  step (LDetachStep i) st = Some (st', evs) -> get_bus st r = Some x -> exists x', get_bus st' r = Some x' /\ b_runner x' = b_runner x.
Proof.
  intros H G. destruct (detach_inv _ _ _ _ H) as (ds & ds' & a & N & C & E). rewrite E, detach_view, G. simpl. eexists. split; reflexivity.
Qed.

Definition is_detach_step (l : label) : Prop := match l with LDetachStep _ => True | _ => False end.

Lemma run_eventually n : forall st r x, reach st -> dtotal st (s_detaches st) n -> get_bus st r = Some x -> b_runner x <> RIdle -> call_of (b_runner x) = None ->
  exists ls st' evs, Forall is_detach_step ls /\ exec ls st = Some (st', evs) /\ enabled (LRun r) st'.
Proof.
  induction n as [n IH] using lt_wf_ind. intros st r x Rc D G NI NC.
  destruct (run_enabled _ _ _ (reach_tree _ Rc) (reach_lock _ Rc) G NI NC) as [E|(m & b & stk & rest & i & todo & R & I)].
  - exists [], st, []. auto.
  - destruct (detach_enabled _ _ _ _ _ _ _ (reach_tree _ Rc) (reach_lock _ Rc) G R _ b i todo (le_n _) (below_refl _ _) I) as (j & st1 & e1 & H).
    destruct (detach_cost _ _ _ _ _ H D) as (n' & D' & En). destruct (detach_keeps_runner _ _ _ _ _ _ H G) as (x1 & G1 & R1).
    destruct (IH n' ltac:(lia) st1 r x1) as (ls & st' & evs & F & X & E); eauto using reach_step; try (rewrite R1; auto).
    exists (LDetachStep j :: ls), st', (e1 ++ evs). split; [constructor; simpl; auto|]. split; auto. cbn [exec]. now rewrite H, X.
Qed.

Lemma reach_dtotal st : reach st -> exists n, dtotal st (s_detaches st) n.
Proof.
  intros Rc. apply dtotal_ex; [now apply reach_tree|]. intros ds I. apply In_nth_error in I. destruct I as (i & N).
  eapply (k_dstack _ (reach_lock _ Rc)); eauto.
Qed.

(** ** Bounded distribution *)

Inductive cost (st : state) : nat -> nat -> Prop :=
| cost_stop b x : get_bus st b = Some x -> b_run x = false -> cost st b 1
| cost_run b x n : get_bus st b = Some x -> b_run x = true -> costs st (map snd (b_kids x)) n -> cost st b (4 + 2 * length (b_subs x) + n)
with costs (st : state) : list nat -> nat -> Prop :=
| costs_nil : costs st [] 0
| costs_cons k ks a n : cost st k a -> costs st ks n -> costs st (k :: ks) (a + n).
Scheme cost_mind := Minimality for cost Sort Prop with costs_mind := Minimality for costs Sort Prop.

Lemma costs_ex_n st : tree_inv st -> forall n b x, length (s_buses st) - b <= n -> get_bus st b = Some x ->
  (exists c, cost st b c) /\ (exists c, costs st (map snd (b_kids x)) c).
Proof.
  intros T n. induction n as [|n IH]; intros b x L G.
  - apply get_lt in G. lia.
  - assert (forall ks, (forall k, In k ks -> kid st b k) -> exists c, costs st ks c) as Q.
    { induction ks as [|k ks IHk]; intros F; [eexists; constructor|].
      assert (kid st b k) as Kk by (apply F; now left).
      destruct (kid_get _ _ _ T Kk) as (y & Gy). pose proof (t_lt _ T _ _ Kk).
      destruct (IH k y) as ((a & A) & _); [lia|auto|]. destruct IHk as (c & C); [intros; apply F; now right|].
      eexists. econstructor; eauto. }
    destruct (Q (map snd (b_kids x))) as (c & C); [intros k I; exists x; auto|]. split; [|eauto].
    destruct (b_run x) eqn:Rn; eexists; [eapply cost_run; eauto|eapply cost_stop; eauto].
Qed.
Lemma costs_ex st ks : tree_inv st -> (forall k, In k ks -> exists y, get_bus st k = Some y) -> exists c, costs st ks c.
Proof.
  intros T. induction ks as [|k ks IH]; intros F; [eexists; constructor|].
  destruct (F k) as (y & G); [now left|]. destruct (costs_ex_n st T _ k y (le_n _) G) as ((a & A) & _).
  destruct IH as (c & C); [intros; apply F; now right|]. eexists. econstructor; eauto.
Qed.

Inductive work (st : state) : list frame -> nat -> Prop :=
| wk_nil : work st [] 1
| wk_subs b x todo n stk w : get_bus st b = Some x -> costs st (map snd (b_kids x)) n -> work st stk w -> work st (FSubs b todo :: stk) (3 + 2 * length todo + n + w)
| wk_lock b x n stk w : get_bus st b = Some x -> costs st (map snd (b_kids x)) n -> work st stk w -> work st (FLock b :: stk) (2 + n + w)
| wk_kids b todo n stk w : costs st todo n -> work st stk w -> work st (FKids b todo :: stk) (1 + n + w).

Definition in_call (c : option call) : nat := match c with Some _ => 1 | None => 0 end.

Lemma work_ex st r stk : tree_inv st -> stack_ok st r stk -> exists w, work st stk w.
Proof.
  intros T. induction stk as [|f stk IH]; intros S; [eexists; constructor|].
  destruct (IH (stack_tail _ _ _ _ S)) as (w & W). pose proof (stack_frame _ _ _ f S (or_introl eq_refl)) as F.
  destruct f as [b todo|b|b todo]; simpl in F.
  - destruct F as (x & pre & G & _). destruct (costs_ex_n st T _ b x (le_n _) G) as (_ & (c & C)). eexists. econstructor; eauto.
  - destruct F as (x & G). destruct (costs_ex_n st T _ b x (le_n _) G) as (_ & (c & C)). eexists. econstructor; eauto.
  - destruct F as (x & pre & G & _ & E). destruct (costs_ex st todo T) as (a & A).
    + intros k I. apply (kid_get st b); auto. exists x. split; auto. rewrite E. apply in_app_iff. auto.
    + eexists. econstructor; eauto.
Qed.

Lemma cost_quiet l st st' evs : step l st = Some (st', evs) -> quiet l ->
  (forall b n, cost st b n -> cost st' b n) /\ (forall bs n, costs st bs n -> costs st' bs n).
Proof.
  intros H Q. split.
  - apply (cost_mind st (cost st') (costs st')); [| |constructor|intros; econstructor; eauto].
    + intros b x G R. destruct (quiet_bus _ _ _ _ _ _ H Q G) as (x' & G' & E1 & E2 & E3). apply (cost_stop _ _ x'); congruence.
    + intros b x n G R _ C. destruct (quiet_bus _ _ _ _ _ _ H Q G) as (x' & G' & E1 & E2 & E3). rewrite <- E2. apply (cost_run _ _ x'); congruence.
  - apply (costs_mind st (cost st') (costs st')); [| |constructor|intros; econstructor; eauto].
    + intros b x G R. destruct (quiet_bus _ _ _ _ _ _ H Q G) as (x' & G' & E1 & E2 & E3). apply (cost_stop _ _ x'); congruence.
    + intros b x n G R _ C. destruct (quiet_bus _ _ _ _ _ _ H Q G) as (x' & G' & E1 & E2 & E3). rewrite <- E2. apply (cost_run _ _ x'); congruence.
Qed.
Lemma work_quiet l st st' evs stk w : step l st = Some (st', evs) -> quiet l -> work st stk w -> work st' stk w.
Proof.
  intros H Q. destruct (cost_quiet _ _ _ _ H Q) as [A B].
  induction 1; try (destruct (quiet_bus _ _ _ _ _ _ H Q H0) as (x' & G' & E1 & E2 & E3)); econstructor; eauto; try (rewrite E3; auto).
Qed.

Lemma cost_run_inv st k y a : cost st k a -> get_bus st k = Some y -> b_run y = true ->
  exists n, costs st (map snd (b_kids y)) n /\ a = 4 + 2 * length (b_subs y) + n.
Proof.
  intros C G R. inversion C; subst.
  - congruence.
  - match goal with G1 : get_bus st k = Some ?u |- _ => assert (u = y) by congruence; subst end. eauto.
Qed.
Lemma costs_cons_inv st k ks n : costs st (k :: ks) n -> exists a c, cost st k a /\ costs st ks c /\ n = a + c.
Proof. intros C. inversion C; subst; eauto. Qed.
Lemma cost_pos st k a : cost st k a -> 1 <= a.
Proof. intros C. inversion C; subst; lia. Qed.

Lemma work_run st r x l m stk c rest rn act evs w :
  rcase st r x l (RDist m stk c rest) rn act evs -> work st stk w ->
  (exists stk' c' w', rn = RDist m stk' c' rest /\ work st stk' w' /\ w' + in_call c' < w + in_call c) \/
  (rn = RBatch rest /\ evs = [EvEnd r m]) \/ (rn = RIdle /\ exists e, In (EvStop r (Some e)) evs).
Proof.
  intros R W. inversion R; subst; auto;
    try (right; right; split; [reflexivity|]; eexists; solve [apply in_app_iff; right; now left | right; apply in_app_iff; right; now left]);
    left; try (inversion W; subst;
    try match goal with G1 : get_bus st ?b1 = Some ?u, G2 : get_bus st ?b1 = Some ?v |- _ => assert (u = v) by congruence; subst end;
    try match goal with X : costs _ (_ :: _) _ |- _ => apply costs_cons_inv in X; let Ca := fresh "Ca" in destruct X as (? & ? & Ca & ? & ->); pose proof (cost_pos _ _ _ Ca) end;
    try match goal with Ca : cost _ ?k _, Gy : get_bus st ?k = Some ?y, Ry : b_run ?y = true |- _ => destruct (cost_run_inv _ _ _ _ Ca Gy Ry) as (n0 & C0 & ->) end;
    do 3 eexists; (split; [reflexivity|]); (split; [solve [eauto|econstructor; eauto|econstructor; eauto; econstructor; eauto]|simpl; lia])).
Qed.

Lemma own_cons r l ls : own_steps r (l :: ls) = (if runner_label_dec l r then 1 else 0) + own_steps r ls.
Proof.
  destruct (runner_label_dec l r) as [d|d]; destruct l; simpl in *; try contradiction; auto;
    match goal with |- context [Nat.eqb ?a r] => destruct (Nat.eqb_spec a r) end; auto; congruence.
Qed.

Lemma passes_now (P : state -> list event -> Prop) ls st : P st [] -> passes P ls st.
Proof. intros H. exists [], ls, st, []. auto. Qed.
Lemma passes_next (P Q : state -> list event -> Prop) l ls st st1 e1 :
  step l st = Some (st1, e1) -> (forall s t, P s t -> Q s (e1 ++ t)) -> passes P ls st1 -> passes Q (l :: ls) st.
Proof.
  intros H I (ls1 & ls2 & s & t & -> & X & p). exists (l :: ls1), ls2, s, (e1 ++ t). split; [reflexivity|]. split; [cbn [exec]; now rewrite H, X|auto].
Qed.

(** The distribution is over: completed, or left by an exception. *)
Definition dist_over (r : nat) (m : pubn) (st : state) (tr : list event) : Prop :=
  exists x, get_bus st r = Some x /\ current x = [] /\ (In (EvEnd r m) tr \/ exists e, In (EvStop r (Some e)) tr).

Lemma dist_over_app r m s t e1 : dist_over r m s t -> dist_over r m s (e1 ++ t).
Proof.
  intros (x & G & C & I). exists x. split; auto. split; auto.
  destruct I as [I|(e & I)]; [left|right; exists e]; apply in_app_iff; auto.
Qed.

Lemma bounded_dist ls : forall st st' tr r x m stk c rest w,
  exec ls st = Some (st', tr) -> Forall quiet ls -> get_bus st r = Some x -> b_runner x = RDist m stk c rest -> work st stk w ->
  w + in_call c <= own_steps r ls -> passes (dist_over r m) ls st.
Proof.
  induction ls as [|l ls IH]; intros st st' tr r x m stk c rest w H Q G R W L.
  - simpl in L. inversion W; subst; lia.
  - apply exec_cons_inv in H. destruct H as (st1 & e1 & e2 & H1 & H2 & ->). pose proof (Forall_inv Q) as Ql. apply Forall_inv_tail in Q.
    rewrite own_cons in L. destruct (runner_label_dec l r) as [RL|RL].
    + destruct (run_inv' _ _ _ _ _ H1 RL) as (x0 & rn & act & G0 & RC & E). rewrite G in G0. injection G0 as <-. rewrite R in RC.
      assert (exists x1, get_bus st1 r = Some x1 /\ b_runner x1 = rn) as (x1 & G1 & R1).
      { rewrite E, run_view, G. simpl. eexists. split; [reflexivity|]. simpl. now rewrite Nat.eqb_refl. }
      destruct (work_run _ _ _ _ _ _ _ _ _ _ _ _ RC W) as [(stk' & c' & w' & -> & W' & Lt)|[(-> & ->)|(-> & e & I)]].
      * apply (passes_next (dist_over r m) _ _ _ _ _ _ H1); [intros; now apply dist_over_app|].
        eapply (IH st1 st' e2 r x1 m stk' c' rest w'); eauto; [eapply work_quiet; eauto|lia].
      * apply (passes_next (fun s t => s = st1 /\ t = []) _ _ _ _ _ _ H1); [|now apply passes_now].
        intros s t (-> & ->). rewrite app_nil_r. exists x1. unfold current. rewrite R1. split; auto. split; auto. left. now left.
      * apply (passes_next (fun s t => s = st1 /\ t = []) _ _ _ _ _ _ H1); [|now apply passes_now].
        intros s t (-> & ->). rewrite app_nil_r. exists x1. unfold current. rewrite R1. split; auto. split; auto. right. exists e. auto.
    + destruct (runner_stays _ _ _ _ _ _ H1 RL G) as (x1 & G1 & R1); [rewrite R; discriminate|]. rewrite R in R1.
      apply (passes_next (dist_over r m) _ _ _ _ _ _ H1); [intros; now apply dist_over_app|].
      eapply (IH st1 st' e2 r x1 m stk c rest w); eauto; eapply work_quiet; eauto.
Qed.

(** The subscribers lock of one bus is released after a bounded number of steps, whatever
    other threads do. *)
Lemma slock_released ls : forall st st' tr r x m b todo stk c rest,
  reach st -> exec ls st = Some (st', tr) -> get_bus st r = Some x -> b_runner x = RDist m (FSubs b todo :: stk) c rest ->
  1 + 2 * length todo + in_call c <= own_steps r ls ->
  passes (fun s _ => exists y, get_bus s b = Some y /\ b_slock y = false) ls st.
Proof.
  induction ls as [|l ls IH]; intros st st' tr r x m b todo stk c rest Rc H G R L.
  - simpl in L. lia.
  - apply exec_cons_inv in H. destruct H as (st1 & e1 & e2 & H1 & H2 & ->). assert (reach st1) as Rc1 by (eapply reach_step; eauto).
    assert (exists y, get_bus st b = Some y) as (y & Gy).
    { pose proof (k_stack _ (reach_lock _ Rc) _ _ G) as S. rewrite R in S. destruct (stack_frame _ _ _ _ S (or_introl eq_refl)) as (y & ? & Gy & _). eauto. }
    rewrite own_cons in L. destruct (runner_label_dec l r) as [RL|RL].
    + destruct (run_inv' _ _ _ _ _ H1 RL) as (x0 & rn & act & G0 & RC & E). rewrite G in G0. injection G0 as <-. rewrite R in RC.
      assert (exists x1, get_bus st1 r = Some x1 /\ b_runner x1 = rn) as (x1 & G1 & R1).
      { rewrite E, run_view, G. simpl. eexists. split; [reflexivity|]. simpl. now rewrite Nat.eqb_refl. }
      assert (exists y1, get_bus st1 b = Some y1) as (y1 & Gy1) by (rewrite E, run_view, Gy; simpl; eauto).
      assert ((exists todo' c', rn = RDist m (FSubs b todo' :: stk) c' rest /\ 2 * length todo' + in_call c' < 2 * length todo + in_call c) \/ b_slock y1 = false) as [(todo' & c' & -> & Lt)|F].
      { inversion RC; subst; try (left; do 2 eexists; split; [reflexivity|simpl; lia]).
        - right. rewrite run_view, Gy in Gy1. simpl in Gy1. injection Gy1 as <-. simpl. now rewrite Nat.eqb_refl.
        - right. rewrite run_view, Gy in Gy1. simpl in Gy1. injection Gy1 as <-. simpl. rewrite Nat.eqb_refl. simpl. apply andb_false_r.
        - right. rewrite run_view, Gy in Gy1. simpl in Gy1. injection Gy1 as <-. simpl. rewrite Nat.eqb_refl. simpl. apply andb_false_r. }
      * apply (passes_next (fun s _ => exists y, get_bus s b = Some y /\ b_slock y = false) _ _ _ _ _ _ H1); [auto|].
        eapply (IH st1 st' e2 r x1); eauto. lia.
      * apply (passes_next (fun s t => s = st1) _ _ _ _ _ _ H1); [|now apply passes_now].
        intros s t ->. eauto.
    + destruct (runner_stays _ _ _ _ _ _ H1 RL G) as (x1 & G1 & R1); [rewrite R; discriminate|]. rewrite R in R1.
      apply (passes_next (fun s _ => exists y, get_bus s b = Some y /\ b_slock y = false) _ _ _ _ _ _ H1); [auto|].
      eapply (IH st1 st' e2 r x1); eauto.
Qed.

(** ** Inside a callback *)

(** While a callback runs, the bus thread stays where it is. *)
Lemma call_stays ls : forall st st' tr r x,
  exec ls st = Some (st', tr) -> get_bus st r = Some x -> call_of (b_runner x) <> None ->
  Forall (fun l => l <> LReturn r /\ forall e, l <> LThrow r e) ls -> exists x', get_bus st' r = Some x' /\ b_runner x' = b_runner x.
Proof.
  induction ls as [|l ls IH]; intros st st' tr r x H G C F.
  - simpl in H. injection H as <- <-. eauto.
  - apply exec_cons_inv in H. destruct H as (st1 & e1 & e2 & H1 & H2 & ->). pose proof (Forall_inv F) as (F1 & F2). apply Forall_inv_tail in F.
    assert (exists x1, get_bus st1 r = Some x1 /\ b_runner x1 = b_runner x) as (x1 & G1 & R1).
    { destruct (runner_label_dec l r) as [RL|RL].
      - exfalso. destruct (run_inv' _ _ _ _ _ H1 RL) as (x0 & rn & act & G0 & RC & E). rewrite G in G0. injection G0 as <-.
        inversion RC; subst; try (now apply F1); try (now eapply F2);
        match goal with X : _ = b_runner x |- _ => rewrite <- X in C; simpl in C; congruence end.
      - apply (runner_stays _ _ _ _ _ _ H1 RL G). intros N. rewrite N in C. simpl in C. congruence. }
    rewrite <- R1. apply (IH _ _ _ _ _ H2 G1); [rewrite R1; auto|auto].
Qed.

Lemma call_locks st r x c :
  reach st -> get_bus st r = Some x -> call_of (b_runner x) = Some c ->
  exists m b ss stk rest y, b_runner x = RDist m (FSubs b ss :: stk) (Some c) rest /\ get_bus st b = Some y /\ b_slock y = true /\ below st r b /\
    (forall p, below st r p -> below st p b -> p <> b -> exists z, get_bus st p = Some z /\ b_klock z = true).
Proof.
  intros Rc G C. pose proof (reach_tree _ Rc) as T. pose proof (reach_lock _ Rc) as K.
  destruct (b_runner x) as [| | |ms|m stk c0 rest] eqn:R; try discriminate. simpl in C. subst c0.
  destruct (k_call _ K r x c G) as (b & todo & stk' & Es); [now rewrite R|]. rewrite R in Es. simpl in Es. subst stk.
  pose proof (k_stack _ K _ _ G) as S. rewrite R in S. simpl in S.
  destruct (stack_frame _ _ _ _ S (or_introl eq_refl)) as (y & pre & Gy & Ly & E).
  exists m, b, todo, stk', rest, y. split; auto. split; auto. split; auto.
  split; [apply (stack_below _ _ _ _ S (or_introl eq_refl))|].
  intros p Bp Bb Ne.
  destruct (path_frames _ _ _ (FSubs b todo) p T S (or_introl eq_refl) Bb Bp) as [Eq|(t & I)].
  - simpl in Eq. congruence.
  - destruct I as [I|I]; [discriminate|]. destruct (stack_frame _ _ _ _ S (or_intror I)) as (z & ? & Gz & Lz & _). eauto.
Qed.

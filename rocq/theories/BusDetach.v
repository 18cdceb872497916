(** Detach: everything below ends up detached, stopped and unserved. *)
From Coq Require Import String Ascii List Arith ZArith Bool Lia Sorted.
From Verif Require Import Prelude OMap DatagramModel DatagramSpec BusModel BusSpec BusProofs BusTree BusLocks BusLocks2 BusLocks3 BusDist BusAccount BusOnce BusServe BusFlight.
Import ListNotations.
Open Scope list_scope.

(** What a thread inside Detach has still to visit. *)
Definition dfahead (st : state) (f : dframe) (k : nat) : Prop :=
  match f with
  | DLock c => c <> k /\ below st c k
  | DKids _ todo => exists j, In j todo /\ below st j k
  end.
Definition dahead (st : state) (ds : list dframe) (k : nat) : Prop := exists f, In f ds /\ dfahead st f k.

Definition halted (k : nat) (st : state) : Prop := exists x, get_bus st k = Some x /\ b_run x = false.

Definition cutting (i b : nat) (ls : list label) (st : state) : Prop :=
  exists ds, nth_error (s_detaches st) i = Some ds /\ detached b st /\
    forall k, below st b k -> k <> b -> (detached k st /\ (halted k st \/ In (LStart k) ls)) \/ dahead st ds k.

Lemma dfahead_mono l st st' evs f k : step l st = Some (st', evs) -> dfahead st f k -> dfahead st' f k.
Proof.
  intros H A. destruct f; simpl in *.
  - destruct A. split; auto. eapply step_below_mono; eauto.
  - destruct A as (j & I & B). exists j. split; auto. eapply step_below_mono; eauto.
Qed.

Lemma halted_step l st st' evs k : step l st = Some (st', evs) -> halted k st -> halted k st' \/ l = LStart k.
Proof.
  intros H (x & G & R). destruct (step_delta _ _ _ _ _ _ H G) as (x' & G' & D).
  destruct (d_run _ _ _ _ _ _ D) as [E|[[E _]|[[_ E]|(? & ? & ? & ? & _ & _ & E)]]]; auto; left; exists x'; split; congruence.
Qed.

(** The step that turns [st] into [st'] added a child under an attached bus. *)
Lemma below_new l st st' evs b k :
  tree_inv st -> step l st = Some (st', evs) -> below st' b k -> b < length (s_buses st) ->
  below st b k \/ (exists p x, k = length (s_buses st) /\ below st b p /\ kid st' p k /\ get_bus st p = Some x /\ b_fn x <> None).
Proof.
  intros T H B Lb. destruct (lt_dec k (length (s_buses st))) as [L|L]; [left; eapply step_below_inv; eauto|].
  inversion B as [|p c Bp Kp]; subst; [lia|].
  destruct (step_kid_inv _ _ _ _ _ _ H Kp) as [K|(name & x & -> & G & F & _ & -> & _)].
  - apply (t_lt _ T) in K. lia.
  - right. exists p, x. repeat split; auto. eapply step_below_inv; eauto. eapply get_lt; eauto.
Qed.

Lemma dahead_child st st' l evs ds p k :
  tree_inv st -> step l st = Some (st', evs) -> dahead st ds p -> kid st' p k -> k = length (s_buses st) -> p < k -> dahead st' ds k.
Proof.
  intros T H (f & I & A) K Ek Lp. exists f. split; auto. apply (dfahead_mono _ _ _ _ _ _ H) in A.
  destruct f; simpl in *.
  - destruct A as [N B]. split; [|econstructor 2; eauto].
    pose proof (below_le _ _ _ (tree_step _ _ _ _ T H) B). lia.
  - destruct A as (j & Ij & B). exists j. split; auto. econstructor 2; eauto.
Qed.

Lemma cutting_step l st st' evs i b ls :
  tree_inv st -> lock_inv st -> cutting i b ls st -> step l st = Some (st', evs) -> cutting i b (ls ++ [l]) st'.
Proof.
  intros T K0 (ds & N & Db & A) H.
  assert (b < length (s_buses st)) as Lb by (destruct Db as (x & G & _); eapply get_lt; eauto).
  assert (forall ds', (forall k, dahead st ds k -> (detached k st' /\ halted k st') \/ dahead st' ds' k) ->
     (forall p, dahead st ds p -> ~ detached p st -> forall k, kid st' p k -> k = length (s_buses st) -> p < k -> dahead st' ds' k) ->
     forall k, below st' b k -> k <> b -> (detached k st' /\ (halted k st' \/ In (LStart k) (ls ++ [l]))) \/ dahead st' ds' k) as Q.
  { intros ds' M1 M2 k B Nk. destruct (below_new _ _ _ _ _ _ T H B Lb) as [B0|(p & x & -> & Bp & Kp & G & F)].
    - destruct (A _ B0 Nk) as [(D & Hl)|Ah].
      + left. split; [eapply detached_step; eauto|]. rewrite in_app_iff. destruct Hl as [Hl|Hl]; [|auto].
        destruct (halted_step _ _ _ _ _ H Hl) as [X|X]; [auto|]. subst l. right. right. now left.
      + destruct (M1 _ Ah) as [[? ?]|?]; auto.
    - right. assert (p <> b) as Np. { intros ->. destruct Db as (x' & G' & F'). congruence. }
      assert (~ detached p st) as Nd. { intros (x' & G' & F'). congruence. }
      destruct (A _ Bp Np) as [(D & _)|Ah]; [contradiction|].
      apply (M2 p); auto. eapply get_lt; eauto. }
  assert ((exists j, l = LDetachStep j /\ j = i) \/ nth_error (s_detaches st') i = Some ds) as [(j & -> & ->)|N'].
  { pose proof (nth_error_Some_lt _ _ _ N) as Li.
    destruct l; try (right; step_cases H; simpl; acc; simpl; auto using nth_snoc_old; fail).
    destruct (Nat.eq_dec i0 i) as [->|Ne]; [left; eauto|]. right.
    destruct (detach_inv _ _ _ _ H) as (ds0 & ds' & a & N0 & D & E).
    destruct (detach_rest i0 ds' a st) as (_ & F & _). rewrite E, F. now rewrite list_set_ne. }
  - destruct (detach_inv _ _ _ _ H) as (ds0 & ds' & a & N0 & D & E). rewrite N in N0. injection N0 as <-.
    exists ds'. split; [|split].
    + destruct (detach_rest i ds' a st) as (_ & F & _). rewrite E, F. apply list_set_eq. eapply nth_error_Some_lt; eauto.
    + eapply detached_step; eauto.
    + apply Q.
      * intros k (f & I & Af). inversion D; subst ds ds' a evs.
        -- right. destruct I as [<-|I]; [|exists f; split; [now right|eapply dfahead_mono; eauto]].
           destruct Af as [Nk B]. destruct (below_first _ _ _ B) as [?|(j & (y & Gy & Ij) & Bj)]; [congruence|].
           exists (DKids b0 (map snd (b_kids x))). split; [now left|]. exists j. split; [congruence|]. eapply step_below_mono; eauto.
        -- right. destruct I as [<-|I]; [destruct Af as (j & [] & _)|]. exists f; split; auto. eapply dfahead_mono; eauto.
        -- destruct I as [<-|I]; [|right; exists f; split; [right; now right|eapply dfahead_mono; eauto]].
           destruct Af as (j & [<-|Ij] & Bj).
           ++ destruct (Nat.eq_dec k0 k) as [->|Nk].
              ** left. assert (exists x, get_bus st k = Some x) as (x & G).
                 { destruct (dstack_frame _ _ _ (k_dstack _ K0 _ _ N) (or_introl eq_refl)) as (xb & pre & Gb & _ & Ek).
                   assert (kid st b0 k) as K by (exists xb; split; auto; rewrite Ek; apply in_app_iff; right; now left).
                   apply (t_lt _ T) in K. unfold get_bus. destruct (nth_error (s_buses st) k) eqn:Ne; eauto. apply nth_error_None in Ne. lia. }
                 assert (exists x', get_bus st' k = Some x' /\ b_fn x' = None /\ b_run x' = false) as (x' & G' & F' & R').
                 { rewrite E, detach_view, G. simpl. eexists. split; [reflexivity|]. simpl. now rewrite Nat.eqb_refl. }
                 split; exists x'; auto.
              ** right. exists (DLock k0). split; [now left|]. split; auto. eapply step_below_mono; eauto.
           ++ right. exists (DKids b0 ks). split; [right; now left|]. exists j. split; auto. eapply step_below_mono; eauto.
      * intros p (f & I & Af) Nd k K Ek Lp. exfalso.
        destruct (step_kid_inv _ _ _ _ _ _ H K) as [K1|(name & x & E0 & _)]; [|discriminate].
        apply (t_lt _ T) in K1. lia.
  - exists ds. split; auto. split; [eapply detached_step; eauto|]. apply Q.
    + intros k (f & I & Af). right. exists f. split; auto. eapply dfahead_mono; eauto.
    + intros p Ap _ k K Ek Lp. eapply dahead_child; eauto.
Qed.

Lemma cutting_exec ls : forall st st' tr ls0 i b, reach st -> cutting i b ls0 st -> exec ls st = Some (st', tr) -> cutting i b (ls0 ++ ls) st'.
Proof.
  induction ls as [|l ls IH]; intros st st' tr ls0 i b Rc C H; simpl in H.
  - injection H as <- <-. now rewrite app_nil_r.
  - destruct (step l st) as [[st1 e1]|] eqn:E; [|discriminate]. destruct (exec ls st1) as [[st2 e2]|] eqn:E2; [|discriminate].
    injection H as <- <-. replace (ls0 ++ l :: ls) with ((ls0 ++ [l]) ++ ls) by (rewrite <- app_assoc; reflexivity).
    apply (IH st1 st2 e2); eauto using reach_step. eapply cutting_step; eauto using reach_tree, reach_lock.
Qed.

Lemma cutting_start st st' evs b :
  step (LDetach b) st = Some (st', evs) -> cutting (length (s_detaches st)) b [] st'.
Proof.
  simpl. destruct (get_bus st b) as [x|] eqn:G; [|discriminate]. intros [= <- <-].
  exists [DLock b]. simpl. rewrite nth_snoc_new. split; auto. split.
  - exists (with_fn None x). rewrite get_set_detaches, get_set, Nat.eqb_refl, G. auto.
  - intros k B N. right. exists (DLock b). split; [now left|]. split; auto.
Qed.

(** ** Service below a detached bus *)

Lemma path_frames st r stk f c : tree_inv st -> stack_ok st r stk -> In f stk -> below st c (frame_bus f) -> below st r c ->
  c = frame_bus f \/ exists todo, In (FKids c todo) stk.
Proof.
  intros T S. revert f. induction S as [|f0 Hr Hf|f0 p0 todo0 stk0 x pre Hf G E S IH]; intros f I B Br.
  - contradiction.
  - destruct I as [<-|[]]. left. subst. pose proof (below_le _ _ _ T B). pose proof (below_le _ _ _ T Br). lia.
  - destruct I as [<-|I].
    + pose proof (kid_of _ _ _ _ _ _ G E) as K. destruct (below_kid_inv _ _ _ _ T B K) as [?|B']; auto.
      destruct (IH (FKids p0 todo0) (or_introl eq_refl) B' Br) as [->|(todo & J)].
      * right. exists todo0. right. now left.
      * right. exists todo. now right.
    + destruct (IH _ I B Br) as [?|(todo & J)]; auto. right. exists todo. now right.
Qed.

(** No bus thread is at work strictly below [b]. *)
Definition sealed (b : nat) (st : state) : Prop :=
  forall r f, in_stack st r f -> below st b (frame_bus f) -> frame_bus f = b.

Lemma sealed_locked st i b todo : tree_inv st -> lock_inv st -> in_dstack st i (DKids b todo) -> sealed b st.
Proof.
  intros T K Id r f (x & G & I) B. pose proof (k_stack _ K _ _ G) as S.
  assert (below st r (frame_bus f)) as Br by (eapply stack_below; eauto).
  assert (b_root x = true) as Rx. { eapply (t_runner _ T); eauto. intros E. rewrite E in I. contradiction. }
  assert (below st r b) as Bb.
  { destruct (below_linear _ _ _ _ T Br B) as [?|B']; auto. rewrite (below_root _ _ _ _ T B' G Rx). constructor. }
  destruct (path_frames _ _ _ _ _ T S I B Bb) as [?|(t & J)]; auto.
  exfalso. eapply (k_rd _ K); eauto. exists x. eauto.
Qed.

Lemma sealed_step l st st' evs b :
  tree_inv st -> lock_inv st -> sealed b st -> detached b st ->
  (forall k, below st b k -> k <> b -> detached k st /\ halted k st) ->
  step l st = Some (st', evs) -> sealed b st'.
Proof.
  intros T K S Db Hk H r f (x' & G' & I) B.
  assert (b < length (s_buses st)) as Lb by (destruct Db as (x & G & _); eapply get_lt; eauto).
  assert (in_stack st r f -> frame_bus f = b) as Old.
  { intros I0. apply (S r f I0). destruct I0 as (x & G & J).
    pose proof (stack_below _ _ _ _ (k_stack _ K _ _ G) J) as Br. pose proof (below_old _ _ _ T Br) as [E|L].
    - eapply step_below_inv; eauto. rewrite <- E. eapply get_lt; eauto.
    - eapply step_below_inv; eauto. }
  destruct (runner_label_dec l r) as [RL|RL].
  - destruct (run_inv' _ _ _ _ _ H RL) as (x & rn & act & G & RC & E).
    assert (b_runner x' = rn) as Er. { rewrite E, run_view, G in G'. injection G' as <-. simpl. now rewrite Nat.eqb_refl. }
    rewrite Er in I. clear Er.
    assert (forall g, In g (stack_of (b_runner x)) -> frame_bus f = frame_bus g -> frame_bus f = b) as Same.
    { intros g J Eg. rewrite Eg. apply (S r g); [exists x; auto|].
      pose proof (stack_below _ _ _ _ (k_stack _ K _ _ G) J) as Br. rewrite Eg in B. pose proof (below_old _ _ _ T Br) as [E0|L].
      - eapply step_below_inv; eauto. rewrite <- E0. eapply get_lt; eauto.
      - eapply step_below_inv; eauto. }
    assert (b_root x = true) as Rx. { eapply (t_runner _ T); eauto. eapply runner_label_active; eauto. }
    destruct (b_runner x) as [| | |ms|m stk c rest] eqn:R.
    + inversion RC.
    + inversion RC; subst; contradiction.
    + inversion RC; subst; contradiction.
    + assert (f = FSubs r (b_subs x)) as ->. { inversion RC; subst; try contradiction. destruct I as [<-|[]]. reflexivity. }
      symmetry. apply (below_root _ _ _ _ (tree_step _ _ _ _ T H) B G'). 
      destruct (step_keeps _ _ _ _ _ _ H G) as (z & Gz & Rz & _). congruence.
    + simpl in Same. inversion RC; subst; simpl in I; try contradiction;
        try (apply (Same f); [now right|reflexivity]); try (apply (Same f); [exact I|reflexivity]);
        try (destruct I as [<-|I]; [eapply Same; [now left|reflexivity]|apply (Same f); [now right|reflexivity]]).
      destruct I as [<-|[<-|I]].
      * cbn [frame_bus] in *. destruct (Nat.eq_dec k b) as [?|Nk]; auto. exfalso.
        match goal with Gy : get_bus st k = Some ?y, Ry : b_run ?y = true |- _ =>
          destruct (Hk k) as [_ (y' & Gy' & Ry')]; [eapply step_below_inv; eauto; eapply get_lt; eauto|exact Nk|congruence] end.
      * eapply Same; [now left|reflexivity].
      * apply (Same f); [now right|reflexivity].
  - apply Old. destruct (step_runner_inv _ _ _ _ _ _ H G') as [(x & G & [E|[E|(_ & _ & _ & E)]])|E].
    + exists x. split; auto. rewrite <- E. exact I.
    + contradiction.
    + rewrite E in I. contradiction.
    + rewrite E in I. contradiction.
Qed.

Lemma seal_start st st' evs i b : tree_inv st -> lock_inv st ->
  step (LDetachStep i) st = Some (st', evs) -> nth_error (s_detaches st) i = Some [DKids b []] -> sealed b st'.
Proof.
  intros T K H N. assert (sealed b st) as S. { eapply sealed_locked; eauto. exists [DKids b []]. split; eauto. now left. }
  destruct (detach_inv _ _ _ _ H) as (ds & ds' & a & N0 & D & E). intros r f (x' & G' & I) B.
  rewrite E, detach_view in G'. destruct (get_bus st r) as [x|] eqn:G; [|discriminate]. injection G' as <-. simpl in I.
  apply (S r f); [exists x; auto|]. pose proof (stack_below _ _ _ _ (k_stack _ K _ _ G) I) as Br.
  pose proof (below_old _ _ _ T Br) as [E0|L]; eapply step_below_inv; eauto. rewrite <- E0. eapply get_lt; eauto.
Qed.

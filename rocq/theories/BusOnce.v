(** Every subscriber meets each distributed message at most once, and at least once
    if it stays registered under running buses. *)
From Coq Require Import String Ascii List Arith ZArith Bool Lia Sorted.
From Verif Require Import Prelude OMap DatagramModel DatagramSpec BusModel BusSpec BusProofs BusTree BusLocks BusLocks2 BusLocks3 BusDist BusAccount.
Import ListNotations.
Open Scope list_scope.

(** The part of a distribution still to come includes subscriber [s] of bus [b]. *)
Definition fahead (st : state) (f : frame) (b s : nat) : Prop :=
  match f with
  | FSubs b' todo => (b' = b /\ In s todo) \/ (b' <> b /\ below st b' b)
  | FLock b' => b' <> b /\ below st b' b
  | FKids _ todo => exists k, In k todo /\ below st k b
  end.
Definition ahead (st : state) (stk : list frame) (b s : nat) : Prop := exists f, In f stk /\ fahead st f b s.

Lemma kid_of st p x pre c post : get_bus st p = Some x -> map snd (b_kids x) = pre ++ c :: post -> kid st p c.
Proof. intros G E. exists x. split; auto. rewrite E. apply in_app_iff. right. now left. Qed.

Lemma below_kid_inv st a p c : tree_inv st -> below st a c -> kid st p c -> a = c \/ below st a p.
Proof.
  intros T B K. inversion B as [|b0 c0 B' K']; subst; auto.
  right. now rewrite (t_one _ T _ _ _ K K').
Qed.

Lemma siblings st p c k d :
  tree_inv st -> kid st p c -> kid st p k -> c <> k -> below st c d -> below st k d -> False.
Proof.
  intros T Kc Kk N Bc Bk.
  pose proof (t_lt _ T _ _ Kc). pose proof (t_lt _ T _ _ Kk).
  destruct (below_linear _ _ _ _ T Bc Bk) as [B|B].
  - destruct (below_kid_inv _ _ _ _ T B Kk) as [E|B']; [congruence|]. apply (below_le _ _ _ T) in B'. lia.
  - destruct (below_kid_inv _ _ _ _ T B Kc) as [E|B']; [congruence|]. apply (below_le _ _ _ T) in B'. lia.
Qed.

(** The frames under the innermost one do not lead to its bus again. *)
Lemma not_again st r stk : tree_inv st -> stack_ok st r stk ->
  forall f rest p todo k, stk = f :: rest -> In (FKids p todo) rest -> In k todo -> ~ below st k (frame_bus f).
Proof.
  intros T S. induction S as [|f0 Hr Hf|f0 p0 todo0 stk0 x pre Hf G E S IH]; intros f rest p todo k Eq I Ik B.
  - discriminate.
  - injection Eq as <- <-. contradiction.
  - injection Eq as <- <-. destruct I as [I|I].
    + injection I as <- <-. pose proof (kid_of _ _ _ _ _ _ G E) as K.
      assert (kid st p0 k) as Kk. { exists x. split; auto. rewrite E. apply in_app_iff. right. now right. }
      assert (k <> frame_bus f0) as N.
      { intros ->. destruct (t_sorted _ T _ _ G) as [_ ND]. rewrite E in ND. apply NoDup_remove_2 in ND. apply ND. apply in_app_iff; auto. }
      apply (siblings st p0 (frame_bus f0) k (frame_bus f0)); auto. constructor.
    + pose proof (kid_of _ _ _ _ _ _ G E) as K.
      destruct (below_kid_inv _ _ _ _ T B K) as [->|B'].
      * assert (frame_ok st (FKids p todo)) as F by (eapply stack_frame; eauto; right; auto).
        destruct F as (xp & pre' & Gp & _ & Ep). simpl in *.
        assert (kid st p (frame_bus f0)) as K'. { exists xp. split; auto. rewrite Ep. apply in_app_iff. auto. }
        assert (p < p0) by (apply (stack_above _ _ _ _ (FKids p todo) T S I)).
        rewrite (t_one _ T _ _ _ K K') in *. lia.
      * eapply IH; eauto.
Qed.

(** Distribution only shrinks what is ahead. *)
Lemma ahead_run st r x l m stk c rest rn act evs stk' c' rest' m' b s :
  tree_inv st -> rcase st r x l (RDist m stk c rest) rn act evs -> rn = RDist m' stk' c' rest' ->
  ahead st stk' b s -> ahead st stk b s.
Proof.
  intros T R E (f & I & A). subst rn. inversion R; subst; simpl in I.
  - destruct I as [<-|I]; [exists (FSubs b0 []); split; [now left|]; right; exact A|exists f; split; auto; now right].
  - destruct I as [<-|I]; [exists (FSubs b0 (s0 :: ss)); split; [now left|]; destruct A as [[? ?]|A]; [left; split; auto; now right|now right]|exists f; split; auto; now right].
  - destruct I as [<-|I]; [exists (FSubs b0 (s0 :: ss)); split; [now left|]; destruct A as [[? ?]|A]; [left; split; auto; now right|now right]|exists f; split; auto; now right].
  - destruct I as [<-|I]; [exists (FSubs b0 (s0 :: ss)); split; [now left|]; destruct A as [[? ?]|A]; [left; split; auto; now right|now right]|exists f; split; auto; now right].
  - destruct I as [<-|I]; [exists (FLock b0); split; [now left|]|exists f; split; auto; now right].
    destruct A as (k & Ik & B). assert (kid st b0 k) as K by (exists y; auto).
    pose proof (t_lt _ T _ _ K). pose proof (below_le _ _ _ T B). split; [lia|].
    eapply below_trans; [|exact B]. econstructor 2; [constructor|exact K].
  - exists f; split; auto; now right.
  - destruct I as [<-|[<-|I]].
    + exists (FKids b0 (k :: ks)). split; [now left|]. exists k. split; [now left|].
      destruct A as [[-> _]|[_ B]]; auto. constructor.
    + exists (FKids b0 (k :: ks)). split; [now left|]. destruct A as (k' & Ik & B). exists k'. split; auto. now right.
    + exists f. split; auto. now right.
  - destruct I as [<-|I].
    + exists (FKids b0 (k :: ks)). split; [now left|]. destruct A as (k' & Ik & B). exists k'. split; auto. now right.
    + exists f. split; auto. now right.
  - exists f; auto.
Qed.

Lemma fahead_back l st st' evs f b s :
  tree_inv st -> step l st = Some (st', evs) -> b < length (s_buses st) -> fahead st' f b s -> fahead st f b s.
Proof.
  intros T H L A. destruct f as [b' todo|b'|b' todo]; simpl in *.
  - destruct A as [A|[N B]]; auto. right. split; auto. eapply step_below_inv; eauto.
  - destruct A as [N B]. split; auto. eapply step_below_inv; eauto.
  - destruct A as (k & I & B). exists k. split; auto. eapply step_below_inv; eauto.
Qed.
Lemma ahead_back l st st' evs stk b s :
  tree_inv st -> step l st = Some (st', evs) -> b < length (s_buses st) -> ahead st' stk b s -> ahead st stk b s.
Proof. intros T H L (f & I & A). exists f. split; auto. eapply fahead_back; eauto. Qed.
Lemma ahead_mono l st st' evs stk b s :
  step l st = Some (st', evs) -> ahead st stk b s -> ahead st' stk b s.
Proof.
  intros H (f & I & A). exists f. split; auto. destruct f; simpl in *.
  - destruct A as [A|[N B]]; auto. right. split; auto. eapply step_below_mono; eauto.
  - destruct A as [N B]. split; auto. eapply step_below_mono; eauto.
  - destruct A as (k & Ik & B). exists k. split; auto. eapply step_below_mono; eauto.
Qed.

(** What a delivery says about the state it is made in. *)
Lemma receive_inv l st st' evs r b s m :
  step l st = Some (st', evs) -> In (EvReceive r b s m) evs ->
  exists x ss stk rest y, l = LRun r /\ get_bus st r = Some x /\ b_runner x = RDist m (FSubs b (s :: ss) :: stk) None rest /\
    nth_error (s_subs st) s = Some y /\ accepts (s_topic y) (bm_topic (snd m)) /\ received r evs = [(b, s, m)] /\
    (forall s', inbox r s' evs = if Nat.eqb s s' then [m] else []) /\
    ((exists x' c, get_bus st' r = Some x' /\ b_runner x' = RDist m (FSubs b ss :: stk) c rest /\ settled r evs = []) \/
     (exists x', get_bus st' r = Some x' /\ b_runner x' = RIdle /\ settled r evs = m :: rest)).
Proof.
  intros H I. assert (about r (EvReceive r b s m) = true) as Ab by (simpl; apply Nat.eqb_refl).
  destruct (runner_label_dec l r) as [RL|RL]; [|rewrite (other_events _ _ _ _ _ _ H RL I) in Ab; discriminate].
  destruct (run_inv' _ _ _ _ _ H RL) as (x & rn & act & G & RC & E).
  assert (forall rn0, rn = rn0 -> exists x', get_bus st' r = Some x' /\ b_runner x' = rn0) as V.
  { intros rn0 <-. rewrite E, run_view, G. eexists. split; [reflexivity|]. simpl. now rewrite Nat.eqb_refl. }
  inversion RC; subst l rn act evs; simpl in I; try contradiction;
    repeat match goal with H : _ \/ _ |- _ => destruct H as [I|I]; try discriminate I; try contradiction end.
  - injection I as <- <- <- . subst. exists x, ss, stk, rest, y. repeat split; auto.
    + now apply ant_accepts.
    + simpl. now rewrite Nat.eqb_refl.
    + intros s'. simpl. rewrite Nat.eqb_refl. simpl. destruct (s0 =? s'); auto.
    + left. destruct (V _ eq_refl) as (x' & G' & R'). eauto.
  - injection I as <- <- <- . subst. exists x, ss, stk, rest, y. repeat split; auto.
    + now apply ant_accepts.
    + simpl. now rewrite Nat.eqb_refl.
    + intros s'. simpl. rewrite Nat.eqb_refl. simpl. destruct (s0 =? s'); auto.
    + left. destruct (V _ eq_refl) as (x' & G' & R'). eauto.
  - injection I as <- <- <- . subst. exists x, ss, stk, rest, y. repeat split; auto.
    + now apply ant_accepts.
    + unfold received. simpl. rewrite Nat.eqb_refl. simpl. rewrite flat_map_app, flat_lost; auto.
    + intros s'. unfold inbox. simpl. rewrite Nat.eqb_refl. simpl. rewrite flat_map_app, flat_lost; auto. destruct (s0 =? s'); auto.
    + right. destruct (V _ eq_refl) as (x' & G' & R'). exists x'. repeat split; auto.
      change (settled r (map (EvLost r) (m0 :: rest) ++ [EvStop r (Some e)]) = m0 :: rest). apply settled_lost.
  - exfalso. apply in_app_iff in I. destruct I as [I|[I|[]]]; [|discriminate]. apply in_map_iff in I. destruct I as (? & ? & _). discriminate.
  - exfalso. apply in_app_iff in I. destruct I as [I|[I|[]]]; [|discriminate]. apply in_map_iff in I. destruct I as (? & ? & _). discriminate.
Qed.

Lemma in_inbox r s m tr : In m (inbox r s tr) <-> exists b, In (EvReceive r b s m) tr.
Proof.
  unfold inbox. rewrite in_flat_map. split.
  - intros (e & I & J). destruct e; try contradiction. destruct (root =? r) eqn:E1; destruct (s0 =? s) eqn:E2; simpl in J; try contradiction.
    apply Nat.eqb_eq in E1, E2. subst. destruct J as [<-|[]]. eauto.
  - intros (b & I). exists (EvReceive r b s m). split; auto. rewrite !Nat.eqb_refl. now left.
Qed.

Lemma inbox_nil_or r s evs : inbox r s evs = [] \/ exists b m, In (EvReceive r b s m) evs.
Proof.
  destruct (inbox r s evs) as [|m l] eqn:E; auto. right.
  assert (In m (inbox r s evs)) as I by (rewrite E; now left). apply in_inbox in I. destruct I as (b & I). eauto.
Qed.

Record once (r : nat) (st : state) (tr : list event) : Prop := mkOnce {
  o_acc : account r st tr;
  o_in : forall s m, In m (inbox r s tr) -> s < length (s_subs st) /\ exists x, get_bus st r = Some x /\ In m (settled r tr ++ current x);
  o_sorted : forall s, StronglySorted lt (map fst (inbox r s tr));
  o_ahead : forall x m stk c rest b xb s, get_bus st r = Some x -> b_runner x = RDist m stk c rest ->
    get_bus st b = Some xb -> In s (b_subs xb) -> In m (inbox r s tr) -> ~ ahead st stk b s }.

Lemma once_same_inbox (r : nat) (tr evs : list event) : (forall s, inbox r s evs = []) -> forall s, inbox r s (tr ++ evs) = inbox r s tr.
Proof. intros E s. now rewrite inbox_app, E, app_nil_r. Qed.

(** Messages that were settled, are being distributed and are pending are told apart by number. *)
Lemma account_lt r st tr x m m' :
  account r st tr -> get_bus st r = Some x -> In m (settled r tr) -> In m' (current x ++ pending x) -> fst m < fst m'.
Proof.
  unfold account. intros A G I I'. rewrite G in A. destruct A as [A1 A2].
  rewrite A1, map_app in A2. eapply sorted_app_lt; [rewrite A2; apply seq_sorted|now apply in_map|now apply in_map].
Qed.
Lemma account_lt_cur r st tr x m m' :
  account r st tr -> get_bus st r = Some x -> In m (settled r tr ++ current x) -> In m' (pending x) -> fst m < fst m'.
Proof.
  unfold account. intros A G I I'. rewrite G in A. destruct A as [A1 A2].
  rewrite A1, app_assoc, map_app in A2. eapply sorted_app_lt; [rewrite A2; apply seq_sorted|now apply in_map|now apply in_map].
Qed.

Lemma in_settled_grow r st st' evs l tr x x' m :
  step l st = Some (st', evs) -> account r st tr -> get_bus st r = Some x -> get_bus st' r = Some x' ->
  In m (settled r tr ++ current x) -> In m (settled r (tr ++ evs) ++ current x').
Proof.
  intros H A G G' I. rewrite settled_app, <- app_assoc. apply in_app_iff in I. destruct I as [I|I]; [apply in_app_iff; auto|].
  apply in_app_iff. right. apply in_app_iff.
  destruct (runner_label_dec l r) as [RL|RL].
  - destruct (run_inv' _ _ _ _ _ H RL) as (x0 & rn & act & G0 & RC & E). rewrite G in G0. injection G0 as <-.
    assert (b_runner x' = rn) as Er. { rewrite E, run_view, G in G'. injection G' as <-. simpl. now rewrite Nat.eqb_refl. }
    unfold current in *. rewrite Er. inversion RC as [R0|R0|R0|R0|m0 ms R0|m0 ms R0|m0 rest R0|m0 b0 stk rest R0|m0 b0 s0 ss stk rest y Hy Ha R0|m0 b0 s0 ss stk rest y Hy Ha Hr R0|m0 b0 s0 ss stk rest y c0 Hy Ha Hr R0|m0 b0 s0 ss stk rest y e Hy Ha Hr R0|m0 b0 y stk rest Gy Hk R0|m0 b0 stk rest R0|m0 b0 k y ks stk rest Gy Hrun Hs R0|m0 b0 k y ks stk rest Gy Hrun R0|m0 stk c0 rest R0|m0 stk c0 rest e R0]; subst; rewrite <- ?R0 in I; rewrite <- ?H0 in I; rewrite <- ?H1 in I; rewrite <- ?H2 in I; rewrite <- ?H3 in I; try contradiction; auto.
    + left. destruct I as [<-|[]]. simpl. rewrite Nat.eqb_refl. now left.
    + left. destruct I as [<-|[]]. change (In m0 (settled r (map (EvLost r) (m0 :: rest) ++ [EvStop r (Some e)]))). rewrite settled_lost. now left.
    + left. destruct I as [<-|[]]. rewrite settled_lost. now left.
  - right. assert (b_runner x <> RIdle) as NI by (intros E; unfold current in I; rewrite E in I; contradiction).
    destruct (runner_stays _ _ _ _ _ _ H RL G NI) as (x1 & G1 & E1). rewrite G' in G1. injection G1 as <-.
    unfold current in *. now rewrite E1.
Qed.

Lemma sorted_snoc (l : list nat) n : StronglySorted lt l -> (forall k, In k l -> k < n) -> StronglySorted lt (l ++ [n]).
Proof.
  induction l as [|a l IH]; intros S F; simpl; [constructor; auto; constructor|].
  inversion S as [|? ? S' Fa]; subst. constructor.
  - apply IH; auto. intros k I. apply F. now right.
  - apply Forall_app. split; auto. constructor; auto. apply F. now left.
Qed.
Lemma nth_error_Some_lt {A} (l : list A) i x : nth_error l i = Some x -> i < length l.
Proof. intros E. apply nth_error_Some. congruence. Qed.

Lemma tail_kids st r f stk g : stack_ok st r (f :: stk) -> In g stk -> exists p todo, g = FKids p todo.
Proof.
  intros S. remember (f :: stk) as fs. revert f stk Heqfs.
  induction S as [|f0 Hr Hf|f0 p0 todo0 stk0 x pre Hf G E S IH]; intros f stk Eq I; try discriminate.
  - injection Eq as <- <-. contradiction.
  - injection Eq as <- <-. destruct I as [<-|I]; eauto.
Qed.

Lemma top_sub_registered st r x m b s ss stk c rest :
  tree_inv st -> lock_inv st -> get_bus st r = Some x -> b_runner x = RDist m (FSubs b (s :: ss) :: stk) c rest ->
  exists xb, get_bus st b = Some xb /\ In s (b_subs xb) /\ ~ In s ss.
Proof.
  intros T K G R. pose proof (k_stack _ K _ _ G) as S. rewrite R in S. simpl in S.
  destruct (stack_frame _ _ _ _ S (or_introl eq_refl)) as (xb & pre & Gb & _ & E). exists xb. repeat split; auto.
  - rewrite E. apply in_app_iff. right. now left.
  - pose proof (t_subnd _ T _ _ Gb) as ND. rewrite E in ND. apply NoDup_remove_2 in ND. intros J. apply ND. apply in_app_iff; auto.
Qed.

Lemma runner_back l st st' evs r x' m stk c rest :
  step l st = Some (st', evs) -> ~ runner_label l r -> get_bus st' r = Some x' -> b_runner x' = RDist m stk c rest ->
  exists x, get_bus st r = Some x /\ b_runner x = RDist m stk c rest.
Proof.
  intros H RL G' R. destruct (step_runner_inv _ _ _ _ _ _ H G') as [(x & G & [E|[E|(_ & _ & _ & E)]])|E]; try congruence.
  exists x. split; congruence.
Qed.

Lemma once_step l st st' evs tr r :
  tree_inv st -> lock_inv st -> once r st tr -> step l st = Some (st', evs) -> once r st' (tr ++ evs).
Proof.
  intros T K [A I S D] H. pose proof (account_step _ _ _ _ _ r A H) as A'.
  destruct (step_len _ _ _ _ H) as (_ & Len & _).
  constructor; auto.
  - intros s m J. rewrite inbox_app in J. apply in_app_iff in J. destruct J as [J|J].
    + destruct (I _ _ J) as (L & x & G & J'). split; [lia|].
      destruct (step_get _ _ _ _ _ _ H G) as (x' & G'). exists x'. split; auto. eapply in_settled_grow; eauto.
    + apply in_inbox in J. destruct J as (b & J).
      destruct (receive_inv _ _ _ _ _ _ _ _ H J) as (x & ss & stk & rest & y & _ & G & R & N & _ & _ & _ & [(x' & c & G' & R' & E)|(x' & G' & R' & E)]).
      * split; [apply nth_error_Some_lt in N; lia|]. exists x'. split; auto. unfold current. rewrite R'. apply in_app_iff. right. now left.
      * split; [apply nth_error_Some_lt in N; lia|]. exists x'. split; auto. rewrite settled_app, E. apply in_app_iff. left. apply in_app_iff. right. now left.
  - intros s. rewrite inbox_app. destruct (inbox_nil_or r s evs) as [->|(b & m & J)]; [now rewrite app_nil_r|].
    destruct (receive_inv _ _ _ _ _ _ _ _ H J) as (x & ss & stk & rest & y & _ & G & R & N & _ & _ & E & _).
    rewrite E, Nat.eqb_refl, map_app. simpl. apply sorted_snoc; auto.
    intros n J'. apply in_map_iff in J'. destruct J' as (m1 & <- & J1). destruct (I _ _ J1) as (_ & x0 & G0 & J2).
    rewrite G in G0. injection G0 as <-. apply in_app_iff in J2. destruct J2 as [J2|J2].
    + apply (account_lt _ _ _ _ _ _ A G J2). apply in_app_iff. left. unfold current. rewrite R. now left.
    + unfold current in J2. rewrite R in J2. destruct J2 as [<-|[]]. exfalso.
      destruct (top_sub_registered _ _ _ _ _ _ _ _ _ _ T K G R) as (xb & Gb & Ib & _).
      apply (D _ _ _ _ _ _ _ _ G R Gb Ib J1). exists (FSubs b (s :: ss)). split; [now left|]. left. split; auto. now left.
  - intros x' m stk c rest b xb' s G' R' Gb' Is J Ah.
    assert (s < length (s_subs st)) as Ls.
    { rewrite inbox_app in J. apply in_app_iff in J. destruct J as [J|J]; [now apply I in J|].
      apply in_inbox in J. destruct J as (b1 & J). destruct (receive_inv _ _ _ _ _ _ _ _ H J) as (? & ? & ? & ? & ? & _ & _ & _ & N & _).
      eapply nth_error_Some_lt; eauto. }
    destruct (step_subs_inv _ _ _ _ _ _ _ H Gb' Is) as [(xb & Gb & Is0 & _)|(xb & _ & _ & _ & -> & _)]; [|lia].
    apply (ahead_back _ _ _ _ _ _ _ T H (get_lt _ _ _ Gb)) in Ah.
    destruct (runner_label_dec l r) as [RL|RL].
    + destruct (run_inv' _ _ _ _ _ H RL) as (x & rn & act & G & RC & E).
      assert (b_runner x' = rn) as Er. { rewrite E, run_view, G in G'. injection G' as <-. simpl. now rewrite Nat.eqb_refl. }
      rewrite R' in Er. rewrite inbox_app in J. apply in_app_iff in J.
      destruct (b_runner x) as [| | |ms|m0 stk0 c0 rest0] eqn:R.
      1-4: destruct J as [J|J]; [|apply in_inbox in J; destruct J as (b1 & J); destruct (receive_inv _ _ _ _ _ _ _ _ H J) as (x1 & ? & ? & ? & ? & _ & G1 & R1 & _); congruence].
      * inversion RC.
      * inversion RC; subst; discriminate.
      * inversion RC; subst; discriminate.
      * destruct (I _ _ J) as (_ & x0 & G0 & J'). rewrite G in G0. injection G0 as <-.
        assert (In m (pending x)) as P.
        { unfold pending, batch. rewrite R. inversion RC; subst; try discriminate. left. congruence. }
        pose proof (account_lt_cur _ _ _ _ _ _ A G J' P). lia.
      * assert (m0 = m) as ->. { inversion RC; subst; congruence. }
        destruct J as [J|J].
        -- apply (D _ _ _ _ _ _ _ _ G R Gb Is0 J). eapply ahead_run; eauto.
        -- apply in_inbox in J. destruct J as (b1 & J).
           destruct (receive_inv _ _ _ _ _ _ _ _ H J) as (x1 & ss & stk1 & rest1 & y & -> & G1 & R1 & N & _ & _ & _ & Q).
           rewrite G in G1. injection G1 as <-. rewrite R in R1. injection R1 as -> -> ->.
           assert (stk = FSubs b1 ss :: stk1) as ->.
           { destruct Q as [(x2 & c2 & G2 & R2 & _)|(x2 & G2 & R2 & _)]; congruence. }
           destruct (top_sub_registered _ _ _ _ _ _ _ _ _ _ T K G R) as (xb1 & Gb1 & Ib1 & Nss).
           assert (b1 = b) as -> by exact (t_subone _ T _ _ _ _ _ Gb1 Gb Ib1 Is0).
           pose proof (k_stack _ K _ _ G) as Sk. rewrite R in Sk. simpl in Sk.
           destruct Ah as (f & [<-|If] & F).
           ++ simpl in F. destruct F as [[_ F]|[F _]]; auto.
           ++ destruct (tail_kids _ _ _ _ _ Sk If) as (p & todo & ->). destruct F as (k & Ik & B).
              exact (not_again _ _ _ T Sk _ _ _ _ _ eq_refl If Ik B).
    + destruct (runner_back _ _ _ _ _ _ _ _ _ _ H RL G' R') as (x & G & R).
      destruct (proj_other _ _ _ _ _ H RL) as (_ & _ & _ & Ei & _). rewrite (once_same_inbox _ _ _ Ei) in J.
      exact (D _ _ _ _ _ _ _ _ G R Gb Is0 J Ah).
Qed.

Lemma once_all r ls st tr : exec ls init = Some (st, tr) -> once r st tr.
Proof.
  revert ls st tr. apply (exec_trace_ind init (fun st _ tr => once r st tr)).
  - constructor.
    + unfold account. destruct r; simpl; auto.
    + intros s m [].
    + intros s. constructor.
    + intros x m stk c rest b xb s G. destruct r; discriminate.
  - intros ls l st st' tr evs X O H. assert (reach st) as Rc by (exists ls, tr; exact X).
    eapply once_step; eauto using reach_tree, reach_lock.
Qed.

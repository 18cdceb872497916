(** Distribution of one message refines the sequential account. *)
From Coq Require Import String Ascii List Arith ZArith Bool Lia Sorted.
From Verif Require Import Prelude OMap DatagramModel DatagramSpec BusModel BusSpec BusProofs BusTree BusLocks BusLocks2 BusLocks3.
Import ListNotations.
Open Scope list_scope.

Lemma ant_accepts p t : ant_matches p t = true <-> accepts p t.
Proof.
  unfold ant_matches, accepts. destruct (String.eqb_spec t p) as [->|]; [tauto|].
  destruct (String.eqb_spec p "/**/*") as [->|]; [tauto|]. split; [discriminate|]. intros [->| ->]; congruence.
Qed.

(** ** Quiet steps keep the structure *)

Lemma quiet_bus l st st' evs y x :
  step l st = Some (st', evs) -> quiet l -> get_bus st y = Some x ->
  exists x', get_bus st' y = Some x' /\ b_run x' = b_run x /\ b_subs x' = b_subs x /\ b_kids x' = b_kids x.
Proof.
  intros H Q G. destruct (step_delta _ _ _ _ _ _ H G) as (x' & G' & D). exists x'. split; auto.
  repeat split.
  - destruct (d_run _ _ _ _ _ _ D) as [E|[(E & _)|[(E & _)|(i & b & ks & stk & E & _)]]]; auto; subst l; simpl in Q; contradiction.
  - destruct (d_subs _ _ _ _ _ _ D) as [E|[(E & _)|(s & E & _)]]; auto; destruct l; simpl in *; try contradiction; discriminate.
  - destruct (d_kids _ _ _ _ _ _ D) as [E|(n & E & _)]; auto; subst l; simpl in Q; contradiction.
Qed.

Lemma takers_quiet l st st' evs topic ss own :
  step l st = Some (st', evs) -> takers st topic ss own -> takers st' topic ss own.
Proof.
  intros H. induction 1 as [|s y ss l0 N A _ IH|s y ss l0 N A _ IH]; [constructor| |];
    destruct (step_sub _ _ _ _ _ _ H N) as (y' & N' & E & _).
  - eapply tk_yes; eauto. congruence.
  - eapply tk_no; eauto. congruence.
Qed.

Lemma delivers_quiet l st st' evs topic :
  step l st = Some (st', evs) -> quiet l ->
  (forall b ls, delivers st topic b ls -> delivers st' topic b ls) /\
  (forall bs ls, delivers_all st topic bs ls -> delivers_all st' topic bs ls).
Proof.
  intros H Q.
  assert (forall bs ls, delivers_all st topic bs ls -> delivers_all st' topic bs ls) as A.
  { apply (delivers_all_mind st topic (fun b ls => delivers st' topic b ls) (fun bs ls => delivers_all st' topic bs ls)).
    - intros b x G R. destruct (quiet_bus _ _ _ _ _ _ H Q G) as (x' & G' & E1 & E2 & E3).
      apply dl_stopped with x'; auto. congruence.
    - intros b x own bel G R T D ID. destruct (quiet_bus _ _ _ _ _ _ H Q G) as (x' & G' & E1 & E2 & E3).
      apply dl_running with x'; auto; [congruence| |].
      + rewrite E2. eapply takers_quiet; eauto.
      + rewrite E3. auto.
    - constructor.
    - intros. now constructor. }
  split; auto.
  intros b ls D. assert (delivers_all st topic [b] (ls ++ [])) as D' by (repeat constructor; auto).
  apply A in D'. inversion D' as [|? ? l1 l2 D1 D2 E]; subst. inversion D2; subst.
  rewrite !app_nil_r in *. subst. auto.
Qed.

(** ** Determinism of the sequential account *)

Lemma takers_det st topic ss a : takers st topic ss a -> forall b, takers st topic ss b -> a = b.
Proof.
  induction 1; intros b0 T; inversion T; subst; auto.
  - f_equal; auto.
  - congruence.
  - congruence.
Qed.

Lemma delivers_det st topic :
  (forall b l1, delivers st topic b l1 -> forall l2, delivers st topic b l2 -> l1 = l2) /\
  (forall bs l1, delivers_all st topic bs l1 -> forall l2, delivers_all st topic bs l2 -> l1 = l2).
Proof.
  assert (forall bs l1, delivers_all st topic bs l1 -> forall l2, delivers_all st topic bs l2 -> l1 = l2) as A.
  { apply (delivers_all_mind st topic (fun b l1 => forall l2, delivers st topic b l2 -> l1 = l2)
             (fun bs l1 => forall l2, delivers_all st topic bs l2 -> l1 = l2)).
    - intros b x G R l2 D. inversion D; subst; auto. congruence.
    - intros b x own bel G R T D ID l2 D2. inversion D2 as [? x' G' R'|? x' own' bel' G' R' T' D']; subst; [congruence|].
      rewrite G in G'. injection G' as <-. f_equal; auto. f_equal. eapply takers_det; eauto.
    - intros l2 D. now inversion D.
    - intros b bs l1 l2 D1 I1 D2 I2 l3 D3. inversion D3; subst. f_equal; auto. }
  split; auto.
  intros b l1 D1 l2 D2. assert (l1 ++ [] = l2 ++ []) as E.
  { apply (A [b]); repeat constructor; auto. }
  rewrite !app_nil_r in E. auto.
Qed.

(** ** Existence: in a reachable state every bus has a delivery list *)

Lemma takers_ex st topic ss :
  Forall (fun s => s < length (s_subs st)) ss -> exists own, takers st topic ss own.
Proof.
  induction 1 as [|s ss L _ (own & IH)]; [exists []; constructor|].
  destruct (nth_error (s_subs st) s) as [y|] eqn:N; [|apply nth_error_None in N; lia].
  destruct (ant_matches (s_topic y) topic) eqn:A.
  - exists (s :: own). eapply tk_yes; eauto. now apply ant_accepts.
  - exists own. eapply tk_no; eauto. rewrite <- ant_accepts. congruence.
Qed.

Lemma delivers_ex st topic b x : tree_inv st -> get_bus st b = Some x -> exists l, delivers st topic b l.
Proof.
  intros T. remember (length (s_buses st) - b) as n eqn:En. revert b x En.
  induction n as [n IH] using lt_wf_ind. intros b x En G.
  pose proof (get_lt _ _ _ G) as L.
  destruct (b_run x) eqn:R; [|exists []; eapply dl_stopped; eauto].
  destruct (takers_ex st topic (b_subs x)) as (own & TK).
  { apply Forall_forall. intros s I. eapply (t_sublt st T); eauto. }
  assert (forall ks, (forall k, In k ks -> kid st b k) -> exists l, delivers_all st topic ks l) as (l & DA).
  { induction ks as [|k ks IHk]; intros Hk; [exists []; constructor|].
    destruct IHk as (l2 & D2); [intros; apply Hk; simpl; auto|].
    assert (kid st b k) as K by (apply Hk; simpl; auto). apply (t_lt st T) in K.
    destruct (nth_error (s_buses st) k) as [y|] eqn:Gk; [|apply nth_error_None in Gk; lia].
    destruct (IH (length (s_buses st) - k)) with (b := k) (x := y) as (l1 & D1); auto; [lia|].
    exists (l1 ++ l2). now constructor. }
  { intros k I. exists x. split; eauto. }
  exists (map (pair b) own ++ l). eapply dl_running; eauto.
Qed.

(** ** The machine *)

(** What the frames of a stack still have to deliver. *)
Inductive remaining (st : state) (topic : string) : list frame -> list (nat * nat) -> Prop :=
| rm_nil : remaining st topic [] []
| rm_subs b x todo own bel stk l : get_bus st b = Some x -> takers st topic todo own ->
    delivers_all st topic (map snd (b_kids x)) bel -> remaining st topic stk l ->
    remaining st topic (FSubs b todo :: stk) (map (pair b) own ++ bel ++ l)
| rm_lock b x bel stk l : get_bus st b = Some x ->
    delivers_all st topic (map snd (b_kids x)) bel -> remaining st topic stk l ->
    remaining st topic (FLock b :: stk) (bel ++ l)
| rm_kids b todo bel stk l : delivers_all st topic todo bel -> remaining st topic stk l ->
    remaining st topic (FKids b todo :: stk) (bel ++ l).

Lemma remaining_quiet l st st' evs topic stk ls :
  step l st = Some (st', evs) -> quiet l -> remaining st topic stk ls -> remaining st' topic stk ls.
Proof.
  intros H Q. destruct (delivers_quiet _ _ _ _ topic H Q) as [_ DA].
  induction 1 as [|b x todo own bel stk l0 G T D R IH|b x bel stk l0 G D R IH|b todo bel stk l0 D R IH].
  - constructor.
  - destruct (quiet_bus _ _ _ _ _ _ H Q G) as (x' & G' & _ & _ & E). apply rm_subs with x'; auto.
    + eapply takers_quiet; eauto.
    + rewrite E. auto.
  - destruct (quiet_bus _ _ _ _ _ _ H Q G) as (x' & G' & _ & _ & E). apply rm_lock with x'; auto. rewrite E. auto.
  - constructor; auto.
Qed.

Lemma received_app r t1 t2 : received r (t1 ++ t2) = received r t1 ++ received r t2.
Proof. apply flat_map_app. Qed.
Lemma completed_app r t1 t2 : completed r (t1 ++ t2) = completed r t1 ++ completed r t2.
Proof. apply flat_map_app. Qed.

(** Events of a step that is not the step of [r]'s thread do not concern [r]'s distribution. *)
Definition about (r : nat) (e : event) : bool :=
  match e with
  | EvBegin r' _ | EvReceive r' _ _ _ | EvInvoke r' _ _ _ | EvEnd r' _ | EvDrop r' _ | EvLost r' _ | EvStop r' _ => Nat.eqb r' r
  | _ => false
  end.

Lemma other_events l st st' evs r e :
  step l st = Some (st', evs) -> ~ runner_label l r -> In e evs -> about r e = false.
Proof.
  intros H N I. destruct (about r e) eqn:A; auto. exfalso.
  assert (runner_label l r \/ (forall r', runner_label l r' -> r' <> r)) as [R|R].
  { destruct l; simpl in *; try (right; intros r' []; fail); destruct (Nat.eq_dec r0 r); subst; auto; right; intros; subst; auto. }
  - contradiction.
  - destruct l; try (step_cases H; simpl in I;
      repeat match goal with J : _ \/ _ |- _ => destruct J end; subst; simpl in A; try discriminate; try contradiction; fail).
    + destruct (detach_inv _ _ _ _ H) as (ds & ds' & a & _ & D & _). destruct D; simpl in I; try contradiction.
      destruct stk; simpl in I; [destruct I as [<-|[]]; discriminate|contradiction].
    + destruct (run_inv' _ r0 _ _ _ H eq_refl) as (x & rn & act & _ & RC & _).
      specialize (R r0 eq_refl). apply Nat.eqb_neq in R.
      inversion RC; subst; cbn [In] in I; repeat match goal with J : _ \/ _ |- _ => destruct J end; subst; simpl in A; try congruence; try contradiction.
      match goal with J : In e (_ ++ _) |- _ => apply in_app_iff in J as [J|[<-|[]]]; [|simpl in A; congruence] end.
      match goal with J : In e (map _ _) |- _ => apply in_map_iff in J as (q & <- & _) end. simpl in A. congruence.
    + destruct (run_inv' _ r0 _ _ _ H eq_refl) as (x & rn & act & _ & RC & _).
      specialize (R r0 eq_refl). apply Nat.eqb_neq in R. inversion RC; subst.
      apply in_app_iff in I as [J|[<-|[]]]; [|simpl in A; congruence].
      apply in_map_iff in J as (q & <- & _). simpl in A. congruence.
Qed.

Lemma received_other l st st' evs r :
  step l st = Some (st', evs) -> ~ runner_label l r -> received r evs = [] /\ completed r evs = [].
Proof.
  intros H N. pose proof (fun e => other_events _ _ _ _ _ e H N) as O. clear H N.
  induction evs as [|e evs IH]; auto.
  destruct IH as [I1 I2]; [intros e0 I; apply O; simpl; auto|].
  specialize (O e (or_introl eq_refl)). simpl. rewrite I1, I2.
  destruct e; simpl in *; rewrite ?O; auto.
Qed.

(** Other threads' steps leave the thread of [r] where it is (a second Start is not enabled
    while it runs). *)
Lemma runner_stays l st st' evs r x :
  step l st = Some (st', evs) -> ~ runner_label l r -> get_bus st r = Some x -> b_runner x <> RIdle ->
  exists x', get_bus st' r = Some x' /\ b_runner x' = b_runner x.
Proof.
  intros H N G A. destruct (step_delta _ _ _ _ _ _ H G) as (x' & G' & D). exists x'. split; auto.
  destruct (d_runner _ _ _ _ _ _ D) as [E|[E|(_ & _ & E & _)]]; auto; contradiction.
Qed.

Lemma runner_label_dec l r : {runner_label l r} + {~ runner_label l r}.
Proof. destruct l; simpl; auto; apply Nat.eq_dec. Qed.

Lemma rem_subs_inv st t b todo stk ls :
  remaining st t (FSubs b todo :: stk) ls ->
  exists x own bel l, get_bus st b = Some x /\ takers st t todo own /\ delivers_all st t (map snd (b_kids x)) bel /\
    remaining st t stk l /\ ls = map (pair b) own ++ bel ++ l.
Proof. inversion 1; subst; do 4 eexists; eauto 10. Qed.
Lemma rem_lock_inv st t b stk ls :
  remaining st t (FLock b :: stk) ls ->
  exists x bel l, get_bus st b = Some x /\ delivers_all st t (map snd (b_kids x)) bel /\ remaining st t stk l /\ ls = bel ++ l.
Proof. inversion 1; subst; do 3 eexists; eauto 10. Qed.
Lemma rem_kids_inv st t b todo stk ls :
  remaining st t (FKids b todo :: stk) ls ->
  exists bel l, delivers_all st t todo bel /\ remaining st t stk l /\ ls = bel ++ l.
Proof. inversion 1; subst; do 2 eexists; eauto 10. Qed.
Lemma takers_cons_inv st t s ss own :
  takers st t (s :: ss) own -> exists y, nth_error (s_subs st) s = Some y /\
    ((accepts (s_topic y) t /\ exists own', takers st t ss own' /\ own = s :: own') \/ (~ accepts (s_topic y) t /\ takers st t ss own)).
Proof. inversion 1; subst; eexists; split; eauto. Qed.
Lemma delivers_run_inv st t b x l :
  delivers st t b l -> get_bus st b = Some x -> b_run x = true ->
  exists own bel, takers st t (b_subs x) own /\ delivers_all st t (map snd (b_kids x)) bel /\ l = map (pair b) own ++ bel.
Proof. intros D G R. inversion D as [? x' G' R'|? x' own bel G' R' T DA]; subst; rewrite G in G'; injection G' as <-; [congruence|]. eauto. Qed.
Lemma da_cons_inv st t b bs l :
  delivers_all st t (b :: bs) l -> exists l1 l2, delivers st t b l1 /\ delivers_all st t bs l2 /\ l = l1 ++ l2.
Proof. inversion 1; subst; eauto. Qed.

Lemma no_end_lost r m rest e : completed r (map (EvLost r) (m :: rest) ++ [EvStop r (Some e)]) = [].
Proof. unfold completed. rewrite flat_map_app; simpl. rewrite app_nil_r. induction rest; simpl; auto. Qed.

Lemma remaining_run st r x l m stk c rest rn act evs ls :
  get_bus st r = Some x ->
  rcase st r x l (RDist m stk c rest) rn act evs -> remaining st (bm_topic (snd m)) stk ls ->
  (exists stk' c' ls', rn = RDist m stk' c' rest /\ remaining st (bm_topic (snd m)) stk' ls' /\
      (exists a, received r evs = map (fun p => (p, m)) a /\ ls = a ++ ls') /\ completed r evs = []) \/
  (ls = [] /\ rn = RBatch rest /\ evs = [EvEnd r m]) \/
  (rn = RIdle /\ completed r evs = [] /\ exists e, In (EvStop r (Some e)) evs).
Proof.
  intros G R M.
  assert (forall b s ss stk0, remaining st (bm_topic (snd m)) (FSubs b (s :: ss) :: stk0) ls ->
    exists y, nth_error (s_subs st) s = Some y /\
     ((accepts (s_topic y) (bm_topic (snd m)) /\ exists ls', remaining st (bm_topic (snd m)) (FSubs b ss :: stk0) ls' /\ ls = (b, s) :: ls') \/
      (~ accepts (s_topic y) (bm_topic (snd m)) /\ remaining st (bm_topic (snd m)) (FSubs b ss :: stk0) ls))) as SUB.
  { intros b s ss stk0 M0. apply rem_subs_inv in M0 as (xb & own & bel & l0 & Gb & Tk & Da & Rm & ->).
    apply takers_cons_inv in Tk as (y & N & [(A & own' & Tk & ->)|(A & Tk)]); exists y; split; auto; [left|right]; split; auto.
    - exists (map (pair b) own' ++ bel ++ l0). split; auto. eapply rm_subs; eauto.
    - eapply rm_subs; eauto. }
  inversion R; subst; cbn [received completed flat_map about] .
  - right; left. inversion M; subst. auto.
  - left. apply rem_subs_inv in M as (xb & own & bel & l0 & Gb & Tk & Da & Rm & ->). inversion Tk; subst.
    do 3 eexists. split; [reflexivity|]. split; [eapply rm_lock; eauto|]. split; auto. exists []; auto.
  - left. destruct (SUB _ _ _ _ M) as (y0 & N0 & [(A & _)|(A & M')]).
    + exfalso. apply ant_accepts in A. congruence.
    + do 3 eexists. split; [reflexivity|]. split; [exact M'|]. split; auto. exists []; auto.
  - left. destruct (SUB _ _ _ _ M) as (y0 & N0 & [(A & ls' & M' & ->)|(A & M')]).
    + rewrite Nat.eqb_refl. do 3 eexists. split; [reflexivity|]. split; [exact M'|]. split; auto. exists [(b, s)]; auto.
    + exfalso. apply A. apply ant_accepts. congruence.
  - left. destruct (SUB _ _ _ _ M) as (y0 & N0 & [(A & ls' & M' & ->)|(A & M')]).
    + rewrite Nat.eqb_refl. do 3 eexists. split; [reflexivity|]. split; [exact M'|]. split; auto. exists [(b, s)]; auto.
    + exfalso. apply A. apply ant_accepts. congruence.
  - right; right. split; auto. split.
    + apply (no_end_lost r m rest e).
    + exists e. right. apply in_app_iff. simpl; auto.
  - left. apply rem_lock_inv in M as (xb & bel & l0 & Gb & Da & Rm & ->).
    match goal with H : get_bus st b = Some y |- _ => rewrite H in Gb; injection Gb as <- end.
    do 3 eexists. split; [reflexivity|]. split; [eapply rm_kids; eauto|]. split; auto. exists []; auto.
  - left. apply rem_kids_inv in M as (bel & l0 & Da & Rm & ->). inversion Da; subst. do 3 eexists. split; [reflexivity|]. split; [eauto|]. split; auto. exists []; auto.
  - left. apply rem_kids_inv in M as (bel & l0 & Da & Rm & ->). apply da_cons_inv in Da as (l1 & l2 & D1 & D2 & ->).
    destruct (delivers_run_inv _ _ _ y _ D1) as (own & bel & Tk & Da & ->); auto.
    do 3 eexists. split; [reflexivity|]. split; [eapply rm_subs; eauto; eapply rm_kids; eauto|].
    split; auto. exists []. split; auto. simpl. now rewrite <- !app_assoc.
  - left. apply rem_kids_inv in M as (bel & l0 & Da & Rm & ->). apply da_cons_inv in Da as (l1 & l2 & D1 & D2 & ->).
    inversion D1; subst; [|congruence].
    do 3 eexists. split; [reflexivity|]. split; [eapply rm_kids; eauto|]. split; auto. exists []; auto.
  - left. do 3 eexists. split; [reflexivity|]. split; eauto. split; auto. exists []; auto.
  - right; right. split; auto. split.
    + apply (no_end_lost r m rest e).
    + exists e. apply in_app_iff. simpl; auto.
Qed.

(** Quiet execution from inside a distribution: up to its end, exactly the remaining deliveries
    are made. *)
Lemma dist_quiet ls : forall st st' tr r x m stk c rest todo pre post,
  tree_inv st -> exec ls st = Some (st', tr) -> Forall quiet ls ->
  get_bus st r = Some x -> b_runner x = RDist m stk c rest -> remaining st (bm_topic (snd m)) stk todo ->
  tr = pre ++ EvEnd r m :: post -> completed r pre = [] -> (forall e, ~ In (EvStop r (Some e)) pre) ->
  received r pre = map (fun p => (p, m)) todo.
Proof.
  induction ls as [|l ls IH]; intros st st' tr r x m stk c rest todo pre post T H Q G R M E C NS.
  - simpl in H. injection H as <- <-. destruct pre; discriminate.
  - apply exec_cons_inv in H as (st1 & e1 & e2 & S1 & S2 & Etr).
    pose proof (Forall_inv Q) as Ql. pose proof (Forall_inv_tail Q) as Qs.
    pose proof (tree_step _ _ _ _ T S1) as T1.
    assert (completed r e1 = [] -> pre ++ EvEnd r m :: post = e1 ++ e2 -> exists pre', pre = e1 ++ pre' /\ e2 = pre' ++ EvEnd r m :: post) as SPLIT.
    { intros Ce Eq. clear -Ce Eq. revert pre Eq; induction e1 as [|e e1 IHe]; intros pre Eq; simpl in *.
      - exists pre. auto.
      - destruct pre as [|p pre]; simpl in Eq; injection Eq as <- Eq.
        + exfalso. simpl in Ce. rewrite Nat.eqb_refl in Ce. discriminate.
        + destruct (IHe) with (pre := pre) as (pre' & -> & ->); auto.
          * apply app_eq_nil in Ce. tauto.
          * exists pre'. auto. }
    destruct (runner_label_dec l r) as [RL|RL].
    + destruct (run_inv' _ _ _ _ _ S1 RL) as (x0 & rn & act & G0 & RC & Est).
      rewrite G in G0. injection G0 as <-. rewrite R in RC.
      destruct (remaining_run _ _ _ _ _ _ _ _ _ _ _ _ G RC M) as [(stk' & c' & todo' & -> & M' & (a & Ea & ->) & Ce)|[(-> & -> & ->)|(-> & Ce & (e & Ie))]].
      * subst tr. destruct (SPLIT Ce) as (pre' & -> & ->); auto.
        assert (exists x1, get_bus st1 r = Some x1 /\ b_runner x1 = RDist m stk' c' rest) as (x1 & G1 & R1).
        { rewrite Est, run_view, G. simpl. rewrite Nat.eqb_refl. eexists; split; [reflexivity|]. reflexivity. }
        rewrite received_app, Ea, map_app. f_equal.
        rewrite completed_app, Ce in C. simpl in C.
        apply (IH st1 st' (pre' ++ EvEnd r m :: post) r x1 m stk' c' rest todo' pre' post); auto.
        -- eapply remaining_quiet; eauto.
        -- intros e0 I. apply (NS e0). apply in_app_iff; auto.
      * destruct pre as [|p pre]; [reflexivity|]. exfalso. rewrite Etr in E. simpl in E. injection E as Ep _.
        subst p. simpl in C. rewrite Nat.eqb_refl in C. discriminate.
      * exfalso. subst tr. destruct (SPLIT Ce) as (pre' & -> & ->); auto.
        apply (NS e). apply in_app_iff; auto.
    + destruct (received_other _ _ _ _ _ S1 RL) as [Re Ce]. subst tr.
      destruct (SPLIT Ce) as (pre' & -> & ->); auto.
      destruct (runner_stays _ _ _ _ _ _ S1 RL G) as (x1 & G1 & R1); [congruence|].
      rewrite received_app, Re. simpl. rewrite completed_app, Ce in C.
      apply (IH st1 st' (pre' ++ EvEnd r m :: post) r x1 m stk c rest todo pre' post); auto; [congruence| |].
      * eapply remaining_quiet; eauto.
      * intros e0 I. apply (NS e0). apply in_app_iff; auto.
Qed.

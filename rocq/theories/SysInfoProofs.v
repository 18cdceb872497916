From Coq Require Import String List Arith Bool Lia.
From Verif Require Import Prelude OMap DatagramModel DatagramSpec BusModel BusSpec BusProofs BusTree BusLocks BusLocks2 BusLocks3 BusDist BusAccount BusOnce BusFlight BusLockProps
  BusApiProps BusDeliveryProps ActionSpec ActionProofs ActionProps SyncProofs SysInfoModel SysInfoSpec.
Import ListNotations.
Open Scope list_scope.

Lemma by_thread_about r e : by_thread r e = about r e. Proof. reflexivity. Qed.

Lemma exc_eqb_eq a b : exc_eqb a b = true <-> a = b.
Proof.
  destruct a, b; simpl; split; intros H; try discriminate; try reflexivity; try (injection H as ->);
    try (apply String.eqb_eq in H; congruence); try (apply Nat.eqb_eq in H; congruence); try apply String.eqb_refl; try apply Nat.eqb_refl.
Qed.

(** The step of the bus behind a step. *)
Lemma zstep_bus k l z z' evs : zstep k l z = Some (z', evs) ->
  exists l0, step l0 (z_bus z) = Some (z_bus z', evs) /\
    match l with
    | ZBus l1 => l0 = l1 /\ allowed k z l1 = true /\
        z_pc z' = match l1 with LReturn r | LThrow r _ => pc_set (note evs (z_pc z)) r ZBefore | _ => note evs (z_pc z) end
    | ZRespond r => exists p id u d, l0 = LRespond p id reply /\ call_at (z_bus z) r = Some (CallProvider p id u d) /\ zc_answer k u = true /\
        z_pc z r = ZBefore /\ z_pc z' = note evs (pc_set (z_pc z) r (ZFlying (length (s_flights (z_bus z)))))
    end.
Proof.
  destruct l as [l|r]; unfold zstep.
  - destruct (allowed k z l) eqn:A; [|discriminate]. destruct (step l (z_bus z)) as [[st' e]|] eqn:S; [|discriminate].
    intros H. injection H as <- <-. exists l. simpl. auto.
  - destruct (call_at (z_bus z) r) as [c|] eqn:C; [|discriminate]. destruct c as [| |p id u d|]; try discriminate.
    destruct (z_pc z r) eqn:P; try discriminate. destruct (zc_answer k u) eqn:A; [|discriminate].
    destruct (step (LRespond p id reply) (z_bus z)) as [[st' e]|] eqn:S; [|discriminate]. intros H. injection H as <- <-.
    exists (LRespond p id reply). split; [exact S|]. exists p, id, u, d. auto.
Qed.

Lemma zexec_app k ls1 ls2 z z' tr : zexec k (ls1 ++ ls2) z = Some (z', tr) <->
  exists z1 t1 t2, zexec k ls1 z = Some (z1, t1) /\ zexec k ls2 z1 = Some (z', t2) /\ tr = t1 ++ t2.
Proof.
  revert z tr. induction ls1 as [|l ls1 IH]; intros z tr; simpl.
  - split; [intros H; exists z, [], tr; auto|intros (z1 & t1 & t2 & E & H & ->); injection E as <- <-; exact H].
  - destruct (zstep k l z) as [[z1 e1]|]; [|split; [discriminate|intros (? & ? & ? & ? & _); discriminate]]. split.
    + destruct (zexec k (ls1 ++ ls2) z1) as [[z2 e2]|] eqn:E; [|discriminate]. intros H. injection H as <- <-.
      apply IH in E as (z3 & t1 & t2 & E1 & E2 & ->). rewrite E1. exists z3, (e1 ++ t1), t2. rewrite app_assoc. auto.
    + intros (z3 & t1 & t2 & E1 & E2 & ->). destruct (zexec k ls1 z1) as [[z4 e4]|] eqn:E; [|discriminate]. injection E1 as <- <-.
      assert (zexec k (ls1 ++ ls2) z1 = Some (z', e4 ++ t2)) as -> by (apply IH; do 3 eexists; split; [exact E|]; split; [exact E2|reflexivity]). now rewrite app_assoc.
Qed.

(** An execution is one of the bus. *)
Lemma zproj k ls : forall z z' tr, zexec k ls z = Some (z', tr) ->
  exists bl, exec bl (z_bus z) = Some (z_bus z', tr) /\ (forall P, zalways k P ls z -> always P bl (z_bus z)).
Proof.
  induction ls as [|l ls IH]; intros z z' tr H; simpl in H; [injection H as <- <-; exists []; split; auto|].
  destruct (zstep k l z) as [[z1 e1]|] eqn:S; [|discriminate]. destruct (zexec k ls z1) as [[z2 e2]|] eqn:E; [|discriminate]. injection H as <- <-.
  destruct (IH _ _ _ E) as (bl & X & A). destruct (zstep_bus _ _ _ _ _ S) as (l0 & S0 & _). exists (l0 :: bl). split.
  - simpl. rewrite S0, X. reflexivity.
  - intros P (P0 & PA). rewrite S in PA. simpl. split; auto. rewrite S0. auto.
Qed.
Lemma zreach k ls z tr : zexec k ls zinit = Some (z, tr) -> reach (z_bus z).
Proof. intros X. destruct (zproj _ _ _ _ _ X) as (bl & E & _). exists bl, tr. exact E. Qed.
Lemma zreach_exec k ls z z' tr : reach (z_bus z) -> zexec k ls z = Some (z', tr) -> reach (z_bus z').
Proof. intros R X. destruct (zproj _ _ _ _ _ X) as (bl & E & _). eapply reach_exec; eauto. Qed.

(** Where an event happens. *)
Lemma zevent_point k ls : forall z z' ta e tb, zexec k ls z = Some (z', ta ++ e :: tb) ->
  exists ls1 l ls2 z1 z2 t1 e1 e2 t2, ls = ls1 ++ l :: ls2 /\ zexec k ls1 z = Some (z1, t1) /\ zstep k l z1 = Some (z2, e1 ++ e :: e2) /\
    zexec k ls2 z2 = Some (z', t2) /\ ta = t1 ++ e1 /\ tb = e2 ++ t2.
Proof.
  induction ls as [|l ls IH]; intros j j' ta e tb X; [simpl in X; destruct ta; discriminate|].
  cbn [zexec] in X. destruct (zstep k l j) as [[s1 e1]|] eqn:H1; [|discriminate]. destruct (zexec k ls s1) as [[s2 e2]|] eqn:H2; [|discriminate].
  injection X as <- E.
  apply app_eq_app in E. destruct E as (z & [(E1 & E2)|(E1 & E2)]).
  - destruct z as [|z0 z].
    + rewrite app_nil_r in E1. subst e1. simpl in E2. subst e2. destruct (IH s1 s2 [] e tb H2) as (ls1 & l1 & ls2 & n1 & n2 & u1 & f1 & f2 & u2 & -> & X1 & S & X2 & A & ->).
      exists (l :: ls1), l1, ls2, n1, n2, (ta ++ u1), f1, f2, u2. split; [reflexivity|]. split; [cbn [zexec]; rewrite H1, X1; reflexivity|].
      split; auto. split; auto. split; auto. rewrite <- app_assoc, <- A, app_nil_r. reflexivity.
    + injection E2 as <- ->. subst e1. exists [], l, ls, j, s1, [], ta, z, e2. repeat split; auto.
  - subst ta e2. destruct (IH s1 s2 z e tb H2) as (ls1 & l1 & ls2 & n1 & n2 & u1 & f1 & f2 & u2 & -> & X1 & S & X2 & -> & ->).
    exists (l :: ls1), l1, ls2, n1, n2, (e1 ++ u1), f1, f2, u2. split; [reflexivity|]. split; [cbn [zexec]; rewrite H1, X1; reflexivity|].
    repeat split; auto. now rewrite app_assoc.
Qed.

(** ** Inside a callback *)

Lemma call_at_calling st r c : reach st -> (call_at st r = Some c <-> exists b, calling st r b c).
Proof.
  intros Rc. unfold call_at. split.
  - destruct (get_bus st r) as [x|] eqn:G; [|discriminate]. intros H.
    destruct (k_call _ (reach_lock _ Rc) r x c G) as (b & ss & stk & E); [destruct (b_runner x); auto; discriminate|].
    destruct (b_runner x) as [| | | |m stk0 c0 rest] eqn:R; try discriminate. simpl in E. subst. exists b, x, m, ss, stk, rest. auto.
  - intros (b & x & m & ss & stk & rest & G & R). rewrite G, R. reflexivity.
Qed.

(** The event that enters a callback, and the state after it. *)
Lemma zinvoke k l z z' evs e1 e2 r s m c : reach (z_bus z) -> zstep k l z = Some (z', evs) -> evs = e1 ++ EvInvoke r s m c :: e2 ->
  l = ZBus (LRun r) /\ call_at (z_bus z) r = None /\ e2 = [] /\
  exists b x ss stk rest, e1 = [EvReceive r b s m] /\ get_bus (z_bus z') r = Some x /\ b_runner x = RDist m (FSubs b ss :: stk) (Some c) rest.
Proof.
  intros Rc H E. destruct (zstep_bus _ _ _ _ _ H) as (l0 & S & Cs).
  assert (In (EvInvoke r s m c) evs) as I by (rewrite E; apply in_app_iff; right; now left).
  assert (runner_label l0 r) as RL.
  { destruct (runner_label_dec l0 r) as [|NR]; auto. exfalso. pose proof (other_events _ _ _ _ _ _ S NR I) as A. simpl in A. rewrite Nat.eqb_refl in A. discriminate. }
  destruct (run_inv' _ _ _ _ _ S RL) as (x & rn & act & G & RC & Es).
  assert (exists b y ss stk rest, l0 = LRun r /\ evs = [EvReceive r b s m; EvInvoke r s m c] /\ b_runner x = RDist m (FSubs b (s :: ss) :: stk) None rest /\
    rn = RDist m (FSubs b ss :: stk) (Some c) rest /\ nth_error (s_subs (z_bus z)) s = Some y) as (b & y & ss & stk & rest & -> & Ee & Er & -> & N).
  { clear E. inversion RC; subst evs; simpl in I; rewrite ?in_app_iff, ?in_map_iff in I;
      repeat match goal with
             | J : _ \/ _ |- _ => destruct J as [J|J]
             | J : False |- _ => contradiction
             | J : exists _, _ |- _ => destruct J as (? & J & _)
             | J : In _ [] |- _ => contradiction
             | J : In _ [_] |- _ => destruct J as [J|[]]
             end; try discriminate.
    injection I as <- <- <-. subst. do 5 eexists. repeat split; eauto. }
  rewrite E in Ee. destruct e1 as [|a [|a2 [|a3 e1]]]; try discriminate Ee. injection Ee as -> ->.
  assert (l = ZBus (LRun r)) as -> by (destruct l as [l|q]; [now destruct Cs as (-> & _)|now destruct Cs as (? & ? & ? & ? & ? & _)]).
  split; [reflexivity|]. split; [unfold call_at; now rewrite G, Er|]. split; [reflexivity|].
  rewrite Es, run_view, G. simpl. exists b. eexists. exists ss, stk, rest. split; [reflexivity|]. split; [reflexivity|]. simpl. now rewrite Nat.eqb_refl.
Qed.

(** The callback of the thread of [r] ends. *)
Definition ends (r : nat) (l : zlabel) : Prop := l = ZBus (LReturn r) \/ exists e, l = ZBus (LThrow r e).

Lemma zinside_step k l z z' evs r x m stk c rest :
  zstep k l z = Some (z', evs) -> get_bus (z_bus z) r = Some x -> b_runner x = RDist m stk (Some c) rest ->
  (~ ends r l /\ silent r evs /\ exists x', get_bus (z_bus z') r = Some x' /\ b_runner x' = RDist m stk (Some c) rest) \/
  (l = ZBus (LReturn r) /\ evs = [] /\ may_return k z r = true /\ exists x', get_bus (z_bus z') r = Some x' /\ b_runner x' = RDist m stk None rest) \/
  (exists e, l = ZBus (LThrow r e) /\ evs = map (EvLost r) (m :: rest) ++ [EvStop r (Some e)] /\ may_throw k z r e = true).
Proof.
  intros H G R. destruct (zstep_bus _ _ _ _ _ H) as (l0 & S & Cs). destruct (runner_label_dec l0 r) as [RL|NR].
  - assert (l = ZBus l0) as ->.
    { destruct l as [l|q]; [now destruct Cs as (-> & _)|]. destruct Cs as (? & ? & ? & ? & -> & _). destruct RL. }
    destruct (run_inv' _ _ _ _ _ S RL) as (x0 & rn & act & G0 & RC & Es). assert (x0 = x) as -> by congruence. rewrite R in RC.
    destruct Cs as (_ & A & _).
    inversion RC; subst.
    + right; left. split; [reflexivity|]. split; [reflexivity|]. split; [exact A|]. rewrite Es, run_view, G. simpl. eexists. split; [reflexivity|]. simpl. now rewrite Nat.eqb_refl.
    + right; right. exists e. auto.
  - left. split; [|split].
    + intros [-> |(e & ->)]; destruct Cs as (-> & _); now apply NR.
    + intros e I. rewrite by_thread_about. eapply other_events; eauto.
    + destruct (step_delta _ _ _ _ _ _ S G) as (x' & G' & D). exists x'. split; auto.
      destruct (d_runner _ _ _ _ _ _ D) as [E|[E|(_ & _ & E & _)]]; congruence.
Qed.

Lemma silent_app r a b : silent r (a ++ b) <-> silent r a /\ silent r b.
Proof. unfold silent. split; [intros H; split; intros e I; apply H, in_app_iff; auto|intros (A & B) e I; apply in_app_iff in I as [I|I]; auto]. Qed.

Lemma zinside k ls : forall z z' tr r x m stk c rest,
  zexec k ls z = Some (z', tr) -> get_bus (z_bus z) r = Some x -> b_runner x = RDist m stk (Some c) rest ->
  (silent r tr /\ Forall (fun l => ~ ends r l) ls /\ exists x', get_bus (z_bus z') r = Some x' /\ b_runner x' = RDist m stk (Some c) rest) \/
  (exists ls1 l ls2 z1 x1 z2 t1 evs t2, ls = ls1 ++ l :: ls2 /\ zexec k ls1 z = Some (z1, t1) /\ zstep k l z1 = Some (z2, evs) /\ zexec k ls2 z2 = Some (z', t2) /\
    tr = t1 ++ evs ++ t2 /\ silent r t1 /\ Forall (fun l => ~ ends r l) ls1 /\ ends r l /\
    get_bus (z_bus z1) r = Some x1 /\ b_runner x1 = RDist m stk (Some c) rest).
Proof.
  induction ls as [|l ls IH]; intros z z' tr r x m stk c rest X G R; cbn [zexec] in X.
  - injection X as <- <-. left. split; [intros e []|]. split; [constructor|]. eauto.
  - destruct (zstep k l z) as [[z1 e1]|] eqn:S; [|discriminate]. destruct (zexec k ls z1) as [[z2 e2]|] eqn:E; [|discriminate]. injection X as <- <-.
    destruct (zinside_step _ _ _ _ _ _ _ _ _ _ _ S G R) as [(NE & Si & x1 & G1 & R1)|[(-> & _)|(e & -> & _)]].
    + destruct (IH _ _ _ _ _ _ _ _ _ E G1 R1) as [(A & B & C)|(ls1 & l1 & ls2 & za & xa & zb & t1 & ev & t2 & -> & A1 & A2 & A3 & -> & A5 & A6 & A7 & A8)].
      * left. split; [apply silent_app; auto|]. split; [constructor; auto|auto].
      * right. exists (l :: ls1), l1, ls2, za, xa, zb, (e1 ++ t1), ev, t2. split; [reflexivity|]. cbn [zexec]. rewrite S, A1. split; [reflexivity|]. split; auto. split; auto.
        split; [now rewrite app_assoc|]. split; [apply silent_app; auto|]. split; [constructor; auto|auto].
    + right. exists [], (ZBus (LReturn r)), ls, z, x, z1, [], e1, e2. repeat (split; [solve [reflexivity|assumption|constructor|intros ? []]|]). split; [left; reflexivity|auto].
    + right. exists [], (ZBus (LThrow r e)), ls, z, x, z1, [], e1, e2. repeat (split; [solve [reflexivity|assumption|constructor|intros ? []]|]). split; [right; eauto|auto].
Qed.

(** After a callback has returned, the thread goes on with the next subscriber or is through with the message. *)
Lemma going_on k ls : forall z z' tr r x m stk rest,
  zexec k ls z = Some (z', tr) -> get_bus (z_bus z) r = Some x -> b_runner x = RDist m stk None rest ->
  silent r tr \/ exists t1 e t2, tr = t1 ++ e :: t2 /\ silent r t1 /\ ((exists b s, e = EvReceive r b s m) \/ e = EvEnd r m).
Proof.
  induction ls as [|l ls IH]; intros z z' tr r x m stk rest X G R; cbn [zexec] in X.
  - injection X as <- <-. left. intros e [].
  - destruct (zstep k l z) as [[z1 e1]|] eqn:S; [|discriminate]. destruct (zexec k ls z1) as [[z2 e2]|] eqn:E; [|discriminate]. injection X as <- <-.
    destruct (zstep_bus _ _ _ _ _ S) as (l0 & S0 & _).
    assert ((silent r e1 /\ exists x' stk', get_bus (z_bus z1) r = Some x' /\ b_runner x' = RDist m stk' None rest) \/
      exists e t2, e1 = e :: t2 /\ ((exists b s, e = EvReceive r b s m) \/ e = EvEnd r m)) as [(Si & x1 & stk1 & G1 & R1)|(e & t2 & -> & D)].
    { destruct (runner_label_dec l0 r) as [RL|NR].
      - destruct (run_inv' _ _ _ _ _ S0 RL) as (x0 & rn & act & G0 & RC & Es). assert (x0 = x) as -> by congruence. rewrite R in RC.
        assert (forall stk', rn = RDist m stk' None rest -> exists x', get_bus (z_bus z1) r = Some x' /\ b_runner x' = RDist m stk' None rest) as K.
        { intros stk' ->. rewrite Es, run_view, G. simpl. eexists. split; [reflexivity|]. simpl. now rewrite Nat.eqb_refl. }
        inversion RC; subst; try (right; do 2 eexists; split; [reflexivity|]; eauto; fail);
          left; (split; [intros e []|]); destruct (K _ eq_refl) as (x' & A & B); eauto.
      - left. split; [intros e I; rewrite by_thread_about; eapply other_events; eauto|].
        destruct (step_delta _ _ _ _ _ _ S0 G) as (x' & G' & D). exists x', stk. split; auto.
        destruct (d_runner _ _ _ _ _ _ D) as [Er|[Er|(_ & _ & Er & _)]]; congruence. }
    + destruct (IH _ _ _ _ _ _ _ _ E G1 R1) as [Q|(t1 & e & t2 & -> & Q & D)].
      * left. apply silent_app; auto.
      * right. exists (e1 ++ t1), e, t2. split; [now rewrite app_assoc|]. split; [apply silent_app; auto|auto].
    + right. exists [], e, (t2 ++ e2). split; [reflexivity|]. split; [intros ? []|auto].
Qed.

(** ** The lambda's own steps *)

Lemma note_cons e evs f : note (e :: evs) f = note evs (match e with
    | EvFlight i x => fun r => match f r with ZFlying j => if Nat.eqb i j then ZDone x else f r | _ => f r end | _ => f end).
Proof. reflexivity. Qed.

Lemma note_case evs : forall f r, match f r with
  | ZFlying i => note evs f r = ZFlying i \/ exists x, note evs f r = ZDone x /\ In x (returned i evs)
  | p => note evs f r = p
  end.
Proof.
  induction evs as [|e evs IH]; intros f r; [simpl; destruct (f r); auto|].
  rewrite note_cons.
  set (g := match e with EvFlight i x => fun r => match f r with ZFlying j => if Nat.eqb i j then ZDone x else f r | _ => f r end | _ => f end) in *.
  specialize (IH g r). destruct (f r) as [|i|x] eqn:F.
  - assert (g r = ZBefore) as Gr by (unfold g; destruct e; try exact F; now rewrite F). now rewrite Gr in IH.
  - assert (g r = ZFlying i \/ exists x, g r = ZDone x /\ e = EvFlight i x) as [Gr|(x & Gr & ->)].
    { unfold g. destruct e; auto. rewrite F. destruct (Nat.eqb i0 i) eqn:B; auto. apply Nat.eqb_eq in B as ->. right. eauto. }
    + rewrite Gr in IH. destruct IH as [IH|(x & IH & I)]; auto. right. exists x. split; auto. unfold returned. simpl. apply in_app_iff. right. exact I.
    + rewrite Gr in IH. right. exists x. split; auto. unfold returned. simpl. rewrite Nat.eqb_refl. now left.
  - assert (g r = ZDone x) as Gr by (unfold g; destruct e; try exact F; now rewrite F). now rewrite Gr in IH.
Qed.

Lemma pc_set_eq f r x : pc_set f r x r = x. Proof. unfold pc_set. now rewrite Nat.eqb_refl. Qed.
Lemma pc_set_ne f r r' x : r' <> r -> pc_set f r x r' = f r'. Proof. intros N. unfold pc_set. now rewrite (proj2 (Nat.eqb_neq _ _) N). Qed.

(** One step of the program counter of [r]. *)
Lemma pc_step k l z z' evs r : zstep k l z = Some (z', evs) ->
  (ends r l /\ z_pc z' r = ZBefore) \/
  (l = ZRespond r /\ z_pc z r = ZBefore /\ ~ ends r l /\
    (z_pc z' r = ZFlying (length (s_flights (z_bus z))) \/ exists x, z_pc z' r = ZDone x /\ In x (returned (length (s_flights (z_bus z))) evs))) \/
  (l <> ZRespond r /\ ~ ends r l /\ match z_pc z r with
     | ZFlying i => z_pc z' r = ZFlying i \/ exists x, z_pc z' r = ZDone x /\ In x (returned i evs)
     | p => z_pc z' r = p
     end).
Proof.
  intros H. destruct (zstep_bus _ _ _ _ _ H) as (l0 & S & Cs). destruct l as [l|q].
  - destruct Cs as (-> & _ & ->). pose proof (note_case evs (z_pc z) r) as N.
    assert (ZBus l <> ZRespond r) as NZ by discriminate.
    destruct l; try (right; right; split; [exact NZ|]; split; [intros [?|(? & ?)]; discriminate|exact N]).
    + destruct (Nat.eq_dec r0 r) as [->|Ne]; [left; split; [left; reflexivity|apply pc_set_eq]|].
      right; right. split; [exact NZ|]. split; [intros [?|(? & ?)]; congruence|]. rewrite pc_set_ne by auto. exact N.
    + destruct (Nat.eq_dec r0 r) as [->|Ne]; [left; split; [right; eauto|apply pc_set_eq]|].
      right; right. split; [exact NZ|]. split; [intros [?|(? & ?)]; congruence|]. rewrite pc_set_ne by auto. exact N.
  - destruct Cs as (p & id & u & d & -> & _ & _ & P & ->). right. destruct (Nat.eq_dec q r) as [->|Ne].
    + left. split; [reflexivity|]. split; [exact P|]. split; [intros [?|(? & ?)]; discriminate|].
      pose proof (note_case evs (pc_set (z_pc z) r (ZFlying (length (s_flights (z_bus z))))) r) as N. rewrite pc_set_eq in N. exact N.
    + right. split; [congruence|]. split; [intros [?|(? & ?)]; discriminate|].
      pose proof (note_case evs (pc_set (z_pc z) q (ZFlying (length (s_flights (z_bus z))))) r) as N. rewrite pc_set_ne in N by auto. exact N.
Qed.

(** From where the program counter is behind Respond. *)
Lemma pc_history k ls : forall z z' tr r, zexec k ls z = Some (z', tr) -> z_pc z r = ZBefore ->
  z_pc z' r = ZBefore \/
  exists la lb za ta zb ea tb, ls = la ++ ZRespond r :: lb /\ zexec k la z = Some (za, ta) /\ zstep k (ZRespond r) za = Some (zb, ea) /\ zexec k lb zb = Some (z', tb) /\
    tr = ta ++ ea ++ tb /\
    (z_pc z' r = ZFlying (length (s_flights (z_bus za))) \/ exists x, z_pc z' r = ZDone x /\ In x (returned (length (s_flights (z_bus za))) (ea ++ tb))).
Proof.
  induction ls as [|l ls IH] using rev_ind; intros z z' tr r X P.
  - simpl in X. injection X as <- <-. auto.
  - apply zexec_app in X as (z1 & t1 & t2 & X & Y & ->). cbn [zexec] in Y. destruct (zstep k l z1) as [[z2 e2]|] eqn:S; [|discriminate].
    injection Y as <- <-. rewrite app_nil_r.
    destruct (pc_step _ _ _ _ _ r S) as [(_ & A)|[(-> & _ & _ & A)|(_ & _ & A)]].
    + left. exact A.
    + right. exists ls, [], z1, t1, z2, e2, []. cbn [zexec]. rewrite app_nil_r. auto 7.
    + destruct (IH _ _ _ r X P) as [B|(la & lb & za & ta & zb & ea & tb & -> & X1 & S1 & X2 & -> & B)]; [rewrite B in A; auto|].
      right. exists la, (lb ++ [l]), za, ta, zb, ea, (tb ++ e2). split; [now rewrite <- app_assoc|]. split; auto. split; auto.
      split; [apply zexec_app; exists z1, tb, e2; split; auto; cbn [zexec]; rewrite S, app_nil_r; auto|].
      split; [now rewrite !app_assoc|]. rewrite app_assoc, returned_app. destruct B as [B|(x & B & I)]; rewrite B in A.
      * destruct A as [A|(x & A & I)]; auto. right. exists x. split; auto. apply in_app_iff; auto.
      * right. exists x. split; auto. apply in_app_iff; auto.
Qed.

(** Outside the lambda the counter is at its start. *)
Definition pc_ok (k : zconf) (z : zstate) : Prop :=
  forall r, z_pc z r = ZBefore \/ exists p id u d, call_at (z_bus z) r = Some (CallProvider p id u d) /\ zc_answer k u = true.

Lemma call_at_step k l z z' evs r c : zstep k l z = Some (z', evs) -> call_at (z_bus z) r = Some c -> ~ ends r l -> call_at (z_bus z') r = Some c.
Proof.
  intros H C NE. unfold call_at in C. destruct (get_bus (z_bus z) r) as [x|] eqn:G; [|discriminate].
  destruct (b_runner x) as [| | | |m stk c0 rest] eqn:R; try discriminate. subst c0.
  destruct (zinside_step _ _ _ _ _ _ _ _ _ _ _ H G R) as [(_ & _ & x' & G' & R')|[(-> & _)|(e & -> & _)]].
  - unfold call_at. now rewrite G', R'.
  - destruct NE. left. reflexivity.
  - destruct NE. right. eauto.
Qed.

Lemma pc_ok_step k l z z' evs : pc_ok k z -> zstep k l z = Some (z', evs) -> pc_ok k z'.
Proof.
  intros O H r. destruct (pc_step _ _ _ _ _ r H) as [(_ & A)|[(-> & _ & NE & _)|(_ & NE & A)]]; auto.
  - right. destruct (zstep_bus _ _ _ _ _ H) as (l0 & S & (p & id & u & d & -> & C & Z & _)). exists p, id, u, d. split; auto.
    eapply call_at_step; eauto.
  - destruct (O r) as [B|(p & id & u & d & C & Z)]; [left; now rewrite B in A|]. right. exists p, id, u, d. split; auto. eapply call_at_step; eauto.
Qed.
Lemma pc_ok_exec k ls : forall z z' tr, pc_ok k z -> zexec k ls z = Some (z', tr) -> pc_ok k z'.
Proof.
  induction ls as [|l ls IH]; intros z z' tr O X; cbn [zexec] in X; [now injection X as <- <-|].
  destruct (zstep k l z) as [[z1 e1]|] eqn:S; [|discriminate]. destruct (zexec k ls z1) as [[z2 e2]|] eqn:E; [|discriminate]. injection X as <- <-.
  eapply IH; [eapply pc_ok_step; eauto|exact E].
Qed.
Lemma pc_ok_init k : pc_ok k zinit. Proof. intros r. left. reflexivity. Qed.

(** ** Bookkeeping of the bus *)

Lemma new_flight l st st' evs i : step l st = Some (st', evs) -> length (s_flights st') <= i -> handed i evs = [] /\ returned i evs = [].
Proof.
  intros H L. pose proof (step_len _ _ _ _ H) as (_ & _ & _ & _ & _ & LL & _).
  assert (length (s_flights st) <= i) as L0 by lia.
  destruct l; try (step_cases H; split; reflexivity); try (step_cases H; simpl in L; rewrite ?app_length in L; simpl in L;
    assert (length (s_flights st) =? i = false) as Ei by (apply Nat.eqb_neq; lia); unfold handed, returned; simpl; rewrite ?Ei; auto; fail).
  - destruct (detach_inv _ _ _ _ H) as (ds & ds' & a & _ & D & E). destruct D; auto. destruct stk; auto.
  - assert (i0 < length (s_flights st)) as Lt.
    { destruct (nth_error (s_flights st) i0) eqn:N; [eapply nth_error_Some_lt; eauto|]. simpl in H. unfold fly_step in H. rewrite N in H. discriminate. }
    assert (i0 =? i = false) as Ei0 by (apply Nat.eqb_neq; lia).
    destruct (fly_inv _ _ _ _ H) as [(p & d & xp & y & m & N0 & Np & F & Gy & Em & [(Fn & -> & ->)|(Fn & -> & ->)])|[(p & d & xp & N0 & Np & F & -> & ->)|(b & m & y & N0 & Gy & [(Fn & -> & ->)|[(g & Fn & -> & ->)|[(r0 & z & Fn & Gz & -> & ->)|(r0 & Fn & Gz & -> & ->)]]])]];
      unfold handed, returned; simpl; rewrite ?Ei0; auto.
  - simpl in H. destruct (nth_error (s_conss st) c) as [q|]; [|discriminate]. destruct u as [u|]; [|now injection H as <- <-].
    destruct (begin_publish _ _ _) as [[s2 e2]|] eqn:B; [|discriminate]. injection H as <- <-.
    destruct (begin_publish_inv _ _ _ _ _ B) as (w & _ & [(_ & -> & ->)|(_ & -> & ->)]); auto. simpl in L. rewrite app_length in L. simpl in L.
    assert (length (s_flights st) =? i = false) as Ei by (apply Nat.eqb_neq; lia). unfold handed, returned; simpl; rewrite Ei; auto.
  - destruct (run_inv' _ _ _ _ _ H eq_refl) as (x & rn & act & G & RC & E). apply (run_quiet_events _ _ _ _ _ _ _ _ i RC).
  - destruct (run_inv' _ _ _ _ _ H eq_refl) as (x & rn & act & G & RC & E). apply (run_quiet_events _ _ _ _ _ _ _ _ i RC).
Qed.
Lemma new_flights ls : forall st st' tr i, exec ls st = Some (st', tr) -> length (s_flights st') <= i -> handed i tr = [] /\ returned i tr = [].
Proof.
  induction ls as [|l ls IH]; intros st st' tr i X L; [simpl in X; injection X as <- <-; auto|].
  apply exec_cons_inv in X. destruct X as (s1 & e1 & e2 & H1 & H2 & ->). destruct (IH _ _ _ _ H2 L) as (A & B).
  assert (length (s_flights s1) <= length (s_flights st')) as L1.
  { clear - H2. revert s1 e2 H2. induction ls as [|l ls IH]; intros s1 e2 X; [simpl in X; injection X as <- <-; auto|].
    apply exec_cons_inv in X. destruct X as (s2 & f1 & f2 & S1 & S2 & ->). pose proof (step_len _ _ _ _ S1) as (_ & _ & _ & _ & _ & LL & _). specialize (IH _ _ S2). lia. }
  destruct (new_flight _ _ _ _ i H1) as (C & D); [lia|]. rewrite handed_app, returned_app, A, B, C, D. auto.
Qed.

Lemma get_exec ls : forall st st' tr b x, exec ls st = Some (st', tr) -> get_bus st b = Some x -> exists x', get_bus st' b = Some x'.
Proof.
  induction ls as [|l ls IH]; intros st st' tr b x X G; [simpl in X; injection X as <- <-; eauto|].
  apply exec_cons_inv in X. destruct X as (s1 & e1 & e2 & H1 & H2 & ->). destruct (step_delta _ _ _ _ _ _ H1 G) as (x1 & G1 & _). eauto.
Qed.

Lemma NoDup_app_inv_disj {A} (l1 l2 : list A) x : NoDup (l1 ++ l2) -> In x l1 -> In x l2 -> False.
Proof.
  induction l1 as [|a l1 IH]; simpl; [contradiction|]. inversion 1; subst. intros [->|I] J; [|eauto]. match goal with N : ~ _ |- _ => apply N, in_app_iff; auto end.
Qed.

(** No message is settled twice, nor before its distribution is over. *)
Lemma settled_once ls st r m t1 t2 x : exec ls init = Some (st, t1 ++ t2) -> get_bus st r = Some x -> In m (settled r t1) -> In m (settled r t2) -> False.
Proof.
  intros X G I J. destruct (C22_account _ _ _ _ _ X G) as (A & N). rewrite A, settled_app, <- app_assoc in N.
  apply NoDup_app_inv_disj with (x := m) in N; auto. apply in_app_iff; auto.
Qed.
Lemma settled_current ls st r m tr x : exec ls init = Some (st, tr) -> get_bus st r = Some x -> In m (settled r tr) -> In m (current x) -> False.
Proof.
  intros X G I J. destruct (C22_account _ _ _ _ _ X G) as (A & N). rewrite A in N.
  apply NoDup_app_inv_disj with (x := m) in N; auto. apply in_app_iff; auto.
Qed.

(** A provider's subscriber is its own. *)
Definition own_sub (st : state) : Prop := forall p p' y y', nth_error (s_provs st) p = Some y -> nth_error (s_provs st) p' = Some y' -> pr_sub y = pr_sub y' -> p = p'.
Lemma prov_split l st st' evs p y' : step l st = Some (st', evs) -> nth_error (s_provs st') p = Some y' ->
  (exists y, nth_error (s_provs st) p = Some y /\ pr_sub y' = pr_sub y) \/ (p = length (s_provs st) /\ pr_sub y' = length (s_subs st)).
Proof.
  intros H N. destruct (nth_error (s_provs st) p) as [y|] eqn:E.
  - left. destruct (step_prov _ _ _ _ _ _ H E) as (y2 & N2 & Es & _). exists y. split; auto. congruence.
  - right. destruct (prov_new _ _ _ _ _ _ H N E) as (b & t & u & _ & A & _ & _ & B & _). auto.
Qed.
Lemma reach_own st : reach st -> own_sub st.
Proof.
  apply reach_ind; [intros [|?] p' y y'; simpl; discriminate|]. intros l s s' evs Rc O H p p' y y' N N' E.
  assert (forall q z, nth_error (s_provs s) q = Some z -> pr_sub z < length (s_subs s)) as Lt.
  { intros q z Nz. destruct (g_prov _ (reach_range _ Rc) _ _ Nz) as ((w & W) & _). eapply nth_error_Some_lt; eauto. }
  destruct (prov_split _ _ _ _ _ _ H N) as [(y0 & A & A')|(A & A')]; destruct (prov_split _ _ _ _ _ _ H N') as [(y1 & B & B')|(B & B')].
  - eapply O; eauto. congruence.
  - pose proof (Lt _ _ A). lia.
  - pose proof (Lt _ _ B). lia.
  - congruence.
Qed.

(** A provider at work stays so unless someone takes it apart. *)
Definition at_work (st : state) (q s v : nat) : Prop := provider_on st q s /\ exists y, nth_error (s_provs st) q = Some y /\ pr_cb y = Some v.
Lemma at_work_step l st st' evs q s v : reach st -> step l st = Some (st', evs) -> at_work st q s v ->
  l <> LResetProvider q -> (forall b, l <> LDelSub b s) -> (forall u, l <> LSetData s u) -> (forall u, l <> LSetMsg s u) -> at_work st' q s v.
Proof.
  intros Rc H ((y & w & Ny & Es & Nw & Cw) & y1 & Ny1 & Cb) N1 N2 N3 N4. assert (y1 = y) as -> by congruence.
  destruct (step_prov _ _ _ _ _ _ H Ny) as (y' & Ny' & Es' & _ & D).
  destruct (step_sub _ _ _ _ _ _ H Nw) as (w' & Nw' & _ & E).
  assert (s_cb w' = Some (CbProvider q)) as Cw'.
  { destruct E as [E|[(u & E & _)|[(u & E & _)|[(b & E & _)|[(p & z & E & Np & Ep & C)|(c & z & E & Nc & Ec & C)]]]]]; try congruence; try (exfalso; eapply N3; eauto; fail); try (exfalso; eapply N4; eauto; fail); try (exfalso; eapply N2; eauto; fail).
    - rewrite C. do 2 f_equal. eapply (reach_own _ Rc); eauto. congruence.
    - exfalso. destruct (w_cons _ (reach_wired _ Rc) _ _ Nc) as (_ & t & w2 & z2 & A1 & A2 & _).
      destruct (w_prov _ (reach_wired _ Rc) _ _ Ny) as (t' & w3 & z3 & B1 & B2 & _). rewrite Ec in A1. rewrite Es in B1. assert (w2 = w3) as -> by congruence.
      rewrite A2 in B2. symmetry in B2. now apply request_not_response in B2. }
  split; [exists y', w'; repeat split; auto; congruence|]. exists y'. split; auto. destruct D as [D|(D & _)]; [congruence|contradiction].
Qed.
Lemma at_work_exec ls : forall st st' tr q s v, reach st -> exec ls st = Some (st', tr) -> at_work st q s v ->
  ~ In (LResetProvider q) ls -> (forall b, ~ In (LDelSub b s) ls) -> (forall u, ~ In (LSetData s u) ls) -> (forall u, ~ In (LSetMsg s u) ls) -> at_work st' q s v.
Proof.
  induction ls as [|l ls IH]; intros st st' tr q s v Rc X W N1 N2 N3 N4; [simpl in X; injection X as <- <-; auto|].
  apply exec_cons_inv in X. destruct X as (s1 & e1 & e2 & H1 & H2 & ->). apply (IH s1 st' e2 q s v); auto.
  - eapply reach_step; eauto.
  - eapply at_work_step; eauto; intros; intros ->; [apply N1|eapply N2|eapply N3|eapply N4]; now left.
  - intros I. apply N1. now right.
  - intros b I. apply (N2 b). now right.
  - intros u I. apply (N3 u). now right.
  - intros u I. apply (N4 u). now right.
Qed.

Lemma prov_exec ls : forall st st' tr p q, exec ls st = Some (st', tr) -> nth_error (s_provs st) p = Some q ->
  exists q', nth_error (s_provs st') p = Some q' /\ pr_sub q' = pr_sub q /\ pr_pub q' = pr_pub q.
Proof.
  induction ls as [|l ls IH]; intros st st' tr p q X N; [simpl in X; injection X as <- <-; eauto|].
  apply exec_cons_inv in X. destruct X as (s1 & e1 & e2 & H1 & H2 & ->). destruct (step_prov _ _ _ _ _ _ H1 N) as (q1 & N1 & A & B & _).
  destruct (IH _ _ _ _ _ H2 N1) as (q2 & N2 & A2 & B2). exists q2. repeat split; auto; congruence.
Qed.
Lemma pub_exec ls : forall st st' tr p q, exec ls st = Some (st', tr) -> nth_error (s_pubs st) p = Some q ->
  exists q', nth_error (s_pubs st') p = Some q' /\ p_topic q' = p_topic q /\ p_bus q' = p_bus q /\ (p_fn q' = true -> p_fn q = true).
Proof.
  induction ls as [|l ls IH]; intros st st' tr p q X N; [simpl in X; injection X as <- <-; exists q; auto|].
  apply exec_cons_inv in X. destruct X as (s1 & e1 & e2 & H1 & H2 & ->). destruct (step_pub _ _ _ _ _ _ H1 N) as (q1 & N1 & A & B & C).
  destruct (IH _ _ _ _ _ H2 N1) as (q2 & N2 & A2 & B2 & C2). exists q2. repeat split; auto; try congruence.
  intros T. specialize (C2 T). destruct C as [C|(_ & C)]; congruence.
Qed.
Lemma bus_exec ls : forall st st' tr b x, exec ls st = Some (st', tr) -> get_bus st b = Some x ->
  exists x', get_bus st' b = Some x' /\ b_name x' = b_name x /\ (forall t, b_fn x' = Some t -> b_fn x = Some t).
Proof.
  induction ls as [|l ls IH]; intros st st' tr b x X N; [simpl in X; injection X as <- <-; exists x; auto|].
  apply exec_cons_inv in X. destruct X as (s1 & e1 & e2 & H1 & H2 & ->). destruct (step_delta _ _ _ _ _ _ H1 N) as (x1 & N1 & D).
  destruct (IH _ _ _ _ _ H2 N1) as (x2 & N2 & A2 & B2). exists x2. split; auto. split; [rewrite A2; apply (d_name _ _ _ _ _ _ D)|].
  intros t T. specialize (B2 _ T). destruct (d_fn _ _ _ _ _ _ D) as [F|(F & _)]; congruence.
Qed.

Definition asks_none (r : nat) (evs : list event) : Prop := forall e, In e evs -> match e with EvInvoke _ _ _ _ => False | _ => True end.

Lemma ends_step k l z z' evs r : zstep k l z = Some (z', evs) -> ends r l ->
  asks_none r evs /\ call_at (z_bus z') r = None /\
  exists c, call_at (z_bus z) r = Some c /\ (may_return k z r = true \/ exists e, may_throw k z r e = true).
Proof.
  intros H En. destruct (zstep_bus _ _ _ _ _ H) as (l0 & S & Cs).
  assert (exists l1, l = ZBus l1 /\ (l1 = LReturn r \/ exists e, l1 = LThrow r e)) as (l1 & -> & El) by (destruct En as [->|(e & ->)]; eauto).
  destruct Cs as (-> & A & _).
  assert (runner_label l1 r) as RL by (destruct El as [->|(e & ->)]; reflexivity).
  destruct (run_inv' _ _ _ _ _ S RL) as (x & rn & act & G & RC & Es).
  inversion RC; subst; try (destruct El as [El|(? & El)]; discriminate El).
  - split; [intros e []|]. split.
    + unfold call_at. rewrite Es, run_view, G. simpl. now rewrite Nat.eqb_refl.
    + exists c. split; [unfold call_at; rewrite G; match goal with Q : _ = b_runner x |- _ => now rewrite <- Q end|]. left. exact A.
  - split; [|split].
    + intros e0 I. rewrite in_app_iff, in_map_iff in I. destruct I as [(? & <- & _)|[<-|[]]]; exact I.
    + unfold call_at. rewrite Es, run_view, G. simpl. now rewrite Nat.eqb_refl.
    + exists c. split; [unfold call_at; rewrite G; match goal with Q : _ = b_runner x |- _ => now rewrite <- Q end|]. right. exists e. exact A.
Qed.

(** ** Creating things *)

Lemma get_set_same b y st x : get_bus st b = Some x -> get_bus (set_bus b y st) b = Some y.
Proof. intros G. rewrite get_set, Nat.eqb_refl. pose proof (nth_error_Some_lt _ _ _ G) as L. apply Nat.ltb_lt in L. now rewrite ?L, ?G. Qed.

Lemma lpub_fields b t st st' e x : get_bus st b = Some x -> step (LPub b t) st = Some (st', e) ->
  s_subs st' = s_subs st /\ s_provs st' = s_provs st /\ s_pubs st' = s_pubs st ++ [mkPub t b true] /\ exists x', get_bus st' b = Some x' /\ b_subs x' = b_subs x.
Proof.
  intros G H. cbn [step] in H. rewrite G in H. unfold ok in H. injection H as <- _. unfold add_pub, upd_bus. rewrite G.
  repeat (split; [reflexivity|]). eexists. rewrite get_set_pubs. split; [eapply get_set_same; eauto|reflexivity].
Qed.
Lemma lsub_fields b t u st st' e x : get_bus st b = Some x -> step (LSub b t (Some (Some u))) st = Some (st', e) ->
  s_subs st' = s_subs st ++ [mkSub t (Some (CbData (Some u)))] /\ s_provs st' = s_provs st /\ s_pubs st' = s_pubs st /\
  exists x', get_bus st' b = Some x' /\ b_subs x' = b_subs x ++ [length (s_subs st)].
Proof.
  intros G H. cbn [step] in H. rewrite G in H. destruct (b_slock x); [discriminate|]. unfold ok in H. injection H as <- _. unfold add_sub.
  repeat (split; [reflexivity|]). eexists. rewrite get_set_subs. split; [eapply get_set_same; eauto|reflexivity].
Qed.
Lemma lprov_fields b t v st st' e x : get_bus st b = Some x -> step (LProvider b t v) st = Some (st', e) ->
  s_subs st' = s_subs st ++ [mkSub (t ++ "/request") None] /\ s_provs st' = s_provs st ++ [mkProv (length (s_subs st)) (length (s_pubs st)) v] /\
  s_pubs st' = s_pubs st ++ [mkPub (t ++ "/response") b true] /\
  exists x', get_bus st' b = Some x' /\ b_subs x' = b_subs x ++ [length (s_subs st)].
Proof.
  intros G H. cbn [step] in H. rewrite G in H. destruct (b_slock x); [discriminate|]. unfold ok in H. injection H as <- _. unfold add_sub, add_pub, upd_bus.
  rewrite get_set_subs, (get_set_same _ _ _ _ G). repeat (split; [reflexivity|]). eexists. rewrite get_set_provs, get_set_pubs.
  split; [eapply get_set_same; rewrite get_set_subs; eapply get_set_same; eauto|reflexivity].
Qed.
Lemma install_fields q st st' e : step (LInstallProvider q) st = Some (st', e) ->
  exists y w, nth_error (s_provs st) q = Some y /\ nth_error (s_subs st) (pr_sub y) = Some w /\
  s_subs st' = list_set (pr_sub y) (mkSub (s_topic w) (Some (CbProvider q))) (s_subs st) /\ s_provs st' = s_provs st /\ s_pubs st' = s_pubs st /\
  forall b, get_bus st' b = get_bus st b.
Proof.
  intros H. cbn [step] in H. destruct (nth_error (s_provs st) q) as [y|] eqn:N; [|discriminate]. unfold set_cb in H.
  destruct (nth_error (s_subs st) (pr_sub y)) as [w|] eqn:W; [|discriminate]. unfold ok in H. injection H as <- _. exists y, w. auto 10.
Qed.

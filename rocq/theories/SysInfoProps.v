(** C78: the SysInfo plugin. *)
From Coq Require Import String List Arith Bool Lia.
From Verif Require Import Prelude OMap DatagramModel DatagramSpec BusModel BusSpec BusProofs BusTree BusLocks BusLocks2 BusLocks3 BusDist BusAccount BusOnce BusFlight BusLockProps
  BusApiProps BusDeliveryProps ActionSpec ActionProofs ActionProps SyncProofs SysInfoModel SysInfoSpec SysInfoProofs.
Import ListNotations.
Open Scope list_scope.

(** * C78 *)

(** SysInfo's subscriber has been given something other than a string: the bus thread does nothing more before it leaves Start
    with InvalidOperation, losing this message and all behind it. *)
Theorem C78_wrong_type : forall k ls z ta tb r s m u d,
  zexec k ls zinit = Some (z, ta ++ EvInvoke r s m (CallData u d) :: tb) -> zc_log k u = true -> ~ is_string d ->
  silent r tb \/
  exists t1 rest t2, tb = t1 ++ (map (EvLost r) (m :: rest) ++ [EvStop r (Some InvalidOperation)]) ++ t2 /\ silent r t1.
Proof.
  intros k ls z ta tb r s m u d X Lg Ns.
  destruct (zevent_point _ _ _ _ _ _ _ X) as (ls1 & l & ls2 & z1 & z2 & t1 & e1 & e2 & t2 & -> & X1 & S & X2 & -> & ->).
  destruct (zinvoke _ _ _ _ _ _ _ _ _ _ _ (zreach _ _ _ _ X1) S eq_refl) as (_ & _ & -> & b & x & ss & stk & rest & _ & G & R). simpl.
  destruct (zinside _ _ _ _ _ _ _ _ _ _ _ X2 G R) as [(A & _)|(la & l' & lb & za & xa & zb & ua & ev & ub & _ & _ & Sa & _ & -> & Si & _ & En & Ga & Ra)]; auto.
  right. destruct (zinside_step _ _ _ _ _ _ _ _ _ _ _ Sa Ga Ra) as [(NE & _)|[(_ & _ & M & _)|(e & _ & -> & M)]]; [contradiction| |].
  - exfalso. unfold may_return, call_at in M. rewrite Ga, Ra, Lg in M. destruct d as [|v|ts|kvs]; try discriminate. destruct v; try discriminate. apply Ns. eexists. reflexivity.
  - assert (e = InvalidOperation) as ->.
    { unfold may_throw, call_at in M. rewrite Ga, Ra, Lg in M.
      assert (exc_eqb e InvalidOperation = true) as M'; [|now apply exc_eqb_eq in M'].
      destruct d as [|v|ts|kvs]; simpl in M; auto. destruct v; simpl in M; auto. discriminate. }
    exists ua, rest, ub. auto.
Qed.
Print Assumptions C78_wrong_type.

(** Given a string, it goes on with the next subscriber, or is through with the message. *)
Theorem C78_string : forall k ls z ta tb r s m u d,
  zexec k ls zinit = Some (z, ta ++ EvInvoke r s m (CallData u d) :: tb) -> zc_log k u = true -> is_string d ->
  silent r tb \/
  exists t1 e t2, tb = t1 ++ e :: t2 /\ silent r t1 /\ ((exists b s', e = EvReceive r b s' m) \/ e = EvEnd r m).
Proof.
  intros k ls z ta tb r s m u d X Lg (q & ->).
  destruct (zevent_point _ _ _ _ _ _ _ X) as (ls1 & l & ls2 & z1 & z2 & t1 & e1 & e2 & t2 & -> & X1 & S & X2 & -> & ->).
  destruct (zinvoke _ _ _ _ _ _ _ _ _ _ _ (zreach _ _ _ _ X1) S eq_refl) as (_ & _ & -> & b & x & ss & stk & rest & _ & G & R). simpl.
  destruct (zinside _ _ _ _ _ _ _ _ _ _ _ X2 G R) as [(A & _)|(la & l' & lb & za & xa & zb & ua & ev & ub & _ & _ & Sa & Xb & -> & Si & _ & En & Ga & Ra)]; auto.
  destruct (zinside_step _ _ _ _ _ _ _ _ _ _ _ Sa Ga Ra) as [(NE & _)|[(_ & -> & _ & xb & Gb & Rb)|(e & _ & -> & M)]]; [contradiction| |].
  - destruct (going_on _ _ _ _ _ _ _ _ _ _ Xb Gb Rb) as [Q|(v1 & e & v2 & -> & Q & D)]; [left; simpl; now apply silent_app|].
    right. exists (ua ++ v1), e, v2. split; [simpl; now rewrite app_assoc|]. split; [now apply silent_app|auto].
  - exfalso. unfold may_throw, call_at in M. rewrite Ga, Ra, Lg in M. discriminate.
Qed.
Print Assumptions C78_string.

(** So while a SysInfo instance is served, every message on its topic that is completely distributed is a string. *)
Theorem C78_kill : forall k ls0 z0 tr0 ls z tr r b s m,
  zexec k ls0 zinit = Some (z0, tr0) -> (exists x, get_bus (z_bus z0) r = Some x /\ current x = []) ->
  zexec k ls z0 = Some (z, tr) -> zalways k (fun st => serving r b s st /\ logs k s st) ls z0 ->
  In (EvEnd r m) tr -> bm_topic (snd m) = "/sysinfo"%string -> is_string (bm_data (snd m)).
Proof.
  intros k ls0 z0 tr0 ls z tr r b s m X0 Cu X Al Ie Tm.
  pose proof (zreach _ _ _ _ X0) as Rc0. destruct (zproj _ _ _ _ _ X) as (bl & B & AB). specialize (AB _ Al).
  assert (exists y u, nth_error (s_subs (z_bus z0)) s = Some y /\ s_topic y = "/sysinfo"%string /\ s_cb y = Some (CbData (Some u))) as (y & u0 & Ny & Ty & _).
  { destruct ls; destruct Al as ((_ & (y & u & A1 & A2 & A3 & _)) & _); eauto. }
  assert (In (EvReceive r b s m) tr) as Ir.
  { eapply (C20_every bl _ _ tr r b s y Rc0); eauto; [|left; congruence]. clear - AB. revert AB. generalize (z_bus z0). induction bl as [|l bl IH]; intros st (P & Q); split; auto; [tauto|tauto|].
    destruct (step l st) as [[st' ?]|]; auto. }
  apply in_split in Ir as (ta & tb & ->).
  destruct (zevent_point _ _ _ _ _ _ _ X) as (ls1 & l & ls2 & z1 & z2 & t1 & e1 & e2 & t2 & -> & X1 & S & X2 & -> & ->).
  destruct (zstep_bus _ _ _ _ _ S) as (l0 & S0 & _).
  assert (logs k s (z_bus z1)) as (y1 & u & Ny1 & _ & Cb & Lg).
  { clear - X1 Al. revert z0 t1 X1 Al. induction ls1 as [|a ls1 IH]; intros z0 t1 X1 Al.
    - cbn [zexec] in X1. injection X1 as <- <-. destruct ls1 + idtac; apply Al.
    - cbn [zexec] in X1. destruct (zstep k a z0) as [[za ea]|] eqn:Sa; [|discriminate]. destruct (zexec k ls1 za) as [[zb eb]|] eqn:Eb; [|discriminate].
      injection X1 as <- <-. destruct Al as (_ & Al). simpl in Al. rewrite Sa in Al. eapply IH; eauto. }
  destruct (receive_step _ _ _ _ r b s m S0) as (x & ss & stk & rest & x' & _ & G & R & _ & G' & Rv); [apply in_app_iff; right; now left|].
  assert (receive (z_bus z1) s (snd m) = InvCall (CallData u (bm_data (snd m)))) as Er by (unfold receive; now rewrite Ny1, Cb).
  rewrite Er in Rv. destruct Rv as (Ee & R').
  destruct e1 as [|a [|a2 e1]]; [|discriminate|destruct e1; discriminate]. injection Ee as ->.
  assert (is_string (bm_data (snd m)) \/ ~ is_string (bm_data (snd m))) as [|Ns]; auto.
  { destruct (bm_data (snd m)) as [|v|ts|kvs]; try (right; intros (q & Q); discriminate). destruct v; try (right; intros (q & Q); discriminate). left. eexists. reflexivity. }
  exfalso.
  assert (zexec k (ls0 ++ ls1 ++ l :: ls2) zinit = Some (z, (tr0 ++ t1 ++ [EvReceive r b s m]) ++ EvInvoke r s m (CallData u (bm_data (snd m))) :: t2)) as XX.
  { apply zexec_app. do 3 eexists. split; [exact X0|]. split; [exact X|]. simpl. now rewrite <- !app_assoc. }
  assert (exists bz, exec bz init = Some (z_bus z2, tr0 ++ t1 ++ [EvReceive r b s m; EvInvoke r s m (CallData u (bm_data (snd m)))])) as (bz & Bz).
  { assert (zexec k (ls0 ++ ls1 ++ [l]) zinit = Some (z2, tr0 ++ t1 ++ [EvReceive r b s m; EvInvoke r s m (CallData u (bm_data (snd m)))])) as Q.
    { apply zexec_app. do 3 eexists. split; [exact X0|]. split; [|reflexivity]. apply zexec_app. do 3 eexists. split; [exact X1|]. split; [cbn [zexec]; rewrite S; simpl; reflexivity|reflexivity]. }
    destruct (zproj _ _ _ _ _ Q) as (bz & Bz & _). exists bz. exact Bz. }
  assert (In (EvEnd r m) t2) as Ie2.
  { rewrite <- app_assoc in Ie. simpl in Ie. apply in_app_iff in Ie as [Ie|[Ie|[Ie|Ie]]]; try discriminate; auto.
    exfalso. eapply (settled_current bz _ r m); [exact Bz|exact G'| |unfold current; rewrite R'; now left].
    rewrite !settled_app, !in_app_iff. right. left. unfold settled. apply in_flat_map. exists (EvEnd r m). split; auto. simpl. rewrite Nat.eqb_refl. now left. }
  destruct (C78_wrong_type _ _ _ _ _ _ _ _ _ _ XX Lg Ns) as [Q|(v1 & rs & v2 & -> & Q)].
  - specialize (Q _ Ie2). simpl in Q. rewrite Nat.eqb_refl in Q. discriminate.
  - destruct (zproj _ _ _ _ _ XX) as (bz2 & Bz2 & _).
    destruct (zproj _ _ _ _ _ X2) as (bz3 & Bz3 & _). destruct (get_exec _ _ _ _ _ _ Bz3 G') as (xf & Gf).
    apply in_app_iff in Ie2 as [Ie2|Ie2]; [specialize (Q _ Ie2); simpl in Q; rewrite Nat.eqb_refl in Q; discriminate|].
    simpl in Ie2. destruct Ie2 as [Ie2|Ie2]; [discriminate|].
    assert (In m (settled r ((map (EvLost r) rs ++ [EvStop r (Some InvalidOperation)]) ++ v2))) as J.
    { unfold settled. apply in_flat_map. exists (EvEnd r m). split; auto. simpl. rewrite Nat.eqb_refl. now left. }
    eapply (settled_once bz2 _ r m ((tr0 ++ t1 ++ [EvReceive r b s m]) ++ [EvInvoke r s m (CallData u (bm_data (snd m)))] ++ v1 ++ [EvLost r m])); [|exact Gf| |exact J].
    + etransitivity; [exact Bz2|]. f_equal. f_equal. rewrite <- ?app_assoc. simpl. rewrite <- ?app_assoc. reflexivity.
    + rewrite !settled_app, !in_app_iff. right. right. right. unfold settled. simpl. rewrite Nat.eqb_refl. now left.
Qed.
Print Assumptions C78_kill.

(** Nothing but the plugin's own lambdas is tied down: as long as the bus thread of [r] is not inside one of those, whatever the
    bus allows there can happen, in the same way. *)
Theorem C78_others : forall k z r l,
  (forall x m stk c rest, get_bus (z_bus z) r = Some x -> b_runner x = RDist m stk (Some c) rest ->
     match c with CallData u _ => zc_log k u = false | CallProvider _ _ u _ => zc_answer k u = false | _ => True end) ->
  l = LReturn r \/ (exists e, l = LThrow r e) \/ (forall r', l <> LReturn r' /\ forall e, l <> LThrow r' e) ->
  forall st' evs, step l (z_bus z) = Some (st', evs) <-> exists z', zstep k (ZBus l) z = Some (z', evs) /\ z_bus z' = st'.
Proof.
  intros k z r l C L st' evs.
  assert (allowed k z l = true) as Al.
  { assert (forall c, call_at (z_bus z) r = Some c -> match c with CallData u _ => zc_log k u = false | CallProvider _ _ u _ => zc_answer k u = false | _ => True end) as Q.
    { intros c H. unfold call_at in H. destruct (get_bus (z_bus z) r) as [x|] eqn:G; [|discriminate]. destruct (b_runner x) eqn:R; try discriminate.
      subst. eapply C; eauto. }
    destruct L as [->|[(e & ->)|L]]; simpl; unfold may_return, may_throw.
    - destruct (call_at (z_bus z) r) as [c|]; auto. specialize (Q _ eq_refl). destruct c; auto; now rewrite Q.
    - destruct (call_at (z_bus z) r) as [c|]; auto. specialize (Q _ eq_refl). destruct c; auto; now rewrite Q.
    - destruct l; auto; destruct (L r0) as (A & B); [now destruct A|now destruct (B e)]. }
  unfold zstep. rewrite Al. split.
  - intros ->. eexists. split; reflexivity.
  - intros (z' & H & E). destruct (step l (z_bus z)) as [[s1 e1]|]; [|discriminate]. injection H as <- <-. simpl in E. now subst.
Qed.
Print Assumptions C78_others.

(** A request that SysInfo's lambda was entered with, and that has been completely distributed, was answered: unless the provider's
    publisher has been deleted or its bus detached by now, the reply was handed over once, under the id of the request. *)
Theorem C78_answers : forall k ls z ta tb r s m p id u d,
  zexec k ls zinit = Some (z, ta ++ EvInvoke r s m (CallProvider p id u d) :: tb) -> zc_answer k u = true -> In (EvEnd r m) tb ->
  has_id (bm_data (snd m)) id /\
  exists q y x topic, nth_error (s_provs (z_bus z)) p = Some q /\ nth_error (s_pubs (z_bus z)) (pr_pub q) = Some y /\ get_bus (z_bus z) (p_bus y) = Some x /\
    bm_topic (snd m) = (topic ++ "/request")%string /\ p_topic y = (topic ++ "/response")%string /\
    forall t, p_fn y = true -> b_fn x = Some t ->
      exists i, handed i tb = [(t, mkM (b_name x) (topic ++ "/response") (response_of id reply))] /\ returned i tb = [Ok tt].
Proof.
  intros k ls z ta tb r s m p id u d X Za Ie.
  destruct (zproj _ _ _ _ _ X) as (bl & B & _).
  destruct (C37_envelope _ _ _ _ _ _ _ _ _ _ _ B) as (Ed & Hi & _). subst d. split; [exact Hi|].
  destruct (invoke_point _ _ _ _ _ _ _ _ B) as (b1 & b2 & st1 & st2 & u1 & u2 & bb & xx & w & -> & B1 & H & B2 & _ & _ & _ & Nw & Ac & Rv).
  destruct (receive_provider _ _ _ _ _ _ _ Rv) as (w' & q1 & Nw' & Ecb & Nq1 & _). assert (w' = w) as -> by congruence.
  assert (reach st1) as Rc1 by (exists b1, u1; exact B1).
  destruct (w_pcb _ (reach_wired _ Rc1) _ _ _ Nw Ecb) as (q2 & Nq2 & Es). assert (q2 = q1) as -> by congruence.
  destruct (w_prov _ (reach_wired _ Rc1) _ _ Nq1) as (topic & w2 & y1 & A1 & A2 & A3 & A4). assert (w2 = w) as -> by congruence.
  assert (bm_topic (snd m) = (topic ++ "/request")%string) as Tm.
  { destruct Ac as [Ac|Ac]; [congruence|]. rewrite A2 in Ac. now apply request_not_all in Ac. }
  assert (exists q y x, nth_error (s_provs (z_bus z)) p = Some q /\ nth_error (s_pubs (z_bus z)) (pr_pub q) = Some y /\ get_bus (z_bus z) (p_bus y) = Some x /\
    p_topic y = (topic ++ "/response")%string) as (q & y & x & Nq & Ny & Gx & Ty).
  { assert (exec (LRun r :: b2) st1 = Some (z_bus z, [EvReceive r bb s m; EvInvoke r s m (CallProvider p id u (bm_data (snd m)))] ++ u2)) as BB by (cbn [exec]; now rewrite H, B2).
    destruct (prov_exec _ _ _ _ _ _ BB Nq1) as (q & Nq & _ & Eq). destruct (pub_exec _ _ _ _ _ _ BB A3) as (y & Ny & Ty & _).
    rewrite <- Eq in Ny. destruct (g_pub _ (reach_range _ (zreach _ _ _ _ X)) _ _ Ny) as (x & Gx). exists q, y, x. repeat split; auto; congruence. }
  exists q, y, x, topic. repeat (split; [assumption|]). intros t Fy Fx.
  destruct (zevent_point _ _ _ _ _ _ _ X) as (ls1 & l & ls2 & z1 & z2 & t1 & e1 & e2 & t2 & -> & X1 & S & X2 & -> & ->).
  destruct (zinvoke _ _ _ _ _ _ _ _ _ _ _ (zreach _ _ _ _ X1) S eq_refl) as (El & Nc & -> & b & xz & ss & stk & rest & -> & G & R). simpl in *.
  assert (z_pc z1 r = ZBefore) as P1.
  { destruct (pc_ok_exec _ _ _ _ _ (pc_ok_init k) X1 r) as [P|(? & ? & ? & ? & P & _)]; congruence. }
  assert (z_pc z2 r = ZBefore) as P2.
  { destruct (pc_step _ _ _ _ _ r S) as [(_ & P)|[(E & _)|(_ & _ & P)]]; [auto|congruence|now rewrite P1 in P]. }
  destruct (zinside _ _ _ _ _ _ _ _ _ _ _ X2 G R) as [(A & _)|(la & l' & lb & za & xa & zb & ua & ev & ub & -> & Xa & Sa & Xb & -> & Si & Fa & En & Ga & Ra)].
  { specialize (A _ Ie). simpl in A. rewrite Nat.eqb_refl in A. discriminate. }
  destruct (zproj _ _ _ _ _ X) as (bx & Bx & _).
  destruct (zinside_step _ _ _ _ _ _ _ _ _ _ _ Sa Ga Ra) as [(NE & _)|[(-> & -> & M & _)|(e & _ & -> & _)]]; [contradiction| |].
  2: { exfalso. apply in_app_iff in Ie as [Ie|Ie]; [specialize (Si _ Ie); simpl in Si; rewrite Nat.eqb_refl in Si; discriminate|].
       simpl in Ie. destruct Ie as [Ie|Ie]; [discriminate|].
       destruct (zproj _ _ _ _ _ X2) as (b3 & B3 & _). destruct (get_exec _ _ _ _ _ _ B3 G) as (xf & Gf).
       eapply (settled_once bx _ r m ((t1 ++ [EvReceive r b s m]) ++ [EvInvoke r s m (CallProvider p id u (bm_data (snd m)))] ++ ua ++ [EvLost r m])); [|exact Gf| |].
       - etransitivity; [exact Bx|]. f_equal. f_equal. rewrite <- ?app_assoc. simpl. rewrite <- ?app_assoc. reflexivity.
       - rewrite !settled_app, !in_app_iff. right. right. right. unfold settled. simpl. rewrite Nat.eqb_refl. now left.
       - unfold settled. apply in_flat_map. exists (EvEnd r m). split; [rewrite <- app_assoc in Ie; exact Ie|]. simpl. rewrite Nat.eqb_refl. now left. }
  unfold may_return, call_at in M. rewrite Ga, Ra, Za in M.
  destruct (pc_history _ _ _ _ _ r Xa P2) as [P|(lc & ld & zc & uc & zd & ed & ud & -> & Xc & Sc & Xd & -> & P)]; [rewrite P in M; discriminate|].
  set (i := length (s_flights (z_bus zc))) in *. destruct P as [P|(o & P & Io)]; [rewrite P in M; discriminate|].
  (* the call Respond is made in *)
  destruct (zinside _ _ _ _ _ _ _ _ _ _ _ Xc G R) as [(_ & _ & xc & Gc & Rc)|(f1 & f2 & f3 & _ & _ & _ & _ & _ & _ & Ef & _ & _ & _ & _ & _ & _ & Ends & _)].
  2: { exfalso. rewrite Forall_forall in Fa. apply (Fa f2); auto. rewrite Ef. apply in_app_iff. left. apply in_app_iff. right. now left. }
  destruct (zstep_bus _ _ _ _ _ Sc) as (l0 & Sc0 & (p' & id' & u' & d' & -> & Cc & _)).
  unfold call_at in Cc. rewrite Gc, Rc in Cc. injection Cc as <- <- <- <-.
  assert (reach (z_bus z2)) as Rc2 by (destruct (zstep_bus _ _ _ _ _ S) as (l2 & S2 & _); eapply reach_step; [exact (zreach _ _ _ _ X1)|exact S2]).
  assert (reach (z_bus zc)) as Rcc by (eapply zreach_exec; [exact Rc2|exact Xc]).
  assert (exists br, exec br (z_bus zd) = Some (z_bus z, ud ++ ub)) as (br & Br).
  { assert (zexec k (ld ++ ZBus (LReturn r) :: lb) zd = Some (z, ud ++ ub)) as Q.
    { apply zexec_app. exists za, ud, ub. split; auto. split; auto. cbn [zexec]. now rewrite Sa, Xb. }
    destruct (zproj _ _ _ _ _ Q) as (br & Br & _). eauto. }
  cbn [step] in Sc0. destruct (nth_error (s_provs (z_bus zc)) p) as [qc|] eqn:Nqc; [|discriminate].
  assert (step (LPublish (pr_pub qc) (response_of id reply)) (z_bus zc) = Some (z_bus zd, ed)) as Sp by exact Sc0.
  destruct (begin_publish_inv _ _ _ _ _ Sc0) as (yc & Nyc & _).
  assert (exec (LPublish (pr_pub qc) (response_of id reply) :: br) (z_bus zc) = Some (z_bus z, ed ++ ud ++ ub)) as BB by (cbn [exec]; now rewrite Sp, Br).
  destruct (prov_exec _ _ _ _ _ _ BB Nqc) as (q' & Nq' & _ & Eq'). assert (q' = q) as -> by congruence.
  destruct (pub_exec _ _ _ _ _ _ BB Nyc) as (y' & Ny' & Ty' & By' & Fy'). rewrite <- Eq' in Ny'. assert (y' = y) as -> by congruence.
  destruct (g_pub _ (reach_range _ Rcc) _ _ Nyc) as (xc2 & Gxc).
  destruct (bus_exec _ _ _ _ _ _ BB Gxc) as (x' & Gx' & Nx & Fx'). rewrite <- By' in Gx'. assert (x' = x) as -> by congruence.
  exists i.
  assert (handed i uc = [] /\ returned i uc = []) as (Hu & Ru).
  { destruct (zproj _ _ _ _ _ Xc) as (bc & Bc & _). eapply new_flights; [exact Bc|]. unfold i. auto. }
  rewrite <- !app_assoc, !handed_app, !returned_app, Hu, Ru. simpl. rewrite <- !handed_app, <- !returned_app.
  destruct (C27_delivered _ _ _ _ t _ _ _ _ _ _ i Rcc Nyc (Fy' Fy) Gxc (Fx' _ Fx) eq_refl Sp Br) as (D1 & D2).
  - rewrite app_assoc, returned_app. intros Q. apply app_eq_nil in Q as (Q & _). rewrite Q in Io. destruct Io.
  - intros (x0 & G0 & F0). rewrite <- By' in G0. congruence.
  - intros (y0 & N0 & F0). rewrite <- Eq' in N0. congruence.
  - rewrite D1, D2, Nx, <- Ty', Ty. auto.
Qed.
Print Assumptions C78_answers.

(** The lambda throws nothing but bad_function_call, and this only if, while it was answering, the publisher was deleted or the bus detached. *)
Theorem C78_throws : forall k ls z tr r p id q y z1 evs ls1 z2 tr1 e z3 evs3,
  zexec k ls zinit = Some (z, tr) -> answering k (z_bus z) r p id ->
  nth_error (s_provs (z_bus z)) p = Some q -> nth_error (s_pubs (z_bus z)) (pr_pub q) = Some y ->
  zstep k (ZRespond r) z = Some (z1, evs) -> zexec k ls1 z1 = Some (z2, tr1) ->
  ~ In (ZBus (LReturn r)) ls1 -> (forall e', ~ In (ZBus (LThrow r e')) ls1) ->
  zstep k (ZBus (LThrow r e)) z2 = Some (z3, evs3) ->
  e = BadFunctionCall /\
  ((~ reset (pr_pub q) (z_bus z) /\ reset (pr_pub q) (z_bus z2)) \/ (~ detached (p_bus y) (z_bus z) /\ detached (p_bus y) (z_bus z2))).
Proof.
  intros k ls z tr r p id q y z1 evs ls1 z2 tr1 e z3 evs3 X (b & u & d & Ca & Za) Nq Ny S X1 NR NT S3.
  pose proof (zreach _ _ _ _ X) as Rc.
  assert (call_at (z_bus z) r = Some (CallProvider p id u d)) as Ct by (apply call_at_calling; eauto).
  destruct (zstep_bus _ _ _ _ _ S) as (l0 & S0 & (p' & id' & u' & d' & -> & Ct' & _ & P & _)). rewrite Ct in Ct'. injection Ct' as <- <- <- <-.
  cbn [step] in S0. rewrite Nq in S0.
  assert (step (LPublish (pr_pub q) (response_of id reply)) (z_bus z) = Some (z_bus z1, evs)) as Sp by exact S0.
  assert (Forall (fun l => ~ ends r l) ls1) as Fa.
  { apply Forall_forall. intros l I [->|(e' & ->)]; [auto|eapply NT; eauto]. }
  assert (zexec k (ZRespond r :: ls1) z = Some (z2, evs ++ tr1)) as XX by (cbn [zexec]; now rewrite S, X1).
  assert (call_at (z_bus z2) r = Some (CallProvider p id u d) /\
    (z_pc z2 r = ZFlying (length (s_flights (z_bus z))) \/ exists o, z_pc z2 r = ZDone o /\ In o (returned (length (s_flights (z_bus z))) (evs ++ tr1)))) as (C2 & P2).
  { clear S3 NR NT XX Sp S0. revert z2 tr1 X1 Fa. induction ls1 as [|l ls1 IH] using rev_ind; intros z2 tr1 X1 Fa.
    - cbn [zexec] in X1. injection X1 as <- <-. rewrite app_nil_r. split; [eapply call_at_step; eauto; intros [Q|(? & Q)]; discriminate|].
      destruct (pc_step _ _ _ _ _ r S) as [([Q|(? & Q)] & _)|[(_ & _ & _ & Q)|(Q & _)]]; [discriminate|discriminate|exact Q|congruence].
    - apply zexec_app in X1 as (za & u1 & u2 & Xa & Xb & ->). apply Forall_app in Fa as (Fa & Fl). inversion Fl as [|? ? NE _]; subst.
      cbn [zexec] in Xb. destruct (zstep k l za) as [[zb eb]|] eqn:Sb; [|discriminate]. injection Xb as <- <-. rewrite app_nil_r.
      destruct (IH _ _ Xa Fa) as (Ca' & Pa). split; [eapply call_at_step; eauto|].
      rewrite app_assoc, returned_app. destruct (pc_step _ _ _ _ _ r Sb) as [(Q & _)|[(-> & Q & _)|(_ & _ & Q)]]; [contradiction| |].
      + exfalso. destruct Pa as [Pa|(o & Pa & _)]; congruence.
      + destruct Pa as [Pa|(o & Pa & I)]; rewrite Pa in Q.
        * destruct Q as [Q|(o & Q & I)]; auto. right. exists o. split; auto. apply in_app_iff; auto.
        * right. exists o. split; auto. apply in_app_iff; auto. }
  destruct (zstep_bus _ _ _ _ _ S3) as (l3 & _ & (-> & A & _)). simpl in A. unfold may_throw in A. rewrite C2, Za in A.
  destruct P2 as [P2|(o & P2 & I)]; rewrite P2 in A; [discriminate|]. destruct o as [|e'| |]; try discriminate. apply exc_eqb_eq in A as ->.
  destruct (zproj _ _ _ _ _ X1) as (bl & Bl & _).
  eapply (C33_only_if_raced (z_bus z) (pr_pub q) y); eauto.
Qed.
Print Assumptions C78_throws.

(** The lambda calls Respond once: every time it has been entered, except the one time it may just be running. *)
Theorem C78_once : forall k ls z tr r, zexec k ls zinit = Some (z, tr) ->
  asked k r tr = responds r ls \/ (asked k r tr = S (responds r ls) /\ exists p id, answering k (z_bus z) r p id).
Proof.
  intros k ls z tr r X.
  assert ((z_pc z r <> ZBefore /\ asked k r tr = responds r ls) \/
    (z_pc z r = ZBefore /\ asked k r tr = S (responds r ls) /\ exists p id u d, call_at (z_bus z) r = Some (CallProvider p id u d) /\ zc_answer k u = true) \/
    (z_pc z r = ZBefore /\ asked k r tr = responds r ls /\ forall p id u d, call_at (z_bus z) r = Some (CallProvider p id u d) -> zc_answer k u = false)) as I.
  2: { destruct I as [(_ & I)|[(_ & I & p & id & u & d & C & Z)|(_ & I & _)]]; auto. right. split; auto.
       apply call_at_calling in C as (b & C); [|eapply zreach; eauto]. exists p, id, b, u, d. auto. }
  revert z tr X. induction ls as [|l ls IH] using rev_ind; intros z tr X.
  { cbn [zexec] in X. injection X as <- <-. right; right. split; auto. split; auto. intros p id u d C. unfold call_at in C. simpl in C. destruct r; discriminate. }
  apply zexec_app in X as (z1 & t1 & t2 & X & Y & ->). cbn [zexec] in Y. destruct (zstep k l z1) as [[z2 e2]|] eqn:S; [|discriminate].
  injection Y as <- <-. rewrite app_nil_r.
  assert (asked k r (t1 ++ e2) = asked k r t1 + asked k r e2) as -> by (unfold asked; now rewrite filter_app, app_length).
  assert (responds r (ls ++ [l]) = responds r ls + responds r [l]) as -> by (unfold responds; now rewrite filter_app, app_length).
  specialize (IH _ _ X). pose proof (zreach _ _ _ _ X) as Rc. pose proof (pc_ok_exec _ _ _ _ _ (pc_ok_init k) X r) as Ok.
  destruct (zstep_bus _ _ _ _ _ S) as (l0 & S0 & Cs).
  assert (asked k r e2 = 0 \/ exists s m p id u d, In (EvInvoke r s m (CallProvider p id u d)) e2 /\ zc_answer k u = true) as [A0|(s & m & p & id & u & d & Ii & Zu)].
  { unfold asked. destruct (filter _ e2) as [|e es] eqn:F; [auto|right]. assert (In e (filter (fun e => match e with EvInvoke r' _ _ (CallProvider _ _ u _) => Nat.eqb r' r && zc_answer k u | _ => false end) e2)) as J by (rewrite F; now left).
    apply filter_In in J as (J & K). destruct e as [| | | | |r' s m c| | | | | | |]; try discriminate. destruct c as [| |p id u d|]; try discriminate.
    apply andb_true_iff in K as (K & K2). apply Nat.eqb_eq in K as ->. exists s, m, p, id, u, d. auto. }
  - (* nobody enters the lambda *)
    rewrite A0, Nat.add_0_r.
    destruct (pc_step _ _ _ _ _ r S) as [(En & P')|[(-> & P & NE & P')|(NR & NE & P')]].
    + (* the callback ends *)
      assert (responds r [l] = 0) as -> by (destruct En as [->|(e & ->)]; reflexivity). rewrite Nat.add_0_r.
      destruct (ends_step _ _ _ _ _ _ S En) as (_ & C' & c & C & M). right; right. split; auto. split; [|intros; congruence].
      destruct IH as [(_ & IH)|[(P & _ & p & id & u & d & Cp & Z)|(_ & IH & _)]]; auto. exfalso.
      unfold may_return, may_throw in M. rewrite Cp, Z, P in M. destruct M as [M|(e & M)]; discriminate.
    + (* it responds *)
      assert (responds r [ZRespond r] = 1) as -> by (unfold responds; simpl; now rewrite Nat.eqb_refl).
      destruct Cs as (p & id & u & d & _ & Cp & Z & _). left. split; [destruct P' as [P'|(o & P' & _)]; congruence|].
      destruct IH as [(P0 & _)|[(_ & IH & _)|(_ & _ & IH)]]; [congruence|lia|]. rewrite (IH _ _ _ _ Cp) in Z. discriminate.
    + assert (responds r [l] = 0) as ->.
      { destruct l as [l|r']; [reflexivity|]. unfold responds. simpl. destruct (Nat.eqb_spec r' r) as [->|]; [congruence|reflexivity]. }
      rewrite Nat.add_0_r. destruct IH as [(P & IH)|[(P & IH & p & id & u & d & Cp & Z)|(P & IH & N)]].
      * left. split; auto. destruct (z_pc z1 r); [congruence| |congruence]. destruct P' as [->|(o & -> & _)]; discriminate.
      * right; left. rewrite P in P'. split; auto. split; auto. exists p, id, u, d. split; auto. eapply call_at_step; eauto.
      * right; right. rewrite P in P'. split; auto. split; auto. intros p id u d C.
        assert (reach (z_bus z2)) as Rc2 by (eapply reach_step; eauto).
        apply call_at_calling in C as (b & C); auto. destruct (calling_back _ _ _ _ _ _ _ Rc S0 C) as [(C0 & _)|(s & m & _ & ->)].
        -- apply (N p id u d). apply call_at_calling; eauto.
        -- destruct (zc_answer k u) eqn:Z; auto. exfalso. unfold asked in A0. simpl in A0. rewrite Nat.eqb_refl, Z in A0. discriminate.
  - (* the lambda is entered *)
    apply in_split in Ii as (e1 & e3 & E). destruct (zinvoke _ _ _ _ _ _ _ _ _ _ _ Rc S E) as (-> & Nc & -> & b & x & ss & stk & rest & -> & G & R).
    subst e2. assert (asked k r ([EvReceive r b s m] ++ [EvInvoke r s m (CallProvider p id u d)]) = 1) as -> by (unfold asked; simpl; now rewrite Nat.eqb_refl, Zu).
    assert (responds r [ZBus (LRun r)] = 0) as -> by reflexivity.
    assert (z_pc z1 r = ZBefore) as P1 by (destruct Ok as [P|(? & ? & ? & ? & P & _)]; congruence).
    right; left. split; [|split].
    + destruct (pc_step _ _ _ _ _ r S) as [(_ & P)|[(Q & _)|(_ & _ & P)]]; [auto|discriminate|now rewrite P1 in P].
    + destruct IH as [(Q & _)|[(_ & _ & ? & ? & ? & ? & Q & _)|(_ & IH & _)]]; [congruence|congruence|lia].
    + exists p, id, u, d. split; auto. unfold call_at. now rewrite G, R.
Qed.
Print Assumptions C78_once.

(** ** The lambdas come to an end *)
Lemma flight_out l st st' evs i x : step l st = Some (st', evs) -> In (EvFlight i x) evs -> x = Ok tt \/ exists e, x = Throw e.
Proof.
  intros H I. destruct l; try (step_cases H; simpl in I; repeat (destruct I as [I|I]; try discriminate I; try (injection I as <- <-; eauto)); try contradiction I; fail).
  - destruct (detach_inv _ _ _ _ H) as (ds & ds' & a & _ & D & E). exfalso. destruct D; simpl in I; try destruct stk; simpl in I; repeat (destruct I as [I|I]; try discriminate I); try contradiction I.
  - exfalso. destruct (run_inv' _ _ _ _ _ H eq_refl) as (y & rn & act & G & RC & E). destruct (run_quiet_events _ _ _ _ _ _ _ _ i RC) as (_ & Q). assert (In x (returned i evs)) as J by (unfold returned; apply in_flat_map; exists (EvFlight i x); split; [exact I|]; simpl; rewrite Nat.eqb_refl; now left). rewrite Q in J. destruct J.
  - exfalso. destruct (run_inv' _ _ _ _ _ H eq_refl) as (y & rn & act & G & RC & E). destruct (run_quiet_events _ _ _ _ _ _ _ _ i RC) as (_ & Q). assert (In x (returned i evs)) as J by (unfold returned; apply in_flat_map; exists (EvFlight i x); split; [exact I|]; simpl; rewrite Nat.eqb_refl; now left). rewrite Q in J. destruct J.
Qed.

Lemma note_flying evs : forall f r i, note evs f r = ZFlying i -> f r = ZFlying i /\ returned i evs = [].
Proof.
  induction evs as [|e evs IH]; intros f r i H; [auto|]. rewrite note_cons in H. destruct (IH _ _ _ H) as (A & B).
  change (e :: evs) with ([e] ++ evs). rewrite returned_app, B, app_nil_r. destruct e; auto.
  destruct (f r) as [|j|x'] eqn:F; try discriminate A. destruct (Nat.eqb_spec i0 j) as [->|Ne]; [discriminate A|]. injection A as <-. split; [reflexivity|].
  unfold returned. simpl. now rewrite (proj2 (Nat.eqb_neq _ _) Ne).
Qed.

Lemma flying_open k ls : forall z tr r i, zexec k ls zinit = Some (z, tr) -> z_pc z r = ZFlying i -> i < length (s_flights (z_bus z)) /\ returned i tr = [].
Proof.
  induction ls as [|l ls IH] using rev_ind; intros z tr r i X P; [cbn in X; injection X as <- <-; discriminate P|].
  apply zexec_app in X as (z1 & t1 & t2 & X1 & X2 & ->). cbn [zexec] in X2. destruct (zstep k l z1) as [[z2 e2]|] eqn:S; [|discriminate X2]. injection X2 as <- <-. rewrite app_nil_r, returned_app.
  destruct (zstep_bus _ _ _ _ _ S) as (l0 & S0 & Cs). pose proof (step_len _ _ _ _ S0) as (_ & _ & _ & _ & _ & L & _). destruct l as [l|q].
  - destruct Cs as (-> & _ & Q).
    assert (note e2 (z_pc z1) r = ZFlying i) as N.
    { rewrite Q in P. destruct l; try exact P; unfold pc_set in P; destruct (Nat.eqb r r0); try discriminate P; exact P. }
    destruct (note_flying _ _ _ _ N) as (A & B). destruct (IH _ _ _ _ X1 A) as (C & D). rewrite B, D. split; [lia|reflexivity].
  - destruct Cs as (p & id & u & d & -> & _ & _ & _ & Q). rewrite Q in P. destruct (note_flying _ _ _ _ P) as (A & B). rewrite B, app_nil_r.
    unfold pc_set in A. destruct (Nat.eqb r q).
    + injection A as <-. cbn [step] in S0. destruct (nth_error (s_provs (z_bus z1)) p) as [y|]; [|discriminate S0].
      destruct (begin_publish_inv _ _ _ _ _ S0) as (w & _ & [(_ & -> & _)|(_ & -> & _)]); simpl; rewrite app_length; simpl; (split; [lia|]);
        destruct (zproj _ _ _ _ _ X1) as (bl & B1 & _); apply (new_flights _ _ _ _ _ B1); auto.
    + destruct (IH _ _ _ _ X1 A) as (C & D). split; [lia|exact D].
Qed.

Lemma done_out k ls : forall z tr r x, zexec k ls zinit = Some (z, tr) -> z_pc z r = ZDone x -> x = Ok tt \/ exists e, x = Throw e.
Proof.
  induction ls as [|l ls IH] using rev_ind; intros z tr r x X P; [cbn in X; injection X as <- <-; discriminate P|].
  apply zexec_app in X as (z1 & t1 & t2 & X1 & X2 & ->). cbn [zexec] in X2. destruct (zstep k l z1) as [[z2 e2]|] eqn:S; [|discriminate X2]. injection X2 as <- <-.
  destruct (zstep_bus _ _ _ _ _ S) as (l0 & S0 & _).
  assert (forall i, In x (returned i e2) -> x = Ok tt \/ exists e, x = Throw e) as Out.
  { intros i J. unfold returned in J. apply in_flat_map in J as (e & J & K). destruct e; try contradiction K. destruct (Nat.eqb _ _); [|contradiction K]. destruct K as [<-|[]]. eapply flight_out; eauto. }
  destruct (pc_step _ _ _ _ _ r S) as [(_ & Q)|[(_ & _ & _ & [Q|(x' & Q & J)])|(_ & _ & Q)]]; try congruence.
  - assert (x' = x) as -> by congruence. exact (Out _ J).
  - destruct (z_pc z1 r) as [|i|y] eqn:P1; [congruence| |assert (y = x) as -> by congruence; exact (IH _ _ _ _ X1 P1)].
    destruct Q as [Q|(x' & Q & J)]; [congruence|]. assert (x' = x) as -> by congruence. exact (Out _ J).
Qed.

Lemma prov_there ls : forall st tr, exec ls init = Some (st, tr) -> forall r b p id u d, calling st r b (CallProvider p id u d) -> exists q, nth_error (s_provs st) p = Some q.
Proof.
  induction ls as [|l ls IH] using rev_ind; intros st tr X r b p id u d C.
  - injection X as <- <-. destruct C as (x & m & ss & stk & rest & G & _). destruct r; discriminate G.
  - apply exec_snoc_inv in X as (st1 & t1 & e1 & X1 & H & ->).
    assert (reach st1) as Rc by (exists ls, t1; exact X1).
    assert (exists q, nth_error (s_provs st1) p = Some q) as (q & N).
    { destruct (calling_back _ _ _ _ _ _ _ Rc H C) as [(C1 & _)|(s & m & -> & ->)]; [exact (IH _ _ X1 _ _ _ _ _ _ C1)|].
      destruct (invoke_inv _ _ _ _ r s m (CallProvider p id u d) H) as (x & b' & ss & stk & rest & y & x' & _ & _ & _ & _ & _ & Rv & _); [simpl; auto|].
      destruct (receive_provider _ _ _ _ _ _ _ Rv) as (q & y0 & _ & _ & N & _). eauto. }
    assert (exec [l] st1 = Some (st, e1 ++ [])) as X by (cbn [exec]; now rewrite H).
    destruct (prov_exec _ _ _ _ _ _ X N) as (q' & N' & _). eauto.
Qed.

(** A bus thread inside one of SysInfo's lambdas always gets on: it can answer, return or throw, unless it is inside the publication of its
    answer, which is not back yet. *)
Theorem C78_gets_on : forall k ls z tr r b c, zexec k ls zinit = Some (z, tr) -> calling (z_bus z) r b c ->
  (exists i, z_pc z r = ZFlying i /\ i < length (s_flights (z_bus z)) /\ returned i tr = []) \/
  exists l z' evs, (l = ZRespond r \/ l = ZBus (LReturn r) \/ exists e, l = ZBus (LThrow r e)) /\ zstep k l z = Some (z', evs).
Proof.
  intros k ls z tr r b c X C. pose proof (zreach _ _ _ _ X) as Rc.
  assert (call_at (z_bus z) r = Some c) as Ca by (apply call_at_calling; eauto).
  assert (forall l, (l = LReturn r \/ exists e, l = LThrow r e) -> allowed k z l = true -> exists z' evs, zstep k (ZBus l) z = Some (z', evs)) as En.
  { intros l L A. destruct C as (x & m & ss & stk & rest & G & R). unfold zstep. rewrite A.
    destruct L as [->|(e & ->)]; cbn [step]; unfold return_step, throw_step; rewrite G, R; [|destruct (abort _ _ _ _ _ _)]; do 2 eexists; reflexivity. }
  assert (may_return k z r = true -> exists l z' evs, (l = ZRespond r \/ l = ZBus (LReturn r) \/ exists e, l = ZBus (LThrow r e)) /\ zstep k l z = Some (z', evs)) as Ret.
  { intros A. destruct (En (LReturn r)) as (z' & evs & S); [now left|exact A|]. exists (ZBus (LReturn r)), z', evs. auto. }
  assert (forall e, may_throw k z r e = true -> exists l z' evs, (l = ZRespond r \/ l = ZBus (LReturn r) \/ exists e, l = ZBus (LThrow r e)) /\ zstep k l z = Some (z', evs)) as Thr.
  { intros e A. destruct (En (LThrow r e)) as (z' & evs & S); [right; eauto|exact A|]. exists (ZBus (LThrow r e)), z', evs. eauto 6. }
  destruct c as [u m|u d|p id u d|co id u d]; try (right; apply Ret; unfold may_return; now rewrite Ca).
  - right. destruct (zc_log k u) eqn:Zl; [|apply Ret; unfold may_return; now rewrite Ca, Zl]. destruct (get_string d) as [s|e| |] eqn:Gs.
    + apply Ret. unfold may_return. now rewrite Ca, Zl, Gs.
    + apply (Thr e). unfold may_throw. rewrite Ca, Zl, Gs. now apply exc_eqb_eq.
    + exfalso. unfold get_string in Gs. destruct d as [|[]| |]; discriminate Gs.
    + exfalso. unfold get_string in Gs. destruct d as [|[]| |]; discriminate Gs.
  - destruct (zc_answer k u) eqn:Za; [|right; apply Ret; unfold may_return; now rewrite Ca, Za]. destruct (z_pc z r) as [|i|x] eqn:P.
    + right. destruct (zproj _ _ _ _ _ X) as (bl & B & _). destruct (prov_there _ _ _ B _ _ _ _ _ _ C) as (q & N).
      destruct (w_prov _ (reach_wired _ Rc) _ _ N) as (t & s & w & _ & _ & Nw & _).
      assert (exists z' evs, zstep k (ZRespond r) z = Some (z', evs)) as (z' & evs & S).
      { unfold zstep. rewrite Ca, P, Za. cbn [step]. rewrite N. unfold begin_publish. rewrite Nw. destruct (p_fn w); do 2 eexists; reflexivity. }
      exists (ZRespond r), z', evs. auto.
    + left. exists i. split; [reflexivity|]. exact (flying_open _ _ _ _ _ _ X P).
    + right. destruct (done_out _ _ _ _ _ _ X P) as [->|(e & ->)].
      * apply Ret. unfold may_return. now rewrite Ca, Za, P.
      * apply (Thr e). unfold may_throw. rewrite Ca, Za, P. now apply exc_eqb_eq.
Qed.
Print Assumptions C78_gets_on.

(** What Initialize creates. *)
Theorem C78_initialize : forall st b x u v q st' tr, get_bus st b = Some x -> q = length (s_provs st) ->
  exec (initialize b u v q) st = Some (st', tr) ->
  let p := length (s_pubs st) in let s := length (s_subs st) in
  nth_error (s_pubs st') p = Some (mkPub "/sysinfo" b true) /\
  nth_error (s_subs st') s = Some (mkSub "/sysinfo" (Some (CbData (Some u)))) /\
  provider_on st' q (S s) /\ nth_error (s_subs st') (S s) = Some (mkSub "/sysinfoaction/request" (Some (CbProvider q))) /\
  nth_error (s_provs st') q = Some (mkProv (S s) (S p) (Some v)) /\
  nth_error (s_pubs st') (S p) = Some (mkPub "/sysinfoaction/response" b true) /\
  exists x', get_bus st' b = Some x' /\ b_subs x' = b_subs x ++ [s; S s].
Proof.
  intros st b x u v q st' tr G -> X p s. unfold initialize in X.
  apply exec_cons_inv in X. destruct X as (s1 & e1 & t1 & H1 & X & _).
  apply exec_cons_inv in X. destruct X as (s2 & e2 & t2 & H2 & X & _).
  apply exec_cons_inv in X. destruct X as (s3 & e3 & t3 & H3 & X & _).
  apply exec_cons_inv in X. destruct X as (s4 & e4 & t4 & H4 & X & _). simpl in X. injection X as <- _.
  destruct (lpub_fields _ _ _ _ _ _ G H1) as (A1 & B1 & C1 & x1 & G1 & D1).
  destruct (lsub_fields _ _ _ _ _ _ _ G1 H2) as (A2 & B2 & C2 & x2 & G2 & D2).
  destruct (lprov_fields _ _ _ _ _ _ _ G2 H3) as (A3 & B3 & C3 & x3 & G3 & D3).
  destruct (install_fields _ _ _ _ H4) as (y & w & Ny & Nw & A4 & B4 & C4 & G4).
  assert (length (s_subs s2) = S s) as Ls by (rewrite A2, A1, app_length; simpl; unfold s; lia).
  assert (length (s_pubs s2) = S p) as Lp by (rewrite C2, C1, app_length; simpl; unfold p; lia).
  assert (nth_error (s_provs s3) (length (s_provs st)) = Some (mkProv (S s) (S p) (Some v))) as Np.
  { rewrite B3, B2, B1, Ls, Lp. apply nth_snoc_new. }
  rewrite Np in Ny. injection Ny as <-. cbn [pr_sub] in Nw, A4.
  assert (nth_error (s_subs s3) (S s) = Some (mkSub "/sysinfoaction/request" None)) as Ns by (rewrite A3, <- Ls; apply nth_snoc_new).
  rewrite Ns in Nw. injection Nw as <-. cbn [s_topic] in A4.
  assert (nth_error (s_subs s4) (S s) = Some (mkSub "/sysinfoaction/request" (Some (CbProvider (length (s_provs st)))))) as Ns4.
  { rewrite A4. apply list_set_eq. eapply nth_error_Some_lt; eauto. }
  rewrite B4, C4. split; [rewrite C3, C2, C1; apply nth_snoc_old, nth_snoc_new|].
  split; [rewrite A4, list_set_ne by lia; rewrite A3; apply nth_snoc_old; rewrite A2, A1; apply nth_snoc_new|].
  split; [eexists; eexists; split; [rewrite B4; exact Np|]; split; [reflexivity|]; split; [exact Ns4|reflexivity]|].
  split; [exact Ns4|]. split; [exact Np|]. split; [rewrite C3, <- Lp; apply nth_snoc_new|].
  exists x3. rewrite G4. split; auto. rewrite D3, D2, D1, Ls, A1, <- app_assoc. reflexivity.
Qed.
Print Assumptions C78_initialize.

(** Deinitialize leaves the provider in place: until somebody else takes it apart, a request still enters the lambda. *)
Theorem C78_leftover : forall st b s p st1 tr1 q s' v ls st2 tr2 l st3 evs r b' m id,
  reach st -> exec (deinitialize b s p) st = Some (st1, tr1) -> s' <> s ->
  provider_on st q s' -> (exists y, nth_error (s_provs st) q = Some y /\ pr_cb y = Some v) ->
  exec ls st1 = Some (st2, tr2) ->
  ~ In (LResetProvider q) ls -> (forall b0, ~ In (LDelSub b0 s') ls) -> (forall u, ~ In (LSetData s' u) ls) -> (forall u, ~ In (LSetMsg s' u) ls) ->
  step l st2 = Some (st3, evs) -> In (EvReceive r b' s' m) evs -> has_id (bm_data (snd m)) id ->
  evs = [EvReceive r b' s' m; EvInvoke r s' m (CallProvider q id v (bm_data (snd m)))].
Proof.
  intros st b s p st1 tr1 q s' v ls st2 tr2 l st3 evs r b' m id Rc D Ne Po Cb X N1 N2 N3 N4 H I Hi.
  assert (at_work st1 q s' v) as W1.
  { eapply (at_work_exec (deinitialize b s p)); eauto; [split; auto| | | |]; unfold deinitialize; simpl.
    - intros [Q|[Q|[]]]; discriminate.
    - intros b0 [Q|[Q|[]]]; congruence.
    - intros u [Q|[Q|[]]]; discriminate.
    - intros u [Q|[Q|[]]]; discriminate. }
  assert (reach st1) as Rc1 by (eapply reach_exec; eauto).
  destruct (at_work_exec _ _ _ _ _ _ _ Rc1 X W1 N1 N2 N3 N4) as (Po2 & y & Ny & Cy).
  eapply C37_invoked; eauto.
Qed.
Print Assumptions C78_leftover.

(** ** Concrete cases: a root bus with one SysInfo instance (lambdas 1 and 2) and a consumer. *)
Definition ex_conf : zconf := mkConf (Nat.eqb 1) (Nat.eqb 2).
Definition ex_init : list label := LNewRoot "root" :: initialize 0 1 2 0 ++ [LConsumer 0 "/sysinfoaction"; LInstallConsumer 0; LStart 0].
Definition ex_say (d : dg) : list zlabel := map ZBus ([LPublish 0 d; LFly 0; LFly 0] ++ repeat (LRun 0) 4).
Definition ex_said (d : dg) : pubn := (0, mkM "root" "/sysinfo" d).
Definition ex_ask : list zlabel := map ZBus ([LRequest 0 "id1" Emp (Some 9); LFly 0; LFly 0] ++ repeat (LRun 0) 5).
Definition ex_asked : pubn := (0, mkM "root" "/sysinfoaction/request" (request_of "id1" Emp)).

Example C78_wrong_type_case : exists z ta,
  zexec ex_conf (map ZBus ex_init ++ ex_say (Val (DBool true)) ++ [ZBus (LThrow 0 InvalidOperation)]) zinit =
    Some (z, ta ++ EvInvoke 0 0 (ex_said (Val (DBool true))) (CallData 1 (Val (DBool true))) :: [EvLost 0 (ex_said (Val (DBool true))); EvStop 0 (Some InvalidOperation)]) /\
  zc_log ex_conf 1 = true /\ ~ is_string (Val (DBool true)).
Proof.
  do 2 eexists. split; [|split; [reflexivity|intros (s & S); discriminate]].
  match goal with |- ?a = Some (?z, ?t ++ _) => let v := eval vm_compute in a in
    match v with Some (?z', ?t') => let p := eval vm_compute in (firstn (length t' - 3) t') in unify z z'; unify t p end end.
  vm_compute. reflexivity.
Qed.

Example C78_string_case : exists z ta,
  zexec ex_conf (map ZBus ex_init ++ ex_say hello ++ map ZBus (LReturn 0 :: repeat (LRun 0) 6)) zinit =
    Some (z, ta ++ EvInvoke 0 0 (ex_said hello) (CallData 1 hello) :: [EvEnd 0 (ex_said hello)]) /\ zc_log ex_conf 1 = true /\ is_string hello.
Proof.
  do 2 eexists. split; [|split; [reflexivity|eexists; reflexivity]].
  match goal with |- ?a = Some (?z, ?t ++ _) => let v := eval vm_compute in a in
    match v with Some (?z', ?t') => let p := eval vm_compute in (firstn (length t' - 2) t') in unify z z'; unify t p end end.
  vm_compute. reflexivity.
Qed.

(** Checking [zalways] by computation. *)
Fixpoint zalwaysb (k : zconf) (p : state -> bool) (ls : list zlabel) (z : zstate) : bool :=
  p (z_bus z) && match ls with
                 | [] => true
                 | l :: ls' => match zstep k l z with Some (z', _) => zalwaysb k p ls' z' | None => true end
                 end.
Lemma zalwaysb_ok k p (P : state -> Prop) : (forall st, p st = true -> P st) -> forall ls z, zalwaysb k p ls z = true -> zalways k P ls z.
Proof.
  intros Hp. induction ls as [|l ls IH]; intros z H; simpl in H |- *; apply andb_true_iff in H as (H1 & H2); split; auto.
  destruct (zstep k l z) as [[z1 e1]|]; auto.
Qed.
(** One bus, running, with subscriber 0, on "/sysinfo", with lambda 1. *)
Definition ex_okb (st : state) : bool :=
  match s_buses st, s_subs st with
  | [x], q :: _ => b_run x && existsb (Nat.eqb 0) (b_subs x) && String.eqb (s_topic q) "/sysinfo" &&
      match s_cb q with Some (CbData (Some 1)) => true | _ => false end
  | _, _ => false
  end.
Lemma ex_okb_ok st : ex_okb st = true -> serving 0 0 0 st /\ logs ex_conf 0 st.
Proof.
  unfold ex_okb. destruct (s_buses st) as [|x [|]] eqn:Eb; try discriminate. destruct (s_subs st) as [|q qs] eqn:Es; try discriminate.
  intros H. apply andb_true_iff in H as (H & H4). apply andb_true_iff in H as (H & H3). apply andb_true_iff in H as (H1 & H2).
  apply existsb_exists in H2 as (n & I & E). apply Nat.eqb_eq in E. subst n. apply String.eqb_eq in H3. split.
  - split; [exists x; unfold get_bus; rewrite Eb; auto|]. split; [constructor|].
    intros c xc _ Gc. unfold get_bus in Gc. rewrite Eb in Gc. destruct c as [|[|]]; try discriminate. injection Gc as <-. auto.
  - exists q, 1. rewrite Es. repeat split; auto. destruct (s_cb q) as [[|[[|[|]]|]| |]|]; try discriminate. reflexivity.
Qed.

Example C78_kill_case : exists z0 tr0 z tr,
  zexec ex_conf (map ZBus ex_init) zinit = Some (z0, tr0) /\ (exists x, get_bus (z_bus z0) 0 = Some x /\ current x = []) /\
  zexec ex_conf (ex_say hello ++ map ZBus (LReturn 0 :: repeat (LRun 0) 6)) z0 = Some (z, tr) /\
  zalways ex_conf (fun st => serving 0 0 0 st /\ logs ex_conf 0 st) (ex_say hello ++ map ZBus (LReturn 0 :: repeat (LRun 0) 6)) z0 /\
  In (EvEnd 0 (ex_said hello)) tr.
Proof.
  do 4 eexists. split; [vm_compute; reflexivity|]. split; [eexists; split; reflexivity|]. split; [vm_compute; reflexivity|].
  split; [apply (zalwaysb_ok ex_conf ex_okb); [apply ex_okb_ok|vm_compute; reflexivity]|]. vm_compute. auto 40.
Qed.

(** A request is answered and the distribution goes on. *)
Example C78_answers_case : exists z ta tb,
  zexec ex_conf (map ZBus ex_init ++ ex_ask ++ [ZRespond 0] ++ map ZBus ([LFly 1; LFly 1; LReturn 0] ++ repeat (LRun 0) 5)) zinit =
    Some (z, ta ++ EvInvoke 0 1 ex_asked (CallProvider 0 "id1" 2 (request_of "id1" Emp)) :: tb) /\ zc_answer ex_conf 2 = true /\ In (EvEnd 0 ex_asked) tb /\
  handed 1 tb = [(ToQueue 0, mkM "root" "/sysinfoaction/response" (response_of "id1" reply))].
Proof.
  do 3 eexists. split.
  - match goal with |- ?a = Some (?z, ?t ++ _ :: ?u) => let v := eval vm_compute in a in
      match v with Some (?z', ?t') => let p := eval vm_compute in (firstn 13 t') in let q := eval vm_compute in (skipn 14 t') in unify z z'; unify t p; unify u q end end.
    vm_compute. reflexivity.
  - vm_compute. auto 20.
Qed.

(** The bus is detached while the lambda answers. *)
Example C78_throws_case : exists z tr q y z1 evs z2 tr1 z3 evs3,
  zexec ex_conf (map ZBus ex_init ++ ex_ask) zinit = Some (z, tr) /\ answering ex_conf (z_bus z) 0 0 "id1" /\
  nth_error (s_provs (z_bus z)) 0 = Some q /\ nth_error (s_pubs (z_bus z)) (pr_pub q) = Some y /\
  zstep ex_conf (ZRespond 0) z = Some (z1, evs) /\ zexec ex_conf (map ZBus [LFly 1; LDetach 0; LFly 1]) z1 = Some (z2, tr1) /\
  zstep ex_conf (ZBus (LThrow 0 BadFunctionCall)) z2 = Some (z3, evs3) /\ crashes 0 evs3 = [BadFunctionCall].
Proof.
  do 10 eexists. split; [vm_compute; reflexivity|]. split.
  { exists 0, 2, (request_of "id1" Emp). split; [|reflexivity]. do 5 eexists. split; [reflexivity|]. reflexivity. }
  split; [vm_compute; reflexivity|]. split; [vm_compute; reflexivity|]. split; [vm_compute; reflexivity|]. split; [vm_compute; reflexivity|].
  split; [vm_compute; reflexivity|]. vm_compute. reflexivity.
Qed.

(** Before, during and after its answer. *)
Example C78_gets_on_case : exists z tr b c z1 tr1 z2 tr2 z3 evs,
  zexec ex_conf (map ZBus ex_init ++ ex_ask) zinit = Some (z, tr) /\ calling (z_bus z) 0 b c /\ z_pc z 0 = ZBefore /\
  zexec ex_conf [ZRespond 0] z = Some (z1, tr1) /\ z_pc z1 0 = ZFlying 1 /\
  zexec ex_conf (map ZBus [LFly 1; LFly 1]) z1 = Some (z2, tr2) /\ z_pc z2 0 = ZDone (Ok tt) /\
  zstep ex_conf (ZBus (LReturn 0)) z2 = Some (z3, evs).
Proof.
  do 10 eexists. split; [vm_compute; reflexivity|]. split; [do 5 eexists; split; reflexivity|]. split; [vm_compute; reflexivity|]. split; [vm_compute; reflexivity|].
  split; [vm_compute; reflexivity|]. split; [vm_compute; reflexivity|]. split; vm_compute; reflexivity.
Qed.

(** While the lambda runs it is one ahead. *)
Example C78_once_case : exists z tr z' tr',
  zexec ex_conf (map ZBus ex_init ++ ex_ask) zinit = Some (z, tr) /\ asked ex_conf 0 tr = 1 /\ responds 0 (map ZBus ex_init ++ ex_ask) = 0 /\
  zexec ex_conf (map ZBus ex_init ++ ex_ask ++ [ZRespond 0]) zinit = Some (z', tr') /\ asked ex_conf 0 tr' = 1 /\ responds 0 (map ZBus ex_init ++ ex_ask ++ [ZRespond 0]) = 1.
Proof.
  do 4 eexists. split; [vm_compute; reflexivity|]. split; [vm_compute; reflexivity|]. split; [vm_compute; reflexivity|]. split; [vm_compute; reflexivity|].
  split; vm_compute; reflexivity.
Qed.

(** After Deinitialize the lambda is still entered. *)
Example C78_leftover_case : exists st tr x st1 tr1 st2 tr2 st3,
  exec ex_init init = Some (st, tr) /\ get_bus st 0 = Some x /\ b_subs x = [0; 1; 2] /\ provider_on st 0 1 /\
  exec (deinitialize 0 0 0) st = Some (st1, tr1) /\
  exec ([LRequest 0 "id1" Emp (Some 9); LFly 0; LFly 0] ++ repeat (LRun 0) 3) st1 = Some (st2, tr2) /\
  step (LRun 0) st2 = Some (st3, [EvReceive 0 0 1 ex_asked; EvInvoke 0 1 ex_asked (CallProvider 0 "id1" 2 (request_of "id1" Emp))]).
Proof.
  do 8 eexists. split; [vm_compute; reflexivity|]. split; [vm_compute; reflexivity|]. split; [reflexivity|].
  split; [do 2 eexists; split; [vm_compute; reflexivity|]; split; [reflexivity|]; split; vm_compute; reflexivity|].
  split; [vm_compute; reflexivity|]. split; [vm_compute; reflexivity|]. vm_compute. reflexivity.
Qed.

(** Another callback returns although SysInfo is there. *)
Example C78_others_case : exists z tr x m stk c rest z' evs,
  zexec (mkConf (fun u => Nat.eqb u 8) (fun u => Nat.eqb u 9)) (map ZBus ex_init ++ ex_say hello) zinit = Some (z, tr) /\
  get_bus (z_bus z) 0 = Some x /\ b_runner x = RDist m stk (Some c) rest /\ c = CallData 1 hello /\
  zstep (mkConf (fun u => Nat.eqb u 8) (fun u => Nat.eqb u 9)) (ZBus (LReturn 0)) z = Some (z', evs).
Proof.
  do 9 eexists. split; [vm_compute; reflexivity|]. split; [vm_compute; reflexivity|]. split; [vm_compute; reflexivity|]. split; [reflexivity|]. vm_compute. reflexivity.
Qed.

(** Proofs for C96: actions across processes. *)
From Coq Require Import String List Arith ZArith Bool Lia Permutation.
From Verif Require Import Prelude NetProps OMap DatagramModel DatagramSpec DatagramStmt BusModel BusSpec BusProofs BusTree BusLocks2 BusLocks3 BusDist BusAccount BusOnce BusDeliver BusDeliveryProps BusLockProps LinkModel NodeModel NetModel NodeProps ActionSpec ActionProofs ActionProps ClusterModel ClusterSpec ClusterProofs WideSpec WideProofs RemoteSpec.
Import ListNotations.
Open Scope list_scope.

Lemma events_node i T : events_of i T = bus_events (at_node i T).
Proof.
  induction T as [|(j & e) T IH]; [reflexivity|]. change ((j, e) :: T) with ([(j, e)] ++ T). rewrite at_node_app, bus_events_app, <- IH.
  unfold events_of. rewrite flat_map_app. f_equal. cbn. rewrite app_nil_r. destruct (Nat.eqb_spec j i) as [->|]; cbn; destruct e; reflexivity.
Qed.
Lemma events_app i a b : events_of i (a ++ b) = events_of i a ++ events_of i b.
Proof. apply flat_map_app. Qed.
Lemma events_in i e T : In e (events_of i T) <-> In (i, NEv e) T.
Proof. rewrite events_node, in_bus_events, at_node_in. reflexivity. Qed.

(** ** Where topic and data come from *)

Definition issued (ls : list clabel) (m : bmsg) : Prop :=
  published_there ls m \/
  (responded_there ls m /\ exists t, bm_topic m = (t ++ "/response")%string) \/
  (requested_there ls m /\ exists t, bm_topic m = (t ++ "/request")%string).

Lemma issued_same ls m m' : bm_topic m' = bm_topic m -> bm_data m' = bm_data m -> issued ls m -> issued ls m'.
Proof. intros E1 E2. unfold issued, published_there, responded_there, requested_there. now rewrite E1, E2. Qed.
Lemma issued_mono ls ls' m : incl ls ls' -> issued ls m -> issued ls' m.
Proof.
  intros I [(j & [(p & H)|(b & s & H)])|[((j & p & id & d & H & E) & T)|((j & c & id & d & u & H & E) & T)]].
  - left. exists j. left. exists p. auto.
  - left. exists j. right. exists b, s. auto.
  - right; left. split; [|exact T]. exists j, p, id, d. auto.
  - right; right. split; [|exact T]. exists j, c, id, d, u. auto.
Qed.

Lemma bus_labels_in ks l nls : In l (bus_labels ks nls) -> In (NBus l) nls \/ exists k r m lk, In (NReceive k r m) nls /\ l = LPublishMsg (lk_bus lk) (on_receive lk m).
Proof.
  unfold bus_labels. intros I. apply in_flat_map in I as ([x|k r m] & I & J).
  - destruct J as [<-|[]]. auto.
  - right. destruct (nth_error ks k) as [lk|]; [|contradiction]. destruct J as [<-|[]]. exists k, r, m, lk. auto.
Qed.
Lemma received_event ks nls : forall st st' evs k r m, nexec ks nls st = Some (st', evs) -> In (NReceive k r m) nls -> exists f, In (NReceived k r m f) evs.
Proof.
  induction nls as [|l nls IH]; intros st st' evs k r m X I; [destruct I|]. cbn [nexec] in X. destruct (nstep ks l st) as [[s1 e1]|] eqn:N; [|discriminate X]. destruct (nexec ks nls s1) as [[s2 e2]|] eqn:E; [|discriminate X]. injection X as <- <-.
  destruct I as [->|I].
  - cbn [nstep] in N. destruct (nth_error ks k) as [lk|]; [|discriminate N]. destruct (lk_socket lk (sub_socket r)); [|discriminate N]. destruct (step _ st) as [[s e]|]; [|discriminate N]. injection N as <- <-.
    eexists. left. reflexivity.
  - destruct (IH _ _ _ _ _ _ E I) as (f & J). exists f. apply in_app_iff. auto.
Qed.

Lemma sent_issued i ks nls ls m :
  (forall l, In (NBus l) nls -> In (CBus i l) ls) -> (forall k r m0, In (NReceive k r m0) nls -> issued ls m0) ->
  sent (bus_labels ks nls) m -> issued ls m.
Proof.
  intros B R [[(p & I)|(b & I)]|[((p & id & d & I & E) & T)|((c & id & d & u & I & E) & T)]]; apply bus_labels_in in I as [I|(k & r & m0 & lk & I & Q)]; try discriminate Q.
  - left. exists i. left. exists p. auto.
  - left. exists i. right. exists b, (bm_sender m). destruct m; auto.
  - injection Q as _ ->. apply (issued_same _ m0); [reflexivity|reflexivity|eauto].
  - right; left. split; [|exact T]. exists i, p, id, d. auto.
  - right; right. split; [|exact T]. exists i, c, id, d, u. auto.
Qed.

Lemma take_incl {A} p (l : list A) x rest : take p l = Some (x, rest) -> In x l /\ incl rest l.
Proof.
  revert p x rest. induction l as [|a l IH]; intros p x rest E; [destruct p; discriminate E|]. destruct p as [|p]; cbn in E.
  - injection E as <- <-. split; [now left|]. intros y I. now right.
  - destruct (take p l) as [[y r]|] eqn:Q; [|discriminate E]. injection E as <- <-. destruct (IH _ _ _ Q) as (I & J). split; [now right|]. intros z [->|K]; [now left|right; auto].
Qed.

Lemma prov n ls : forall c T, cexec n ls cl_init = Some (c, T) ->
  (forall i k r m, In (i, k, r, m) (cl_wire c) -> issued ls m) /\
  (forall i k r m f, In (i, NReceived k r m f) T -> issued ls m) /\
  (forall i r f p, In (i, NEv (EvAccept r f p)) T -> issued ls (snd p)).
Proof.
  induction ls as [|l ls IH] using rev_ind; intros c T X.
  - cbn in X. injection X as <- <-. repeat split; intros; contradiction.
  - pose proof X as XX. rewrite cexec_app in X. destruct (cexec n ls cl_init) as [[c1 T1]|] eqn:X1; [|discriminate X]. cbn [cexec] in X. destruct (cstep n l c1) as [[c2 T2]|] eqn:C; [|discriminate X].
    injection X as <- <-. rewrite app_nil_r in XX. rewrite ?app_nil_r. destruct (IH _ _ eq_refl) as (W & R & _).
    assert (forall m, issued ls m -> issued (ls ++ [l]) m) as Mo by (intros m; apply issued_mono; intros y I; apply in_app_iff; auto).
    destruct (cstep_inv _ _ _ _ _ C) as (j & nl & st & evs & N & ET & En & K).
    assert (forall i k r m f, In (i, NReceived k r m f) (T1 ++ T2) -> issued (ls ++ [l]) m) as R'.
    { intros i k r m f I. apply in_app_iff in I as [I|I]; [eauto|]. rewrite ET in I. apply in_map_iff in I as (e & Ee & I). injection Ee as <- ->.
      pose proof (nstep_recv _ _ _ _ _ N) as Q. assert (In (f, k, m) (flat_map recv_of evs)) as J by (apply in_flat_map; exists (NReceived k r m f); split; [exact I|now left]).
      rewrite Q in J. destruct K as [(x & _ & -> & _)|(p & k' & r' & m' & rest & _ & -> & Tk & _)]; [destruct J|]. destruct J as [J|[]]. injection J as _ -> ->.
      apply Mo. apply take_incl in Tk as (Tk & _). eapply W; eauto. }
    assert (forall i r f p, In (i, NEv (EvAccept r f p)) (T1 ++ T2) -> issued (ls ++ [l]) (snd p)) as A'.
    { intros i r f p I. destruct (node_run _ _ _ _ XX i) as (nls & A & B). pose proof (nexec_exec _ _ _ _ _ A) as XE.
      eapply sent_issued; [exact B| |].
      - intros k r' m0 J. destruct (received_event _ _ _ _ _ _ _ _ A J) as (f' & J'). apply at_node_in in J'. eapply R'; eauto.
      - destruct (origin_all _ _ _ XE) as (_ & _ & O). apply (O r f p). apply in_bus_events, at_node_in. exact I. }
    split; [|split; [exact R'|exact A']].
    intros i k r m I. assert (In (i, k, r, m) (cl_wire c1) \/ In (i, k, r, m) (flat_map (outgoing n j) evs)) as [J|J].
    { destruct K as [(x & _ & _ & E)|(p & k' & r' & m' & rest & _ & _ & Tk & E)]; rewrite E in I; apply in_app_iff in I as [I|I]; auto. left. apply take_incl in Tk as (_ & Tk). auto. }
    + apply Mo. eauto.
    + apply in_flat_map in J as (e & Ie & J). destruct e as [|k0 r0 root p|]; try contradiction. cbn [outgoing] in J. apply in_map_iff in J as (w & Ew & _). injection Ew as _ _ _ <-.
      assert (In (j, (k0, r0, root, p)) (keys sent_of (T1 ++ T2))) as S.
      { apply (sent_in (T1 ++ T2)). rewrite at_node_app. apply in_app_iff. right. rewrite ET, at_node_same. exact Ie. }
      apply (sent_fan _ _ _ _ XX) in S as ((i' & (root' & p')) & Bx & S). apply fan_in in S as (-> & -> & -> & _).
      apply (beg_in (T1 ++ T2)) in Bx. destruct (node_exec _ _ _ _ XX j) as (ls' & XE). apply (begun_accepted _ _ _ _ XE) in Bx.
      unfold accepted in Bx. apply in_flat_map in Bx as (e & I2 & J2). destruct e; try contradiction. destruct (Nat.eqb root0 root) eqn:Q; [|contradiction]. destruct J2 as [->|[]].
      apply in_bus_events, at_node_in in I2. eapply A'; eauto.
Qed.

Lemma accepted_issued n ls c T i r p : cexec n ls cl_init = Some (c, T) -> In p (accepted r (events_of i T)) -> issued ls (snd p).
Proof.
  intros X I. unfold accepted in I. apply in_flat_map in I as (e & I & J). destruct e; try contradiction. destruct (Nat.eqb root r); [|contradiction]. destruct J as [->|[]].
  apply events_in in I. eapply prov; eauto.
Qed.

(** ** The calls of a subscriber that cannot refuse a message *)

Lemma called_step l st st' evs s (Rl : bmsg -> call -> Prop) :
  (forall m, match receive st s m with InvCall k => Rl m k | InvThrow _ => True | InvSkip => False end) ->
  step l st = Some (st', evs) -> (forall r p, ~ In (EvLost r p) evs) -> Forall2 (fun p k => Rl (snd p) k) (got s evs) (entered s evs).
Proof.
  intros Ar H NL. destruct (got s evs) as [|p q] eqn:Q.
  - replace (entered s evs) with (@nil call); [constructor|]. symmetry. apply all_empty. intros c I. apply in_entered in I as (r & p & I).
    destruct (invoke_inv _ _ _ _ _ _ _ _ H I) as (x & b & ss & stk & rest & y & x' & _ & _ & _ & _ & _ & _ & E & _). subst evs. cbn in Q. rewrite Nat.eqb_refl in Q. discriminate Q.
  - assert (In p (got s evs)) as I by (rewrite Q; now left). apply in_got in I as (r & b & I). rewrite <- Q. clear Q q.
    destruct (receive_step _ _ _ _ _ _ _ _ H I) as (x & ss & stk & rest & x' & _ & _ & _ & _ & _ & Rv). specialize (Ar (snd p)). destruct (receive st s (snd p)) as [|e|k].
    + contradiction.
    + exfalso. apply (NL r p). rewrite (proj1 Rv). right. now left.
    + rewrite (proj1 Rv). cbn. rewrite Nat.eqb_refl. cbn. constructor; [exact Ar|constructor].
Qed.

Lemma called_exec ls : forall st st' tr s (P : state -> Prop) (Rl : bmsg -> call -> Prop),
  (forall st m, P st -> match receive st s m with InvCall k => Rl m k | InvThrow _ => True | InvSkip => False end) ->
  always P ls st -> exec ls st = Some (st', tr) -> (forall r p, ~ In (EvLost r p) tr) -> Forall2 (fun p k => Rl (snd p) k) (got s tr) (entered s tr).
Proof.
  induction ls as [|l ls IH]; intros st st' tr s P Rl Ar A X NL; cbn [exec] in X; [injection X as <- <-; constructor|].
  cbn [always] in A. destruct A as (A0 & A). destruct (step l st) as [[s1 e1]|] eqn:H; [|discriminate X]. destruct (exec ls s1) as [[s2 e2]|] eqn:E; [|discriminate X]. injection X as <- <-.
  rewrite entered_app, got_app. apply Forall2_app.
  - eapply called_step; [|exact H|]; [intros m; apply Ar, A0|]. intros r p I. apply (NL r p). apply in_app_iff; auto.
  - eapply IH; eauto. intros r p I. apply (NL r p). apply in_app_iff; auto.
Qed.

Section Rest.
  Variables (n : net) (rt : nat -> nat) (ls0 ls : list clabel) (c0 c : cluster) (T0 T : list (nat * nevent)).
  Hypothesis X0 : cexec n ls0 cl_init = Some (c0, T0).
  Hypothesis X : cexec n ls c0 = Some (c, T).
  Hypothesis QUIET : distributed T0 = [].
  Hypothesis ONE : one_root rt (T0 ++ T).
  Hypothesis REST : at_rest c.

  Let all i := bus_events (at_node i (T0 ++ T)).

  Lemma calls_related i b s topic cb (P : state -> Prop) (Rl : bmsg -> call -> Prop) :
    (forall st m, P st -> nth_error (s_subs st) s = Some (mkSub topic (Some cb)) -> match receive st s m with InvCall k => Rl m k | InvThrow _ => True | InvSkip => False end) ->
    calways (fun c => subscribed i (rt i) b s topic cb c /\ P (cl_nodes c i)) n ls c0 ->
    Forall2 Rl (filter (fun m => wants topic (bm_topic m)) (queued (T0 ++ T) i (rt i))) (calls (T0 ++ T) i s).
  Proof.
    intros Ar SUB. destruct (all_exec n ls0 ls c0 c T0 T X0 X i) as (ls' & XE). fold (all i) in XE.
    destruct (node_run _ _ _ _ X0 i) as (nls0 & A0 & _). pose proof (nexec_exec _ _ _ _ _ A0) as XE0. assert (reach (cl_nodes c0 i)) as Rc by (eexists; eexists; exact XE0).
    destruct (cexec_node n i (fun x => (serving (rt i) b s x /\ nth_error (s_subs x) s = Some (mkSub topic (Some cb))) /\ P x) _ _ _ _ X) as (nls & A & _ & AL).
    specialize (AL _ SUB (fun c' H => H)). pose proof (nexec_exec _ _ _ _ _ A) as XE1.
    assert (forall r, begun r (bus_events (at_node i T0)) = []) as quiet0 by (intros r; eapply quiet_begun; eauto).
    assert (got s (bus_events (at_node i T0)) = []) as G0.
    { apply all_empty. intros p I. apply in_got in I as (r & b' & I). apply (receive_begun _ _ _ _ _ _ _ XE0) in I. rewrite quiet0 in I. destruct I. }
    assert (entered s (bus_events (at_node i T0)) = []) as E0.
    { apply all_empty. intros k I. apply in_entered in I as (r & p & I). destruct (exec_at _ _ _ _ _ XE0 I (fun _ => True)) as (l & s1 & s2 & e2 & _ & H & I2 & IN).
      { clear. generalize init. induction (bus_labels (nt_links n i) nls0) as [|l q IH]; intros st; cbn [always]; split; auto. destruct (step l st) as [[? ?]|]; auto. }
      destruct (invoke_inv _ _ _ _ _ _ _ _ H I2) as (x & b' & ss & stk & rest & y & x' & _ & _ & _ & _ & _ & _ & E & _).
      assert (In p (got s (bus_events (at_node i T0)))) as J; [|rewrite G0 in J; destruct J]. apply in_got. exists r, b'. apply IN. rewrite E. now left. }
    assert (forall r b' p, In (EvReceive r b' s p) (all i) -> r = rt i) as RT.
    { intros r b' p I. apply (receive_begun _ _ _ _ _ _ _ XE) in I. eapply (root_of n rt ls0 ls c0 c T0 T); eauto. }
    assert (Forall2 (fun p k => Rl (snd p) k) (inbox (rt i) s (all i)) (calls (T0 ++ T) i s)) as F.
    { rewrite calls_node, <- (got_inbox (rt i) s (all i) RT). unfold all. rewrite !at_node_app, !bus_events_app, entered_app, got_app, E0, G0. cbn [List.app].
      eapply (called_exec _ _ _ _ _ (fun x => (serving (rt i) b s x /\ nth_error (s_subs x) s = Some (mkSub topic (Some cb))) /\ P x)); [|exact AL|exact XE1|].
      - intros st m ((_ & Ns) & Ps). apply Ar; auto.
      - intros r p I. apply in_bus_events, at_node_in in I. destruct (ONE i r p) as (_ & _ & NL). apply NL. apply in_app_iff. auto. }
    rewrite queued_node. fold (all i).
    assert (inbox (rt i) s (all i) = filter (fun p => wants topic (bm_topic (snd p))) (accepted (rt i) (all i))) as EQ.
    { destruct (C21_fifo _ _ _ (rt i) s XE) as (SL & ND).
      apply (sublist_filter (fun p => wants topic (bm_topic (snd p))) _ _ SL ND).
      intros p Ip. rewrite wants_iff. split.
      - intros I. apply in_inbox in I as (b' & I). unfold all in I. rewrite at_node_app, bus_events_app in I. apply in_app_iff in I as [I|I].
        { exfalso. assert (In p (got s (bus_events (at_node i T0)))) as J by (apply in_got; eauto). rewrite G0 in J. destruct J. }
        destruct (exec_at _ _ _ _ _ XE1 I _ AL) as (l & s1 & s2 & e2 & ((_ & N1) & _) & H & I2 & _).
        destruct (receive_inv _ _ _ _ _ _ _ _ H I2) as (x & ss & stk & rest & y & _ & _ & _ & N & Ac & _). rewrite N1 in N. injection N as <-. exact Ac.
      - intros W. destruct (acc_completed n rt ls0 ls c0 c T0 T X0 X ONE REST i (rt i) p Ip) as (Cp & _).
        assert (In (EvEnd (rt i) p) (bus_events (at_node i T))) as Ie.
        { rewrite at_node_app, bus_events_app, completed_app in Cp. apply in_app_iff in Cp as [Cp|Cp].
          - exfalso. pose proof (started_all (rt i) _ _ _ XE0) as ST. unfold started in ST. rewrite quiet0 in ST. destruct (get_bus (cl_nodes c0 i) (rt i)); [destruct ST as (_ & _ & _ & ST)|destruct ST as (_ & ST); rewrite ST in Cp; destruct Cp]. destruct (ST _ Cp).
          - unfold completed in Cp. apply in_flat_map in Cp as (e & Ie & Je). destruct e; try contradiction. match type of Je with In _ (if Nat.eqb ?a ?b then _ else _) => destruct (Nat.eqb_spec a b) as [->|]; [|contradiction] end. destruct Je as [->|[]]. exact Ie. }
        apply in_inbox. exists b. unfold all. rewrite at_node_app, bus_events_app. apply in_app_iff. right.
        assert (subscribed i (rt i) b s topic cb c0) as ((Sb & Bl & _) & Ns) by (destruct ls; apply SUB).
        eapply (C20_every _ _ _ _ (rt i) b s _ Rc); [|exact XE1| |exact Ns|exact Ie|exact W].
        + eapply always_imp; [|exact AL]. intros z ((Q & _) & _). exact Q.
        + destruct Sb as (xb & Gb & _). destruct (below_root _ _ _ Bl (ex_intro _ xb Gb)) as (x & Gx). exists x. split; [exact Gx|].
          pose proof (started_all (rt i) _ _ _ XE0) as ST. unfold started in ST. rewrite Gx, quiet0 in ST. destruct ST as (_ & _ & ST & _). apply all_empty. intros y Iy. destruct (ST _ Iy). }
    rewrite EQ in F. clear - F. revert F. generalize (calls (T0 ++ T) i s). induction (accepted (rt i) (all i)) as [|p q IH]; intros ks F; cbn [filter map] in *; [inversion F; constructor|].
    destruct (wants topic (bm_topic (snd p))); [|apply IH, F]. inversion F; subst. constructor; auto.
  Qed.
End Rest.

(** ** Answers *)

Lemma always_tail (P : state -> Prop) l1 : forall l2 st st1 tr, exec l1 st = Some (st1, tr) -> always P (l1 ++ l2) st -> always P l2 st1.
Proof.
  induction l1 as [|l l1 IH]; intros l2 st st1 tr X A; cbn [exec] in X; [injection X as <- <-; exact A|].
  destruct (step l st) as [[s1 e1]|] eqn:H; [|discriminate X]. destruct (exec l1 s1) as [[s2 e2]|] eqn:E; [|discriminate X]. injection X as <- <-. cbn [List.app always] in A. rewrite H in A. destruct A as (_ & A). eapply IH; eauto.
Qed.

(** Where a distribution begins. *)
Lemma begin_point ls : forall st st' tr r p, exec ls st = Some (st', tr) -> In (EvBegin r p) tr ->
  exists l1 l2 st1 tr1 tr2, ls = l1 ++ l2 /\ exec l1 st = Some (st1, tr1) /\ exec l2 st1 = Some (st', tr2) /\ tr = tr1 ++ tr2 /\ (exists x, get_bus st1 r = Some x /\ current x = []) /\ In (EvBegin r p) tr2.
Proof.
  induction ls as [|l ls IH]; intros st st' tr r p X I; cbn [exec] in X; [injection X as <- <-; destruct I|].
  destruct (step l st) as [[s1 e1]|] eqn:H; [|discriminate X]. destruct (exec ls s1) as [[s2 e2]|] eqn:E; [|discriminate X]. injection X as <- <-.
  apply in_app_iff in I as [I|I].
  - exists [], (l :: ls), st, [], (e1 ++ e2). repeat split; auto; [cbn [exec]; now rewrite H, E| |apply in_app_iff; auto].
    assert (about r (EvBegin r p) = true) as Ab by (simpl; apply Nat.eqb_refl).
    destruct (runner_label_dec l r) as [RL|RL]; [|rewrite (other_events _ _ _ _ _ _ H RL I) in Ab; discriminate Ab].
    destruct (run_inv' _ _ _ _ _ H RL) as (x & rn & act & G & RC & _). exists x. split; [exact G|]. unfold current.
    inversion RC; subst; cbn [In] in I; try contradiction; repeat match goal with J : _ \/ _ |- _ => destruct J as [J|J]; try discriminate J; try contradiction end;
      try reflexivity;
      exfalso; repeat match type of I with
                      | In _ (_ ++ _) => apply in_app_iff in I as [I|I]
                      | In _ (map _ _) => apply in_map_iff in I as (? & I & _)
                      | In _ _ => cbn [In] in I
                      | _ \/ _ => destruct I as [I|I]
                      | False => destruct I
                      | _ = _ => discriminate I
                      end.
  - destruct (IH _ _ _ _ _ E I) as (l1 & l2 & st1 & tr1 & tr2 & -> & X1 & X2 & -> & G & J).
    exists (l :: l1), l2, st1, (e1 ++ tr1), tr2. repeat split; auto; [cbn [exec]; now rewrite H, X1|now rewrite app_assoc].
Qed.

Lemma unanswered_exec ls : forall st st' tr c id u, reach st -> unanswered c id u st -> exec ls st = Some (st', tr) -> (forall d v, ~ In (LRequest c id d (Some v)) ls) ->
  In (id, u) (answered c tr) \/ unanswered c id u st'.
Proof.
  induction ls as [|l ls IH]; intros st st' tr c id u Rc U X NR; cbn [exec] in X; [injection X as <- <-; auto|].
  destruct (step l st) as [[s1 e1]|] eqn:H; [|discriminate X]. destruct (exec ls s1) as [[s2 e2]|] eqn:E; [|discriminate X]. injection X as <- <-. rewrite answered_app, in_app_iff.
  destruct (unanswered_step _ _ _ _ _ _ _ Rc U H) as [A|U1]; auto.
  { intros d v ->. apply (NR d v). now left. }
  destruct (IH s1 s2 e2 c id u) as [A|U2]; auto. - eapply reach_step; eauto. - intros d v I. apply (NR d v). now right.
Qed.

(** C36_answered without the assumption that nothing is being distributed. *)
Lemma answered_after ls st st' tr r b c s id u m d topic :
  reach st -> exec ls st = Some (st', tr) -> unanswered c id u st ->
  always (fun st => serving r b s st /\ consumer_on st c s /\ exists q, nth_error (s_subs st) s = Some q /\ s_topic q = topic) ls st ->
  (forall d v, ~ In (LRequest c id d (Some v)) ls) ->
  In (EvBegin r m) tr -> (forall l1 l2 st1 tr1 tr2, ls = l1 ++ l2 -> exec l1 st = Some (st1, tr1) -> tr = tr1 ++ tr2 -> In (EvBegin r m) tr2 -> In (EvEnd r m) tr2) -> answer (bm_data (snd m)) id d -> topic = bm_topic (snd m) ->
  In (id, u) (answered c tr).
Proof.
  intros Rc X U A NR Ib Ie An Et. destruct (begin_point _ _ _ _ _ _ X Ib) as (l1 & l2 & st1 & tr1 & tr2 & -> & X1 & X2 & -> & G & J). rewrite answered_app, in_app_iff.
  destruct (unanswered_exec _ _ _ _ _ _ _ Rc U X1) as [Q|U1]; [intros d0 v I; apply (NR d0 v); apply in_app_iff; auto|auto|].
  right. pose proof (always_tail _ _ _ _ _ _ X1 A) as A2.
  eapply (C36_answered l2 st1 st' tr2 r b c s id u m d); eauto.
  - eapply reach_exec; eauto.
  - eapply always_imp; [|exact A2]. intros z (Q1 & Q2 & _). auto.
  - intros d0 v I. apply (NR d0 v). apply in_app_iff; auto.
  - assert (exists q, nth_error (s_subs st1) s = Some q /\ s_topic q = topic) as (q & Nq & Tq) by (destruct l2; apply A2). exists q. split; [exact Nq|congruence].
Qed.

Lemma begun_in r p tr : In p (begun r tr) <-> In (EvBegin r p) tr.
Proof.
  unfold begun. rewrite in_flat_map. split.
  - intros (e & I & J). destruct e; try contradiction. destruct (Nat.eqb_spec root r) as [->|]; [|contradiction]. now destruct J as [->|[]].
  - intros I. exists (EvBegin r p). rewrite Nat.eqb_refl. split; [exact I|now left].
Qed.
Lemma completed_in r p tr : In p (completed r tr) <-> In (EvEnd r p) tr.
Proof.
  unfold completed. rewrite in_flat_map. split.
  - intros (e & I & J). destruct e; try contradiction. destruct (Nat.eqb_spec root r) as [->|]; [|contradiction]. now destruct J as [->|[]].
  - intros I. exists (EvEnd r p). rewrite Nat.eqb_refl. split; [exact I|now left].
Qed.
Lemma completed_begun r p ls st tr : exec ls init = Some (st, tr) -> In p (completed r tr) -> In p (begun r tr).
Proof.
  intros X I. pose proof (started_all r _ _ _ X) as A. unfold started in A. destruct (get_bus st r); [destruct A as (_ & _ & _ & A); auto|]. destruct A as (_ & A). rewrite A in I. destruct I.
Qed.

Lemma has_id_inj d a b : has_id d a -> has_id d b -> a = b.
Proof. intros (k1 & E1 & O1) (k2 & E2 & O2). congruence. Qed.
Lemma answer_has d id e : answer d id e -> has_id d id.
Proof. intros (k & E & O & _). exists k. auto. Qed.

Lemma unused_issued ls id m : unused ls id -> issued ls m -> has_id (bm_data m) id -> exists t, bm_topic m = (t ++ "/request")%string.
Proof.
  intros (U1 & U2 & U3) [(j & [(p & I)|(b & s & I)])|[((j & p & id' & d & I & E) & _)|(_ & Q)]] H; [| | |exact Q]; exfalso.
  - eapply U2; eauto.
  - eapply U3; eauto.
  - assert (has_id (bm_data m) id') as H' by (rewrite E; eexists; split; reflexivity). rewrite <- (has_id_inj _ _ _ H H') in I. eapply U1; eauto.
Qed.

Lemma consumer_topic st co s q : reach st -> consumer_on st co s -> nth_error (s_subs st) s = Some q -> exists t, s_topic q = (t ++ "/response")%string.
Proof.
  intros Rc (y & q0 & Ny & Es & Nq & Cb) N. assert (q0 = q) as -> by congruence. destruct (w_cons _ (reach_wired _ Rc) _ _ Ny) as (_ & t & q1 & z & N1 & T1 & _). exists t. rewrite Es in N1. congruence.
Qed.

Section Answer.
  Variables (n : net) (rt : nat -> nat) (ls1 ls2 : list clabel) (c1 c : cluster) (T1 T2 : list (nat * nevent)).
  Hypothesis X1 : cexec n ls1 cl_init = Some (c1, T1).
  Hypothesis X2 : cexec n ls2 c1 = Some (c, T2).
  Hypothesis ONE : one_root rt (T1 ++ T2).
  Hypothesis REST : at_rest c.

  Lemma answer_once i b s topic co id u m d :
    calways (consumes i (rt i) b s topic co) n ls2 c1 -> waits i co id u c1 -> unused ls1 id -> (forall d v, ~ In (CBus i (LRequest co id d (Some v))) ls2) ->
    In m (queued (T1 ++ T2) i (rt i)) -> bm_topic m = topic -> answer (bm_data m) id d ->
    In (id, u) (answered co (events_of i T2)).
  Proof.
    intros C W U NR I Et An.
    assert (cexec n (ls1 ++ ls2) cl_init = Some (c, T1 ++ T2)) as X by (eapply whole; eauto).
    destruct (node_run _ _ _ _ X1 i) as (nls1 & A1 & B1). pose proof (nexec_exec _ _ _ _ _ A1) as XE1. assert (reach (cl_nodes c1 i)) as Rc by (eexists; eexists; exact XE1).
    destruct (cexec_node n i (fun x => serving (rt i) b s x /\ consumer_on x co s /\ exists q, nth_error (s_subs x) s = Some q /\ s_topic q = topic) _ _ _ _ X2) as (nls2 & A2 & B2 & AL).
    specialize (AL _ C (fun c' H => H)). pose proof (nexec_exec _ _ _ _ _ A2) as XE2.
    rewrite queued_node in I. apply in_map_iff in I as (p & <- & I).
    destruct (acc_completed n rt ls1 ls2 c1 c T1 T2 X1 X2 ONE REST i (rt i) p I) as (Cp & Bg).
    assert (consumes i (rt i) b s topic co c1) as (_ & Co & q & Nq & Tq) by (destruct ls2; apply C).
    assert (~ In p (begun (rt i) (bus_events (at_node i T1)))) as NB.
    { intros J. apply (begun_accepted _ _ _ _ XE1) in J. rewrite <- events_node in J. apply (accepted_issued _ _ _ _ _ _ _ X1) in J.
      apply (unused_issued _ _ _ U) in J as (t & Q); [|eapply answer_has; eauto]. destruct (consumer_topic _ _ _ _ Rc Co Nq) as (t' & Q'). rewrite <- Et, Q in Tq. rewrite Q' in Tq. symmetry in Tq. now apply request_not_response in Tq. }
    rewrite at_node_app, bus_events_app in Cp, Bg. rewrite begun_app in Bg. apply in_app_iff in Bg as [Bg|Bg]; [contradiction|].
    pose proof XE1 as XA. assert (exec (bus_labels (nt_links n i) nls1 ++ bus_labels (nt_links n i) nls2) init = Some (cl_nodes c i, bus_events (at_node i T1) ++ bus_events (at_node i T2))) as XW by (rewrite exec_app, XE1, XE2; reflexivity).
    pose proof (begun_nodup (rt i) _ _ _ XW) as ND.
    rewrite events_node. eapply (answered_after _ _ _ _ (rt i) b co s id u p d topic Rc XE2 W AL); [| | |exact An|auto].
    - intros d0 v J. apply bus_labels_in in J as [J|(k & r & m0 & lk & _ & J)]; [|discriminate J]. apply B2 in J. eapply NR; eauto.
    - apply begun_in. exact Bg.
    - intros l1 l2 st1 tr1 tr2 El Ex Et2 J. apply completed_in. rewrite completed_app in Cp. apply in_app_iff in Cp as [Cp|Cp].
      { exfalso. apply NB. eapply completed_begun; eauto. }
      rewrite Et2, completed_app in Cp. apply in_app_iff in Cp as [Cp|Cp]; [|exact Cp]. exfalso.
      assert (exec (bus_labels (nt_links n i) nls1 ++ l1) init = Some (st1, bus_events (at_node i T1) ++ tr1)) as XP by (rewrite exec_app, XE1, Ex; reflexivity).
      assert (In p (begun (rt i) (bus_events (at_node i T1) ++ tr1))) as K by (eapply completed_begun; [exact XP|]; rewrite completed_app; apply in_app_iff; auto).
      rewrite Et2, app_assoc, begun_app in ND. eapply nodup_app_disj; [exact ND|exact K|]. apply begun_in. exact J.
  Qed.

  (** A callback that throws loses its message. *)
  Lemma no_throw i nls co : nexec (nt_links n i) nls init = Some (cl_nodes c i, at_node i (T1 ++ T2)) -> never_throws co (bus_labels (nt_links n i) nls).
  Proof.
    intros A. pose proof (nexec_exec _ _ _ _ _ A) as XE. intros la r e lb st1 tr1 E Xa b id u d (x & m & ss & stk & rest & G & R).
    rewrite E, exec_app, Xa in XE. cbn [exec] in XE. destruct (step (LThrow r e) st1) as [[s2 e2]|] eqn:H; [|discriminate XE]. destruct (exec lb s2) as [[s3 e3]|]; [|discriminate XE]. injection XE as _ XE.
    assert (In (EvLost r m) e2) as I.
    { cbn [step] in H. unfold throw_step in H. rewrite G, R in H. injection H as _ <-. now left. }
    destruct (ONE i r m) as (_ & _ & NL). apply NL. apply at_node_in, in_bus_events. rewrite <- XE. apply in_app_iff. right. apply in_app_iff. auto.
  Qed.

  Lemma answers_nodup i co : NoDup (map fst (requests co (events_of i (T1 ++ T2)))) -> NoDup (map fst (answered co (events_of i (T1 ++ T2)))).
  Proof.
    assert (cexec n (ls1 ++ ls2) cl_init = Some (c, T1 ++ T2)) as X by (eapply whole; eauto).
    destruct (node_run _ _ _ _ X i) as (nls & A & _). rewrite events_node. apply (C64_at_most_once _ _ _ _ (nexec_exec _ _ _ _ _ A)). now apply no_throw.
  Qed.
End Answer.

Lemma request_event n ls : forall c c' T i co id d v, cexec n ls c = Some (c', T) -> In (CBus i (LRequest co id d (Some v))) ls -> In (id, v) (requests co (events_of i T)).
Proof.
  induction ls as [|l ls IH]; intros c c' T i co id d v X I; [destruct I|]. cbn [cexec] in X. destruct (cstep n l c) as [[c1 e1]|] eqn:C; [|discriminate X]. destruct (cexec n ls c1) as [[c2 e2]|] eqn:E; [|discriminate X]. injection X as <- <-.
  rewrite events_app, requests_app. apply in_app_iff. destruct I as [->|I]; [left|right; eauto].
  destruct (cstep_inv _ _ _ _ _ C) as (j & nl & st & evs & N & -> & _ & [(x & El & -> & _)|(p & k & r & m & rest & El & _)]); [|discriminate El]. injection El as <- <-.
  rewrite events_node, at_node_same. pose proof (nexec_cons_exec _ _ _ _ _ N) as XE. cbn [bus_labels flat_map List.app exec] in XE.
  destruct (step (LRequest co id d (Some v)) (cl_nodes c i)) as [[s1 e1]|] eqn:H; [|discriminate XE]. injection XE as _ XE. rewrite app_nil_r in XE. rewrite <- XE.
  destruct (step_requests _ _ _ _ co H) as [(i0 & d0 & v0 & El & Er)|(_ & Nl)]; [|exfalso; eapply Nl; eauto]. injection El as <- <- <-. rewrite Er. now left.
Qed.

Lemma only_one {A} (l : list (string * A)) id u : NoDup (map fst l) -> In (id, u) l -> filter (fun x => String.eqb (fst x) id) l = [(id, u)].
Proof.
  assert (forall l : list (string * A), ~ In id (map fst l) -> filter (fun x => String.eqb (fst x) id) l = []) as Z.
  { clear. induction l as [|(a & w) l IH]; intros N; [reflexivity|]. cbn in *. destruct (String.eqb_spec a id) as [->|]; [exfalso; auto|]. apply IH. auto. }
  induction l as [|(a & w) l IH]; intros ND I; [destruct I|]. cbn in *. inversion ND; subst. destruct I as [E|I].
  - injection E as -> ->. rewrite String.eqb_refl, Z by auto. reflexivity.
  - destruct (String.eqb_spec a id) as [->|]; [|auto]. exfalso. match goal with H : ~ In id _ |- _ => apply H end. apply in_map_iff. exists (id, u). auto.
Qed.

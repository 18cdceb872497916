(** C59: a link does not send out again what it received. *)
From Coq Require Import String Ascii List Arith ZArith Bool Lia Sorted.
From Verif Require Import Prelude OMap DatagramModel DatagramSpec BusModel BusSpec BusProofs BusTree BusLocks BusDist BusAccount BusOnce BusFlight BusDeliver BusDeliveryProps LinkModel NodeModel SerialModel SerialProps ActionProofs ActionProps.
Import ListNotations.
Open Scope string_scope.
Open Scope list_scope.

(** ** Vocabulary *)

(** The sender begins with the link's identifier and a slash. *)
Definition marked (name : string) (m : bmsg) : Prop := exists rest, bm_sender m = (name ++ "/" ++ rest)%string.
(** The same, decided. *)
Definition markedb (name : string) (m : bmsg) : bool := prefix (name ++ "/") (bm_sender m).

(** Publications of root [root] that link [k] sent out over role [r], in order. *)
Definition role_eqb (a b : role) : bool := match a, b with Server, Server | Client, Client => true | _, _ => false end.
Definition sent (k : nat) (r : role) (root : nat) (evs : list nevent) : list pubn :=
  flat_map (fun e => match e with NSent k' r' root' p => if Nat.eqb k' k && role_eqb r' r && Nat.eqb root' root then [p] else [] | _ => [] end) evs.
(** Publications with which root [root] called the callback [u], in order. *)
Definition shown (u root : nat) (evs : list nevent) : list pubn :=
  flat_map (fun e => match e with NEv (EvInvoke root' _ p (CallMsg u' _)) => if Nat.eqb u' u && Nat.eqb root' root then [p] else [] | _ => [] end) evs.
(** The events of the bus. *)
Definition bus_events (evs : list nevent) : list event := flat_map (fun e => match e with NEv x => [x] | _ => [] end) evs.
(** The steps of the bus that the node's steps are. *)
Definition bus_labels (ks : list link) (ls : list nlabel) : list label :=
  flat_map (fun l => match l with
                     | NBus x => [x]
                     | NReceive k _ m => match nth_error ks k with Some lk => [LPublishMsg (lk_bus lk) (mkM (lk_id lk ++ "/" ++ bm_sender m)%string (bm_topic m) (bm_data m))] | None => [] end
                     end) ls.

(** ** Strings *)

Lemma prefix_iff a s : prefix a s = true <-> exists r, s = (a ++ r)%string.
Proof.
  revert s. induction a as [|c a IH]; intros s; cbn [prefix append].
  - split; [intros _; exists s; reflexivity|]. destruct s; reflexivity.
  - destruct s as [|c' s]; cbn [prefix].
    + split; [discriminate|intros (r & E); discriminate].
    + destruct (ascii_dec c c') as [->|D].
      * rewrite IH. split; intros (r & E); exists r; congruence.
      * split; [discriminate|]. intros (r & E). congruence.
Qed.

Lemma sent_by_marked name m : sent_by name m = markedb name m.
Proof.
  apply eq_true_iff_eq. unfold sent_by, markedb. rewrite prefix_iff.
  assert (exists m', m_sender m' = bm_sender m) as (m' & E) by (exists (mkMsg (bm_sender m) "" 0); reflexivity).
  pose proof (C18_was_sent_by name m') as W. unfold was_sent_by in W. rewrite E in W. rewrite W.
  split; intros (r & H); exists r; rewrite H; now rewrite SerialProofs2.sapp_assoc.
Qed.
Lemma markedb_iff name m : markedb name m = true <-> marked name m.
Proof. unfold markedb, marked. rewrite prefix_iff. split; intros (r & H); exists r; rewrite H; now rewrite SerialProofs2.sapp_assoc. Qed.

(** ** Node and bus *)

Lemma bus_events_app a b : bus_events (a ++ b) = bus_events a ++ bus_events b.
Proof. apply flat_map_app. Qed.
Lemma transmit_silent ks e : bus_events (transmit ks e) = [].
Proof.
  destruct e; try reflexivity. destruct c; try reflexivity. unfold transmit, bus_events. rewrite flat_map_concat_map, <- flat_map_concat_map.
  induction (indexed ks) as [|x l IH]; [reflexivity|]. cbn [flat_map]. rewrite flat_map_app, IH, app_nil_r.
  destruct (Nat.eqb _ _); [|reflexivity]. induction (on_message (snd x) m0); auto.
Qed.
Lemma observe_bus ks evs : bus_events (observe ks evs) = evs.
Proof.
  induction evs as [|e evs IH]; [reflexivity|]. unfold observe in *. cbn [flat_map]. rewrite <- app_comm_cons.
  change (e :: bus_events (transmit ks e ++ flat_map (fun e0 => NEv e0 :: transmit ks e0) evs) = e :: evs).
  rewrite bus_events_app, transmit_silent, IH. reflexivity.
Qed.

Lemma nexec_exec ks ls : forall st st' evs, nexec ks ls st = Some (st', evs) -> exec (bus_labels ks ls) st = Some (st', bus_events evs).
Proof.
  induction ls as [|l ls IH]; cbn [nexec]; intros st st' evs H; [injection H as <- <-; reflexivity|].
  destruct (nstep ks l st) as [[s1 e1]|] eqn:N; [|discriminate]. destruct (nexec ks ls s1) as [[s2 e2]|] eqn:E; [|discriminate]. injection H as <- <-.
  rewrite bus_events_app. specialize (IH _ _ _ E). destruct l as [x|k r m]; cbn [nstep] in N.
  - destruct (step x st) as [[s3 e3]|] eqn:Sx; [|discriminate]. injection N as <- <-. cbn [bus_labels flat_map]. cbn [app exec]. rewrite Sx. unfold bus_labels in IH. rewrite IH, observe_bus. reflexivity.
  - unfold bus_labels. cbn [flat_map]. destruct (nth_error ks k) as [lk|]; [|discriminate]. destruct (lk_socket lk (sub_socket r)); [|discriminate].
    unfold on_receive, prepend in N. destruct (step (LPublishMsg _ _) st) as [[s3 e3]|] eqn:Sx; [|discriminate]. injection N as <- <-. cbn [app exec]. rewrite Sx.
    unfold bus_labels in IH. rewrite IH. change (bus_events (NReceived k r m (length (s_flights st)) :: observe ks e3)) with (bus_events (observe ks e3)). rewrite observe_bus. reflexivity.
Qed.

(** Splitting an execution at an event. *)
Lemma nexec_at ks ls : forall st st' evs e, nexec ks ls st = Some (st', evs) -> In e evs ->
  exists ls1 l ls2 s1 s2 e1 e2 e3, ls = ls1 ++ l :: ls2 /\ nexec ks ls1 st = Some (s1, e1) /\ nstep ks l s1 = Some (s2, e2) /\ In e e2 /\ nexec ks ls2 s2 = Some (st', e3) /\ evs = e1 ++ e2 ++ e3.
Proof.
  induction ls as [|l ls IH]; cbn [nexec]; intros st st' evs e H I; [injection H as <- <-; destruct I|].
  destruct (nstep ks l st) as [[s1 e1]|] eqn:N; [|discriminate]. destruct (nexec ks ls s1) as [[s2 e2]|] eqn:E; [|discriminate]. injection H as <- <-.
  apply in_app_iff in I as [I|I].
  - exists [], l, ls, st, s1, [], e1, e2. repeat split; auto.
  - destruct (IH _ _ _ _ E I) as (ls1 & l' & ls2 & s3 & s4 & f1 & f2 & f3 & -> & A & B & C & D & ->).
    exists (l :: ls1), l', ls2, s3, s4, (e1 ++ f1), f2, f3. cbn [nexec app]. rewrite N, A, app_assoc. repeat split; auto.
Qed.

Lemma in_bus_events e evs : In e (bus_events evs) <-> In (NEv e) evs.
Proof.
  unfold bus_events. rewrite in_flat_map. split.
  - intros (x & I & J). destruct x; try destruct J as [<-|[]]; try destruct J. exact I.
  - intros I. exists (NEv e). split; [exact I|left; reflexivity].
Qed.

(** ** Publications *)

Lemma flights_grow l st st' evs : step l st = Some (st', evs) -> length (s_flights st) <= length (s_flights st').
Proof.
  intros H. destruct (length (s_flights st)) as [|n] eqn:L; [lia|]. 
  assert (exists f, nth_error (s_flights st) n = Some f) as (f & N) by (destruct (nth_error (s_flights st) n) eqn:E; eauto; apply nth_error_None in E; lia).
  destruct (step_flight _ _ _ _ _ _ H N) as [->|(N' & _)]; [|apply nth_error_Some_lt in N'; lia].
  destruct (fly_inv _ _ _ _ H) as [(p & d & xp & y & m & N0 & Np & F & Gy & Em & [(Fn & -> & _)|(Fn & -> & _)])|[(p & d & xp & N0 & Np & F & -> & _)|(b & m & y & N0 & Gy & [(Fn & -> & _)|[(g & Fn & -> & _)|[(r0 & z & Fn & Gz & -> & _)|(r0 & Fn & Gz & -> & _)]]])]];
    simpl; rewrite list_set_length; lia.
Qed.

Lemma accept_inv l st st' evs r i p : step l st = Some (st', evs) -> In (EvAccept r i p) evs ->
  l = LFly i /\ exists b, nth_error (s_flights st) i = Some (FlyBus b (snd p)).
Proof.
  intros H I. assert (In p (accepted r evs)) as A.
  { unfold accepted. apply in_flat_map. exists (EvAccept r i p). split; auto. rewrite Nat.eqb_refl. now left. }
  assert (exists j, l = LFly j) as (j & ->).
  { destruct l; eauto; exfalso; (rewrite (accept_label _ _ _ _ r H) in A; [destruct A|intros; discriminate]). }
  destruct (fly_inv _ _ _ _ H) as [(p0 & d & xp & y & m & N0 & Np & F & Gy & Em & [(Fn & -> & ->)|(Fn & -> & ->)])|[(p0 & d & xp & N0 & Np & F & -> & ->)|(b & m & y & N0 & Gy & [(Fn & -> & ->)|[(g & Fn & -> & ->)|[(r0 & z & Fn & Gz & -> & ->)|(r0 & Fn & Gz & -> & ->)]]])]];
    cbn [In] in I; try contradiction; repeat match goal with H : _ \/ _ |- _ => destruct H as [I|I]; try discriminate I; try contradiction end.
  injection I as -> -> <-. split; eauto.
Qed.

Lemma accept_range ls : forall st tr, exec ls init = Some (st, tr) -> forall r i p, In (EvAccept r i p) tr -> i < length (s_flights st).
Proof.
  induction ls as [|l ls IH] using rev_ind; intros st tr H r i p I; [injection H as <- <-; destruct I|].
  rewrite exec_app in H. destruct (exec ls init) as [[s1 t1]|] eqn:H1; [|discriminate]. cbn [exec] in H.
  destruct (step l s1) as [[s2 e2]|] eqn:E; [|discriminate]. injection H as <- <-.
  rewrite app_nil_r in I. pose proof (flights_grow _ _ _ _ E). apply in_app_iff in I as [I|I].
  - specialize (IH _ _ eq_refl _ _ _ I). lia.
  - destruct (accept_inv _ _ _ _ _ _ _ E I) as (_ & b & N). apply nth_error_Some_lt in N. lia.
Qed.

(** A publication begun on a bus hands over its own message. *)
Lemma flight_message ls : forall st st' tr i f, exec ls st = Some (st', tr) -> nth_error (s_flights st) i = Some f ->
  (f = FlyDone \/ exists b m, f = FlyBus b m) -> forall r p, In (EvAccept r i p) tr -> exists b, f = FlyBus b (snd p).
Proof.
  induction ls as [|l ls IH]; cbn [exec]; intros st st' tr i f H N K r p I; [injection H as <- <-; destruct I|].
  destruct (step l st) as [[s1 e1]|] eqn:E; [|discriminate]. destruct (exec ls s1) as [[s2 e2]|] eqn:E2; [|discriminate]. injection H as <- <-.
  apply in_app_iff in I as [I|I].
  - destruct (accept_inv _ _ _ _ _ _ _ E I) as (_ & b & N'). exists b. congruence.
  - destruct (step_flight _ _ _ _ _ _ E N) as [->|(N' & _)]; [|eapply IH; eauto].
    assert (nth_error (s_flights s1) i = Some FlyDone) as N1.
    { pose proof (nth_error_Some_lt _ _ _ N) as L.
      destruct (fly_inv _ _ _ _ E) as [(p0 & d & xp & y & m & N0 & _)|[(p0 & d & xp & N0 & _)|(b & m & y & N0 & Gy & [(Fn & -> & _)|[(g & Fn & -> & _)|[(r0 & z & Fn & Gz & -> & _)|(r0 & Fn & Gz & -> & _)]]])]];
        try (exfalso; destruct K as [->|(b1 & m1 & ->)]; congruence); simpl; now rewrite list_set_eq by auto. }
    destruct (IH _ _ _ _ _ E2 N1 (or_introl eq_refl) _ _ I) as (b & X). discriminate.
Qed.

(** ** Callbacks *)

Lemma received_inv ks l st st' evs k r m i : nstep ks l st = Some (st', evs) -> In (NReceived k r m i) evs ->
  l = NReceive k r m /\ i = length (s_flights st) /\ exists lk, nth_error ks k = Some lk /\ lk_socket lk (sub_socket r) = true.
Proof.
  assert (forall es, ~ In (NReceived k r m i) (observe ks es)) as O.
  { intros es I. unfold observe in I. apply in_flat_map in I as (e & _ & [I|I]); [discriminate|]. destruct e; try contradiction. destruct c; try contradiction.
    cbn [transmit] in I. apply in_flat_map in I as (x & _ & I). destruct (Nat.eqb _ _); [|contradiction]. apply in_map_iff in I as (? & I & _). discriminate. }
  intros N I. destruct l as [x|k' r' m']; cbn [nstep] in N.
  - destruct (step x st) as [[s3 e3]|]; [|discriminate]. injection N as <- <-. destruct (O _ I).
  - destruct (nth_error ks k') as [lk|] eqn:Nk; [|discriminate]. destruct (lk_socket lk (sub_socket r')) eqn:Sk; [|discriminate].
    destruct (step _ st) as [[s3 e3]|]; [|discriminate]. injection N as <- <-. destruct I as [I|I]; [|destruct (O _ I)]. injection I as -> -> -> ->. eauto 6.
Qed.

Lemma sent_inv ks l st st' evs k r root p : nstep ks l st = Some (st', evs) -> In (NSent k r root p) evs ->
  exists s lk, In (NEv (EvInvoke root s p (CallMsg (lk_cb lk) (snd p)))) evs /\ nth_error ks k = Some lk /\ In r (on_message lk (snd p)).
Proof.
  assert (forall x s1 s2 es, step x s1 = Some (s2, es) -> In (NSent k r root p) (observe ks es) ->
    exists s lk, In (NEv (EvInvoke root s p (CallMsg (lk_cb lk) (snd p)))) (observe ks es) /\ nth_error ks k = Some lk /\ In r (on_message lk (snd p))) as O.
  { intros x s1 s2 es Sx I. unfold observe in I. apply in_flat_map in I as (e & Ie & [I|I]); [discriminate|]. destruct e; try contradiction. destruct c; try contradiction.
    cbn [transmit] in I. apply in_flat_map in I as ((k' & lk) & Ik & I). cbn [fst snd] in I. destruct (Nat.eqb_spec (lk_cb lk) u) as [E|]; [|contradiction]. apply in_map_iff in I as (r' & I & Ir).
    injection I as -> -> -> ->. destruct (invoke_inv _ _ _ _ _ _ _ _ Sx Ie) as (xb & b & ss & stk & rest & y & x' & _ & _ & _ & _ & _ & Rv & _).
    assert (m0 = snd p) as ->. { unfold receive in Rv. repeat match type of Rv with context [match ?z with _ => _ end] => destruct z end; try discriminate. now injection Rv. }
    exists s, lk. split; [unfold observe; apply in_flat_map; exists (EvInvoke root s p (CallMsg u (snd p))); split; auto; left; now rewrite E|]. split; [|exact Ir].
    unfold indexed in Ik. clear - Ik. assert (forall n, In (k, lk) (combine (seq n (length ks)) ks) -> n <= k /\ nth_error ks (k - n) = Some lk) as G.
    { clear Ik. induction ks as [|a ks IH]; cbn [length seq combine]; intros n I; [destruct I|]. destruct I as [I|I].
      - injection I as -> ->. rewrite Nat.sub_diag. split; auto.
      - apply IH in I as (L & I). split; [lia|]. replace (k - n) with (S (k - S n)) by lia. exact I. }
    apply G in Ik as (_ & I). now rewrite Nat.sub_0_r in I. }
  intros N I. destruct l as [x|k' r' m']; cbn [nstep] in N.
  - destruct (step x st) as [[s3 e3]|] eqn:Sx; [|discriminate]. injection N as <- <-. eapply O; eauto.
  - destruct (nth_error ks k') as [lk'|] eqn:Nk; [|discriminate]. destruct (lk_socket lk' (sub_socket r')) eqn:Sk; [|discriminate].
    destruct (step _ st) as [[s3 e3]|] eqn:Sx; [|discriminate]. injection N as <- <-. destruct I as [I|I]; [discriminate|]. destruct (O _ _ _ _ Sx I) as (s & lk & A & B). exists s, lk. split; [now right|auto].
Qed.

(** ** C59 *)

(** What a link received is published with the link's identifier in front of the sender. *)
Theorem C59_marked : forall ks ls st evs k lk r m i root n m1,
  nexec ks ls init = Some (st, evs) -> nth_error ks k = Some lk ->
  In (NReceived k r m i) evs -> In (NEv (EvAccept root i (n, m1))) evs ->
  m1 = mkM (lk_id lk ++ "/" ++ bm_sender m) (bm_topic m) (bm_data m).
Proof.
  intros ks ls st evs k lk r m i root n m1 X Nk I A.
  destruct (nexec_at _ _ _ _ _ _ X I) as (ls1 & l & ls2 & s1 & s2 & e1 & e2 & e3 & -> & X1 & N & I2 & X3 & ->).
  destruct (received_inv _ _ _ _ _ _ _ _ _ N I2) as (-> & -> & lk' & Nk' & Sk). assert (lk' = lk) as -> by congruence. clear Nk'.
  cbn [nstep] in N. rewrite Nk, Sk in N. destruct (step _ s1) as [[s3 e4]|] eqn:Sx; [|discriminate]. injection N as <- <-.
  apply in_app_iff in A as [A|A].
  - exfalso. pose proof (accept_range _ _ _ (nexec_exec _ _ _ _ _ X1) _ _ _ (proj2 (in_bus_events _ _) A)). lia.
  - apply in_app_iff in A as [A|A].
    + exfalso. apply in_bus_events in A. change (In (EvAccept root (length (s_flights s1)) (n, m1)) (bus_events (observe ks e4))) in A. rewrite observe_bus in A.
      destruct (accept_inv _ _ _ _ _ _ _ Sx A). discriminate.
    + assert (exists f, nth_error (s_flights s3) (length (s_flights s1)) = Some f /\ (f = FlyDone \/ f = FlyBus (lk_bus lk) (on_receive lk m))) as (f & Nf & K).
      { cbn [step] in Sx. destruct (get_bus s1 (lk_bus lk)) as [xb|] eqn:Gb; [|discriminate]. unfold test_bus_fn in Sx. rewrite Gb in Sx.
        destruct (b_fn xb); injection Sx as <- _; cbn; rewrite nth_error_app2, Nat.sub_diag by lia; eexists; split; try reflexivity; auto. }
      destruct (flight_message _ _ _ _ _ _ (nexec_exec _ _ _ _ _ X3) Nf) with (r := root) (p := (n, m1)) as (b & Q).
      * destruct K as [->| ->]; [now left|right; eauto].
      * now apply in_bus_events.
      * destruct K as [->| ->]; [discriminate|]. injection Q as _ <-. reflexivity.
Qed.
Print Assumptions C59_marked.

Lemma sublist_in {A} (l1 l2 : list A) : sublist l1 l2 -> forall x, In x l1 -> In x l2.
Proof. induction 1; cbn; intros y I; auto. destruct I; auto. Qed.

Lemma accepted_unique ls st tr root n m1 m2 : exec ls init = Some (st, tr) -> In (n, m1) (accepted root tr) -> In (n, m2) (accepted root tr) -> m1 = m2.
Proof.
  intros X I1 I2. pose proof (account_all root _ _ _ X) as A. unfold account in A. destruct (get_bus st root) as [x|] eqn:G.
  - destruct (C21_numbers _ _ _ _ _ X G) as (Q & _). pose proof (seq_NoDup (b_count x) 0) as D. rewrite <- Q in D.
    clear - I1 I2 D. induction (accepted root tr) as [|(a & b) l IH]; [destruct I1|]. cbn in D. inversion D; subst. destruct I1 as [I1|I1], I2 as [I2|I2]; try congruence; auto.
    + exfalso. apply H1. injection I1 as <- <-. apply in_map_iff. exists (a, m2). auto.
    + exfalso. apply H1. injection I2 as <- <-. apply in_map_iff. exists (a, m1). auto.
  - destruct A as (A & _). rewrite A in I1. destruct I1.
Qed.

(** Nothing is sent out for a message that the same link received, over any role. *)
Theorem C59_no_echo : forall ks ls st evs k r m i root n m1,
  nexec ks ls init = Some (st, evs) -> In (NReceived k r m i) evs -> In (NEv (EvAccept root i (n, m1))) evs ->
  forall r' m2, ~ In (NSent k r' root (n, m2)) evs.
Proof.
  intros ks ls st evs k r m i root n m1 X I A r' m2 Sn.
  destruct (nexec_at _ _ _ _ _ _ X I) as (la & l & lb & s1 & s2 & e1 & e2 & e3 & _ & _ & N & I2 & _ & _).
  destruct (received_inv _ _ _ _ _ _ _ _ _ N I2) as (_ & _ & lk & Nk & _). clear la l lb s1 s2 e1 e2 e3 N I2.
  pose proof (C59_marked _ _ _ _ _ _ _ _ _ _ _ _ X Nk I A) as M.
  destruct (nexec_at _ _ _ _ _ _ X Sn) as (la & l & lb & s1 & s2 & e1 & e2 & e3 & -> & X1 & N & I2 & X3 & ->).
  destruct (sent_inv _ _ _ _ _ _ _ _ _ N I2) as (s & lk' & Iv & Nk' & Ir). assert (lk' = lk) as -> by congruence. cbn [snd] in *.
  assert (In (n, m2) (inbox root s (bus_events (e1 ++ e2 ++ e3)))) as Ib.
  { apply in_bus_events in Iv. assert (exists b, In (EvReceive root b s (n, m2)) (bus_events e2)) as (b & Rv).
    { destruct l as [x|k' q m']; cbn [nstep] in N.
      - destruct (step x s1) as [[s3 e4]|] eqn:Sx; [|discriminate]. injection N as <- <-. rewrite observe_bus in *.
        destruct (invoke_inv _ _ _ _ _ _ _ _ Sx Iv) as (? & b & ? & ? & ? & ? & ? & _ & _ & _ & _ & _ & _ & -> & _). exists b. now left.
      - destruct (nth_error ks k') as [lk'|]; [|discriminate]. destruct (lk_socket lk' (sub_socket q)); [|discriminate].
        destruct (step _ s1) as [[s3 e4]|] eqn:Sx; [|discriminate]. injection N as <- <-. change (In (EvInvoke root s (n, m2) (CallMsg (lk_cb lk) m2)) (bus_events (observe ks e4))) in Iv.
        change (bus_events (NReceived k' q m' (length (s_flights s1)) :: observe ks e4)) with (bus_events (observe ks e4)). rewrite observe_bus in *.
        destruct (invoke_inv _ _ _ _ _ _ _ _ Sx Iv) as (? & b & ? & ? & ? & ? & ? & _ & _ & _ & _ & _ & _ & -> & _). exists b. now left. }
    rewrite !bus_events_app. unfold inbox. apply in_flat_map. exists (EvReceive root b s (n, m2)).
    rewrite !in_app_iff. rewrite !Nat.eqb_refl. cbn. auto. }
  pose proof (nexec_exec _ _ _ _ _ X) as XE. destruct (C21_fifo _ _ _ root s XE) as (SL & _).
  assert (In (n, m2) (accepted root (bus_events (e1 ++ e2 ++ e3)))) as J2 by (eapply sublist_in; [exact SL|exact Ib]).
  assert (In (n, m1) (accepted root (bus_events (e1 ++ e2 ++ e3)))) as J1.
  { unfold accepted. apply in_flat_map. exists (EvAccept root i (n, m1)). rewrite in_bus_events, Nat.eqb_refl. cbn. auto. }
  pose proof (accepted_unique _ _ _ _ _ _ _ XE J1 J2). subst m2. subst m1.
  unfold on_message in Ir. rewrite sent_by_marked in Ir. replace (markedb (lk_id lk) _) with true in Ir; [destruct Ir|].
  symmetry. apply markedb_iff. exists (bm_sender m). reflexivity.
Qed.
Print Assumptions C59_no_echo.

Lemma new_sub_cb l st st' evs s y : step l st = Some (st', evs) -> nth_error (s_subs st) s = None -> nth_error (s_subs st') s = Some y ->
  s_cb y = None \/ exists u, s_cb y = Some (CbData u).
Proof.
  intros H N N'. apply nth_error_None in N.
  destruct l; step_cases H; revert N'; acc; simpl; acc; simpl; intros N'.
  all: try (exfalso; apply nth_error_Some_lt in N'; rewrite ?list_set_length in N'; lia).
  all: try (rewrite nth_error_app2 in N' by (simpl; acc; simpl; lia); simpl in N'; revert N'; acc; simpl; intros N';
    destruct (s - length (s_subs st)) as [|[|]]; try discriminate; injection N' as <-; simpl; auto).
  destruct cb; simpl; eauto.
Qed.

Lemma cbmsg_back l st st' evs s y u : step l st = Some (st', evs) -> nth_error (s_subs st') s = Some y -> s_cb y = Some (CbMsg u) ->
  l = LSetMsg s (Some u) \/ exists y0, nth_error (s_subs st) s = Some y0 /\ s_cb y0 = Some (CbMsg u).
Proof.
  intros H N' C. destruct (nth_error (s_subs st) s) as [y0|] eqn:N.
  - destruct (step_sub _ _ _ _ _ _ H N) as (y1 & N1 & _ & K). assert (y1 = y) as -> by congruence.
    destruct K as [K|[(u0 & -> & K)|[(u0 & -> & K)|[(b & -> & K)|[(p & q & -> & _ & _ & K)|(p & q & -> & _ & _ & K)]]]]]; try (exfalso; congruence).
    + right. exists y0. split; auto. congruence.
    + left. rewrite C in K. destruct u0; [|discriminate]. injection K as <-. reflexivity.
  - destruct (new_sub_cb _ _ _ _ _ _ H N N') as [K|(u0 & K)]; congruence.
Qed.

(** A callback of this form is called with the message that was received. *)
Definition honest (es : list event) : Prop := forall root s p u m, In (EvInvoke root s p (CallMsg u m)) es -> m = snd p.
Lemma step_honest l st st' es : step l st = Some (st', es) -> honest es.
Proof.
  intros Sx root s p u m I. destruct (invoke_inv _ _ _ _ _ _ _ _ Sx I) as (xb & b & ss & stk & rest & y & x' & _ & _ & _ & _ & _ & Rv & _).
  unfold receive in Rv. repeat match type of Rv with context [match ?z with _ => _ end] => destruct z end; try discriminate. now injection Rv.
Qed.

Lemma role_eqb_spec a b : reflect (a = b) (role_eqb a b).
Proof. destruct a, b; constructor; congruence. Qed.

Lemma flat_indexed {A B} (g : A -> list B) k : forall (ks : list A) n,
  flat_map (fun x => if Nat.eqb (fst x) k then g (snd x) else []) (combine (seq n (length ks)) ks) =
  if Nat.leb n k then match nth_error ks (k - n) with Some x => g x | None => [] end else [].
Proof.
  induction ks as [|a ks IH]; intros n; cbn [length seq combine flat_map].
  - destruct (Nat.leb n k); auto. destruct (k - n); reflexivity.
  - rewrite IH. cbn [fst snd]. destruct (Nat.eqb_spec n k) as [->|D].
    + rewrite Nat.leb_refl, Nat.sub_diag. replace (Nat.leb (S k) k) with false by (symmetry; apply Nat.leb_gt; lia). apply app_nil_r.
    + destruct (Nat.leb_spec n k).
      * replace (Nat.leb (S n) k) with true by (symmetry; apply Nat.leb_le; lia). replace (k - n) with (S (k - S n)) by lia. reflexivity.
      * replace (Nat.leb (S n) k) with false by (symmetry; apply Nat.leb_gt; lia). reflexivity.
Qed.

Lemma sent_app k r root a b : sent k r root (a ++ b) = sent k r root a ++ sent k r root b.
Proof. apply flat_map_app. Qed.
Lemma shown_app u root a b : shown u root (a ++ b) = shown u root a ++ shown u root b.
Proof. apply flat_map_app. Qed.
Lemma filter_app' {A} (f : A -> bool) a b : filter f (a ++ b) = filter f a ++ filter f b.
Proof. induction a; cbn; auto. destruct (f a); cbn; congruence. Qed.
Lemma shown_transmit u root ks e : shown u root (transmit ks e) = [].
Proof.
  destruct e; try reflexivity. destruct c; try reflexivity. cbn [transmit]. generalize (indexed ks). intros l. induction l as [|x l IH]; [reflexivity|]. cbn [flat_map].
  rewrite shown_app, IH, app_nil_r. destruct (Nat.eqb _ _); [|reflexivity]. induction (on_message (snd x) m0); auto.
Qed.

Lemma sent_roles k r root p k' root' lk m : sent k r root (map (fun q => NSent k' q root' p) (on_message lk m)) =
  if Nat.eqb k' k && Nat.eqb root' root && lk_socket lk (pub_socket r) && negb (markedb (lk_id lk) m) then [p] else [].
Proof.
  unfold on_message. rewrite sent_by_marked. destruct (markedb (lk_id lk) m); [now rewrite !andb_false_r|]. rewrite andb_true_r.
  destruct r; cbn [pub_socket]; destruct (lk_socket lk ServerPub), (lk_socket lk ClientPub); cbn; rewrite ?andb_true_r, ?andb_false_r; cbn; destruct (Nat.eqb k' k), (Nat.eqb root' root); reflexivity.
Qed.

Lemma sent_transmit ks k lk r root e : nth_error ks k = Some lk -> honest [e] ->
  sent k r root (transmit ks e) = if lk_socket lk (pub_socket r) then filter (fun p => negb (markedb (lk_id lk) (snd p))) (shown (lk_cb lk) root [NEv e]) else [].
Proof.
  intros Nk H. destruct e as [| | | | |r0 s m c| | | | | | |]; try (destruct (lk_socket lk (pub_socket r)); reflexivity). destruct c as [u m0| | |]; try (destruct (lk_socket lk (pub_socket r)); reflexivity).
  assert (m0 = snd m) as -> by (apply (H r0 s m u m0); now left). cbn [transmit shown flat_map].
  transitivity (flat_map (fun x => if Nat.eqb (fst x) k then (if Nat.eqb (lk_cb (snd x)) u && Nat.eqb r0 root && lk_socket (snd x) (pub_socket r) && negb (markedb (lk_id (snd x)) (snd m)) then [m] else []) else []) (indexed ks)).
  - generalize (indexed ks). intros l. induction l as [|x l IH]; [reflexivity|]. cbn [flat_map]. rewrite sent_app, IH. f_equal.
    destruct (Nat.eqb (lk_cb (snd x)) u); [|destruct (Nat.eqb (fst x) k); reflexivity]. rewrite sent_roles. destruct (Nat.eqb (fst x) k); reflexivity.
  - unfold indexed. rewrite (flat_indexed (fun y => if Nat.eqb (lk_cb y) u && Nat.eqb r0 root && lk_socket y (pub_socket r) && negb (markedb (lk_id y) (snd m)) then [m] else [])).
    cbn [Nat.leb]. rewrite Nat.sub_0_r, Nk, app_nil_r. rewrite (Nat.eqb_sym u (lk_cb lk)).
    destruct (Nat.eqb (lk_cb lk) u), (Nat.eqb r0 root), (lk_socket lk (pub_socket r)); cbn; destruct (markedb (lk_id lk) (snd m)); reflexivity.
Qed.

Lemma sent_observe ks k lk r root es : nth_error ks k = Some lk -> honest es ->
  sent k r root (observe ks es) = if lk_socket lk (pub_socket r) then filter (fun p => negb (markedb (lk_id lk) (snd p))) (shown (lk_cb lk) root (observe ks es)) else [].
Proof.
  intros Nk H. induction es as [|e es IH]; [destruct (lk_socket lk (pub_socket r)); reflexivity|].
  unfold observe in *. cbn [flat_map]. rewrite sent_app. rewrite IH by (intros a b c d f I; eapply H; right; exact I).
  change (sent k r root (NEv e :: transmit ks e)) with (sent k r root (transmit ks e)).
  rewrite (sent_transmit _ _ _ _ _ _ Nk) by (intros a b c d f [I|[]]; eapply H; left; exact I).
  rewrite shown_app. change (NEv e :: transmit ks e) with ([NEv e] ++ transmit ks e). rewrite shown_app, shown_transmit, app_nil_r, filter_app'.
  destruct (lk_socket lk (pub_socket r)); reflexivity.
Qed.

(** Over each role that has a socket, a link sends the messages its callback is called with, in this order, except for
    those that carry its identifier; over a role without a socket it sends nothing. *)
Theorem C59_sends : forall ks ls st evs k lk r root,
  nexec ks ls init = Some (st, evs) -> nth_error ks k = Some lk ->
  sent k r root evs =
  if lk_socket lk (pub_socket r) then filter (fun p => negb (markedb (lk_id lk) (snd p))) (shown (lk_cb lk) root evs) else [].
Proof.
  intros ks ls st evs k lk r root X Nk. revert X. generalize init. revert st evs.
  induction ls as [|l ls IH]; cbn [nexec]; intros st evs s0 X; [injection X as <- <-; destruct (lk_socket lk (pub_socket r)); reflexivity|].
  destruct (nstep ks l s0) as [[s1 e1]|] eqn:N; [|discriminate]. destruct (nexec ks ls s1) as [[s2 e2]|] eqn:E; [|discriminate]. injection X as <- <-.
  rewrite sent_app, shown_app, filter_app', (IH _ _ _ E).
  assert (sent k r root e1 = if lk_socket lk (pub_socket r) then filter (fun p => negb (markedb (lk_id lk) (snd p))) (shown (lk_cb lk) root e1) else []) as ->; [|destruct (lk_socket lk (pub_socket r)); reflexivity].
  destruct l as [x|k' q m']; cbn [nstep] in N.
  - destruct (step x s0) as [[s3 e4]|] eqn:Sx; [|discriminate]. injection N as <- <-. apply sent_observe; auto. eapply step_honest; eauto.
  - destruct (nth_error ks k') as [lk'|]; [|discriminate]. destruct (lk_socket lk' (sub_socket q)); [|discriminate].
    destruct (step _ s0) as [[s3 e4]|] eqn:Sx; [|discriminate]. injection N as <- <-.
    change (sent k r root (observe ks e4) = if lk_socket lk (pub_socket r) then filter (fun p => negb (markedb (lk_id lk) (snd p))) (shown (lk_cb lk) root (observe ks e4)) else []).
    apply sent_observe; auto. eapply step_honest; eauto.
Qed.
Print Assumptions C59_sends.

Definition called (u root : nat) (tr : list event) : list pubn :=
  flat_map (fun e => match e with EvInvoke root' _ p (CallMsg u' _) => if Nat.eqb u' u && Nat.eqb root' root then [p] else [] | _ => [] end) tr.
Lemma shown_called u root evs : shown u root evs = called u root (bus_events evs).
Proof.
  induction evs as [|e evs IH]; [reflexivity|]. destruct e as [e| |]; [|exact IH|exact IH].
  change (bus_events (NEv e :: evs)) with (e :: bus_events evs). unfold shown, called in *. cbn [flat_map]. rewrite IH. destruct e; reflexivity.
Qed.

Lemma sublist_app {A} (a b c d : list A) : sublist a b -> sublist c d -> sublist (a ++ c) (b ++ d).
Proof. intros H K. induction H; cbn; try constructor; auto. Qed.
Lemma sublist_nil {A} (l : list A) : sublist [] l.
Proof. induction l; constructor; auto. Qed.
Lemma sublist_nodup {A} (a b : list A) : sublist a b -> NoDup b -> NoDup a.
Proof.
  induction 1; intros D; inversion D; subst; try constructor; auto. intros I. match goal with K : ~ In _ _ |- _ => apply K end. eapply sublist_in; eauto.
Qed.

Lemma only_cb ls : forall st tr s u, exec ls init = Some (st, tr) -> (forall s', In (LSetMsg s' (Some u)) ls -> s' = s) ->
  forall s' y, nth_error (s_subs st) s' = Some y -> s_cb y = Some (CbMsg u) -> s' = s.
Proof.
  induction ls as [|l ls IH] using rev_ind; intros st tr s u H O s' y N C; [injection H as <- <-; destruct s'; discriminate|].
  rewrite exec_app in H. destruct (exec ls init) as [[s1 t1]|] eqn:H1; [|discriminate]. cbn [exec] in H.
  destruct (step l s1) as [[s2 e2]|] eqn:E; [|discriminate]. injection H as <- <-.
  destruct (cbmsg_back _ _ _ _ _ _ _ E N C) as [->|(y0 & N0 & C0)].
  - apply O. apply in_app_iff. right. now left.
  - eapply IH; eauto. intros z I. apply O. apply in_app_iff. auto.
Qed.

Lemma called_inbox ls : forall st tr s u root, exec ls init = Some (st, tr) -> (forall s', In (LSetMsg s' (Some u)) ls -> s' = s) ->
  sublist (called u root tr) (inbox root s tr).
Proof.
  induction ls as [|l ls IH] using rev_ind; intros st tr s u root H O; [injection H as <- <-; constructor|].
  rewrite exec_app in H. destruct (exec ls init) as [[s1 t1]|] eqn:H1; [|discriminate]. cbn [exec] in H.
  destruct (step l s1) as [[s2 e2]|] eqn:E; [|discriminate]. injection H as <- <-. rewrite app_nil_r.
  assert (forall s', In (LSetMsg s' (Some u)) ls -> s' = s) as O' by (intros z I; apply O; apply in_app_iff; auto).
  unfold called, inbox. rewrite !flat_map_app. apply sublist_app; [eapply IH; eauto|]. fold (called u root e2) (inbox root s e2).
  destruct (called u root e2) as [|p l0] eqn:Q; [apply sublist_nil|]. rewrite <- Q.
  assert (In p (called u root e2)) as I by (rewrite Q; now left). unfold called in I. apply in_flat_map in I as (e & Ie & I).
  destruct e as [| | | | |r0 s0 m c| | | | | | |]; try contradiction. destruct c as [u0 m0| | |]; try contradiction.
  destruct (Nat.eqb_spec u0 u) as [->|]; [|contradiction]. destruct (Nat.eqb_spec r0 root) as [->|]; [|contradiction].
  destruct (invoke_inv _ _ _ _ _ _ _ _ E Ie) as (xb & b & ss & stk & rest & y & x' & _ & _ & _ & Ny & _ & Rv & -> & _).
  assert (s_cb y = Some (CbMsg u)) as C.
  { unfold receive in Rv. rewrite Ny in Rv. destruct (s_cb y) as [[v|[v|]|p'|c']|]; try discriminate; [now injection Rv as ->|..];
    repeat match type of Rv with context [match ?z with _ => _ end] => destruct z end; try discriminate. }
  assert (s0 = s) as -> by (eapply only_cb; eauto). cbn. rewrite !Nat.eqb_refl. cbn. constructor. constructor.
Qed.

Lemma bus_labels_set ks ls s u : In (LSetMsg s u) (bus_labels ks ls) -> In (NBus (LSetMsg s u)) ls.
Proof.
  unfold bus_labels. intros I. apply in_flat_map in I as (l & Il & I). destruct l as [x|k r m]; [destruct I as [->|[]]; exact Il|].
  destruct (nth_error ks k); [destruct I as [I|[]]; discriminate|destruct I].
Qed.

(** A link whose callback is installed on one subscriber only (its own) sends each publication at most once over each role. *)
Theorem C59_once : forall ks ls st evs k lk r root s,
  nexec ks ls init = Some (st, evs) -> nth_error ks k = Some lk ->
  (forall s', In (NBus (LSetMsg s' (Some (lk_cb lk)))) ls -> s' = s) ->
  NoDup (sent k r root evs).
Proof.
  intros ks ls st evs k lk r root s X Nk O. rewrite (C59_sends _ _ _ _ _ _ r root X Nk). destruct (lk_socket lk (pub_socket r)); [|constructor].
  apply NoDup_filter. rewrite shown_called. pose proof (nexec_exec _ _ _ _ _ X) as XE.
  eapply sublist_nodup; [eapply (called_inbox _ _ _ s); [exact XE|]|eapply C20_once; exact XE]. intros s' I. apply O. eapply bus_labels_set; eauto.
Qed.
Print Assumptions C59_once.

Lemma always_imp (P Q : state -> Prop) ls : (forall s, P s -> Q s) -> forall st, always P ls st -> always Q ls st.
Proof. intros H. induction ls as [|l ls IH]; cbn; intros st (A & B); split; auto. destruct (step l st) as [[s e]|]; auto. Qed.

Lemma exec_at ls : forall st st' evs e, exec ls st = Some (st', evs) -> In e evs -> forall P, always P ls st ->
  exists l s1 s2 e2, P s1 /\ step l s1 = Some (s2, e2) /\ In e e2 /\ incl e2 evs.
Proof.
  induction ls as [|l ls IH]; cbn [exec]; intros st st' evs e H I P A; [injection H as <- <-; destruct I|].
  destruct (step l st) as [[s1 e1]|] eqn:N; [|discriminate]. destruct (exec ls s1) as [[s2 e2]|] eqn:E; [|discriminate]. injection H as <- <-.
  cbn [always] in A. rewrite N in A. destruct A as (A & B). apply in_app_iff in I as [I|I].
  - exists l, st, s1, e1. repeat split; auto. apply incl_appl, incl_refl.
  - destruct (IH _ _ _ _ E I _ B) as (l' & s3 & s4 & e4 & A1 & A2 & A3 & A4). exists l', s3, s4, e4. repeat split; auto. now apply incl_appr.
Qed.

Lemma sent_iff k r root p evs : In (NSent k r root p) evs <-> In p (sent k r root evs).
Proof.
  unfold sent. rewrite in_flat_map. split.
  - intros I. exists (NSent k r root p). split; auto. rewrite !Nat.eqb_refl. destruct r; now left.
  - intros (e & I & J). destruct e as [|k' r' root' p'|]; try contradiction. destruct (Nat.eqb_spec k' k) as [->|]; [|contradiction].
    destruct (role_eqb_spec r' r) as [->|]; [|contradiction]. destruct (Nat.eqb_spec root' root) as [->|]; [|contradiction]. destruct J as [->|[]]. exact I.
Qed.

(** While the link's subscriber [s] serves the root with the link's callback, every publication whose distribution
    completes and that does not carry the link's identifier is sent over every role that has a socket. *)
Theorem C59_all : forall ks ls0 st0 evs0 ls st evs k lk root b s,
  nexec ks ls0 init = Some (st0, evs0) -> nexec ks ls st0 = Some (st, evs) -> nth_error ks k = Some lk ->
  always (fun x => serving root b s x /\ nth_error (s_subs x) s = Some (mkSub "/**/*" (Some (CbMsg (lk_cb lk))))) (bus_labels ks ls) st0 ->
  (exists x, get_bus st0 root = Some x /\ current x = []) ->
  forall p r, In (NEv (EvEnd root p)) evs -> ~ marked (lk_id lk) (snd p) -> lk_socket lk (pub_socket r) = true -> In (NSent k r root p) evs.
Proof.
  intros ks ls0 st0 evs0 ls st evs k lk root b s X0 X Nk A I0 p r E M Sk.
  pose proof (nexec_exec _ _ _ _ _ X0) as XE0. pose proof (nexec_exec _ _ _ _ _ X) as XE.
  assert (reach st0) as Rc by (eexists; eauto).
  assert (nth_error (s_subs st0) s = Some (mkSub "/**/*" (Some (CbMsg (lk_cb lk))))) as Ns by (destruct (bus_labels ks ls); destruct A as ((_ & ?) & _); auto).
  assert (In (EvReceive root b s p) (bus_events evs)) as Rv.
  { eapply C20_every; [exact Rc| |exact XE|exact I0|exact Ns| |]; [|now apply in_bus_events|now right].
    eapply always_imp; [|exact A]. intros z (? & _). auto. }
  destruct (exec_at _ _ _ _ _ XE Rv _ A) as (l & s1 & s2 & e2 & (_ & N1) & Sx & I2 & IN).
  assert (In (EvInvoke root s p (CallMsg (lk_cb lk) (snd p))) e2) as Iv.
  { assert (about root (EvReceive root b s p) = true) as Ab by (simpl; apply Nat.eqb_refl).
    destruct (runner_label_dec l root) as [RL|RL]; [|rewrite (other_events _ _ _ _ _ _ Sx RL I2) in Ab; discriminate].
    destruct (BusLocks2.run_inv' _ _ _ _ _ Sx RL) as (x & rn & act & G & RC & Es).
    assert (receive s1 s (snd p) = InvCall (CallMsg (lk_cb lk) (snd p))) as Rs by (unfold receive; rewrite N1; reflexivity).
    inversion RC; subst l rn act e2; cbn [In] in I2; try contradiction;
      repeat match goal with H : _ \/ _ |- _ => destruct H as [I2|I2]; try discriminate I2; try contradiction end.
    - injection I2 as -> -> ->. congruence.
    - injection I2 as -> -> ->. right. left. congruence.
    - injection I2 as -> -> ->. congruence.
    - exfalso. apply in_app_iff in I2 as [I2|[I2|[]]]; [|discriminate]. apply in_map_iff in I2 as (? & I2 & _). discriminate.
    - exfalso. apply in_app_iff in I2 as [I2|[I2|[]]]; [|discriminate]. apply in_map_iff in I2 as (? & I2 & _). discriminate. }
  assert (In (NEv (EvInvoke root s p (CallMsg (lk_cb lk) (snd p)))) evs) as Iv' by (apply in_bus_events; auto).
  assert (nexec ks (ls0 ++ ls) init = Some (st, evs0 ++ evs)) as XX.
  { clear - X0 X. revert X0. generalize init. revert evs0. induction ls0 as [|l ls0 IH]; cbn [nexec app]; intros evs0 s0 X0; [now injection X0 as -> <-|].
    destruct (nstep ks l s0) as [[s1 e1]|]; [|discriminate]. destruct (nexec ks ls0 s1) as [[s2 e2]|] eqn:E; [|discriminate]. injection X0 as -> <-.
    rewrite (IH _ _ E), app_assoc. reflexivity. }
  pose proof (C59_sends _ _ _ _ _ _ r root XX Nk) as Q1. pose proof (C59_sends _ _ _ _ _ _ r root X0 Nk) as Q0. rewrite Sk in Q0, Q1.
  rewrite sent_app, shown_app, filter_app', Q0 in Q1. apply app_inv_head in Q1.
  apply sent_iff. rewrite Q1. apply filter_In. split.
  - unfold shown. apply in_flat_map. eexists. split; [exact Iv'|]. cbn. rewrite !Nat.eqb_refl. now left.
  - destruct (markedb (lk_id lk) (snd p)) eqn:Mb; auto. destruct M. now apply markedb_iff.
Qed.
Print Assumptions C59_all.

(** A link takes a message from the network over the subscribing socket of that role if it has one, and publishes it, marked,
    on its own bus; it publishes nothing it has no socket for. *)
Theorem C59_receives : forall ks k lk r m st, nth_error ks k = Some lk ->
  let has := lk_socket lk (match r with Server => ServerSub | Client => ClientSub end) in
  let marked := mkM (lk_id lk ++ "/" ++ bm_sender m) (bm_topic m) (bm_data m) in
  (has = false -> nstep ks (NReceive k r m) st = None) /\
  (has = true -> forall st' evs, step (LPublishMsg (lk_bus lk) marked) st = Some (st', evs) ->
     exists evs', nstep ks (NReceive k r m) st = Some (st', NReceived k r m (length (s_flights st)) :: evs') /\ bus_events evs' = evs).
Proof.
  intros ks k lk r m st Nk. cbn zeta. cbn [nstep]. rewrite Nk.
  assert (lk_socket lk (sub_socket r) = lk_socket lk (match r with Server => ServerSub | Client => ClientSub end)) as -> by (destruct r; reflexivity).
  split; [intros ->; reflexivity|]. intros -> st' evs S. unfold on_receive, prepend. rewrite S. eexists. split; [reflexivity|]. apply observe_bus.
Qed.
Print Assumptions C59_receives.

(** ** A concrete run: a link in the server role forwards a local message and publishes, but does not send out, one that
    came in. *)
Definition ex_link : link := mkLink "Link0" 1 7 (fun k => match k with ServerPub | ServerSub => true | _ => false end).
Definition ex_setup : list nlabel :=
  map NBus [LNewRoot "r"; LChild 0 "Link0"; LSub 1 "/**/*" None; LSetMsg 0 (Some 7); LPub 0 "t"; LStart 0].
Definition ex_local : pubn := (0, mkM "r" "t" (Val (DInt 5))).
Definition ex_foreign : bmsg := mkM "r" "t" (Val (DInt 6)).
Definition ex_traffic : list nlabel :=
  map NBus [LPublish 0 (Val (DInt 5)); LFly 0; LFly 0] ++ [NReceive 0 Server ex_foreign] ++ map NBus [LFly 1] ++
  map NBus (repeat (LRun 0) 7 ++ [LReturn 0] ++ repeat (LRun 0) 10 ++ [LReturn 0] ++ repeat (LRun 0) 5).

Definition ex_okb (st : state) : bool :=
  match s_buses st, s_subs st with
  | [x; y], [mkSub t (Some (CbMsg 7))] => b_run x && b_run y && existsb (Nat.eqb 0) (b_subs y) && existsb (Nat.eqb 1) (map snd (b_kids x)) && String.eqb t "/**/*"
  | _, _ => false
  end.
Lemma ex_okb_ok st : ex_okb st = true -> serving 0 1 0 st /\ nth_error (s_subs st) 0 = Some (mkSub "/**/*" (Some (CbMsg (lk_cb ex_link)))).
Proof.
  unfold ex_okb. destruct (s_buses st) as [|x [|y [|]]] eqn:Eb; try discriminate. destruct (s_subs st) as [|[t [[u|u|u|u]|]] [|q l]] eqn:Es; try discriminate.
  - do 7 (destruct u as [|u]; try discriminate). destruct u as [|u]; [|discriminate]. intros H.
    apply andb_true_iff in H as (H & H5). apply andb_true_iff in H as (H & H4). apply andb_true_iff in H as (H & H3). apply andb_true_iff in H as (H1 & H2).
    apply existsb_exists in H3 as (n & I & E). apply Nat.eqb_eq in E. subst n. apply existsb_exists in H4 as (n & I4 & E). apply Nat.eqb_eq in E. subst n. apply String.eqb_eq in H5. subst t.
    split; [|reflexivity]. split; [exists y; unfold get_bus; rewrite Eb; auto|]. split.
    + apply below_kid with 0; [constructor|]. exists x. unfold get_bus. rewrite Eb. auto.
    + intros c xc _ Gc. unfold get_bus in Gc. rewrite Eb in Gc. destruct c as [|[|[|]]]; try discriminate; injection Gc as <-; auto.
  - do 8 (destruct u as [|u]; try discriminate).
Qed.

Example C59_case : exists st0 evs0 st evs,
  nexec [ex_link] ex_setup init = Some (st0, evs0) /\ nexec [ex_link] ex_traffic st0 = Some (st, evs) /\
  always (fun x => serving 0 1 0 x /\ nth_error (s_subs x) 0 = Some (mkSub "/**/*" (Some (CbMsg (lk_cb ex_link))))) (bus_labels [ex_link] ex_traffic) st0 /\
  (exists x, get_bus st0 0 = Some x /\ current x = []) /\
  (forall s', In (NBus (LSetMsg s' (Some 7))) (ex_setup ++ ex_traffic) -> s' = 0) /\
  In (NReceived 0 Server ex_foreign 1) evs /\ In (NEv (EvAccept 0 1 (1, mkM "Link0/r" "t" (Val (DInt 6))))) evs /\
  In (NEv (EvEnd 0 ex_local)) evs /\ In (NEv (EvEnd 0 (1, mkM "Link0/r" "t" (Val (DInt 6))))) evs /\
  ~ marked "Link0" (snd ex_local) /\
  shown 7 0 evs = [ex_local; (1, mkM "Link0/r" "t" (Val (DInt 6)))] /\ sent 0 Server 0 evs = [ex_local] /\ sent 0 Client 0 evs = [].
Proof.
  do 4 eexists. split; [vm_compute; reflexivity|]. split; [vm_compute; reflexivity|].
  split; [apply (alwaysb_ok ex_okb); [apply ex_okb_ok|vm_compute; reflexivity]|]. split; [eexists; split; reflexivity|].
  split. { intros s' I. vm_compute in I. repeat (destruct I as [I|I]; [try discriminate I|]); try contradiction. now injection I. }
  split; [repeat (first [left; reflexivity|right])|]. split; [repeat (first [left; reflexivity|right])|].
  split; [repeat (first [left; reflexivity|right])|]. split; [repeat (first [left; reflexivity|right])|].
  split; [intros (rest & E); discriminate|]. vm_compute. auto.
Qed.

(** C49, C50: run state and stop requests. *)
From Coq Require Import List Arith Bool Lia.
From Verif Require Import LifeModel.
Import ListNotations.

(** ** Vocabulary *)

(** [s] comes about after the events [tr]. *)
Definition comes (s : life) (tr : list levent) : Prop := exists ls, lexec ls life_init = Some (s, tr).
(** The root bus runs: Bus::Start has set mShouldRun, Bus::Run has not returned. *)
Definition bus_runs (p : phase) : Prop := match p with Check | Wait | Test | Work _ => True | _ => False end.
(** Before that: the object exists, Start has not been called, or it has not got to the root bus. *)
Definition before_bus (p : phase) : Prop := p = Idle \/ p = Setup.
(** Steps of the thread in Start, as opposed to requests from elsewhere. *)
Definition own_step (l : llabel) : bool := match l with LStop | LStart | LMake => false | _ => true end.
(** Messages left to distribute. *)
Definition backlog (p : phase) : nat := match p with Work n => S n | _ => 0 end.

(** ** Executions *)

Lemma lexec_app ls1 : forall ls2 s s1 e1 s2 e2, lexec ls1 s = Some (s1, e1) -> lexec ls2 s1 = Some (s2, e2) -> lexec (ls1 ++ ls2) s = Some (s2, e1 ++ e2).
Proof.
  induction ls1 as [|l ls1 IH]; simpl; intros ls2 s s1 e1 s2 e2 H1 H2; [injection H1 as <- <-; auto|].
  destruct (lstep l s) as [[[s' e']|]|]; try discriminate. destruct (lexec ls1 s') as [[s1' e1']|] eqn:E; [|discriminate].
  injection H1 as <- <-. rewrite (IH _ _ _ _ _ _ E H2). now rewrite app_assoc.
Qed.

Lemma comes_ind (P : life -> list levent -> Prop) : P life_init [] ->
  (forall s tr l s' e, comes s tr -> P s tr -> lstep l s = Some (Some (s', e)) -> P s' (tr ++ e)) ->
  forall s tr, comes s tr -> P s tr.
Proof.
  intros H0 Hs.
  assert (forall ls s tr, comes s tr -> P s tr -> forall s' e, lexec ls s = Some (s', e) -> P s' (tr ++ e)) as G.
  { induction ls as [|l ls IH]; simpl; intros s tr C Ps s' e E; [injection E as <- <-; now rewrite app_nil_r|].
    destruct (lstep l s) as [[[s1 e1]|]|] eqn:St; try discriminate. destruct (lexec ls s1) as [[s2 e2]|] eqn:E2; [|discriminate].
    injection E as <- <-. rewrite app_assoc. apply (IH s1 (tr ++ e1)); auto; [|eapply Hs; eauto].
    destruct C as (ls0 & C). exists (ls0 ++ [l]). eapply lexec_app; eauto. simpl. rewrite St, app_nil_r. reflexivity. }
  intros s tr (ls & E). apply (G ls life_init []); auto. exists []. reflexivity.
Qed.

(** What always holds. *)
Record life_inv (s : life) (tr : list levent) : Prop := mkLI {
  li_made : lf_made s = false -> s = life_init /\ tr = [];
  li_run : lf_run s <> RsStopped;
  li_bus : lf_made s = true -> (lf_bus s = false <-> In EvCleared tr);
  li_phase : lf_phase s <> Idle -> lf_made s = true;
  li_here : bus_runs (lf_phase s) \/ lf_phase s = Ended \/ lf_phase s = Detached \/ lf_phase s = Unloaded -> lf_bus s = true;
  li_cleared : lf_phase s = Cleared -> lf_bus s = false;
  li_ended : lf_phase s = Ended \/ lf_phase s = Detached \/ lf_phase s = Unloaded -> lf_should s = false
}.

Lemma life_ok s tr : comes s tr -> life_inv s tr.
Proof.
  revert s tr. apply comes_ind.
  - constructor; simpl; auto; try congruence; try tauto; try (intros [[]|[|[|]]]; discriminate); intros [|[|]]; discriminate.
  - intros s tr l s' e _ [A B C D E F G] St. destruct s as [m p b sh r]; cbn in *.
    unfold lstep in St; cbn in St.
    destruct l, p as [| | | | |[|n0]| | | |]; cbn in St; try discriminate;
      try destruct m; try destruct b; try destruct sh; cbn in St; try discriminate; injection St as <- <-; constructor; cbn in *; auto;
      try (intros; discriminate); try (intros X; exfalso; destruct (A eq_refl) as (X1 & _); discriminate X1);
      try (intros _; rewrite in_app_iff; specialize (C eq_refl); simpl; intuition (try discriminate; try congruence); fail);
      try (intuition (try discriminate; try congruence); fail);
      try (intros; exfalso; intuition (try discriminate; try congruence); fail);
      try (destruct (A eq_refl) as (_ & ->); simpl; intuition discriminate).
Qed.

(** ** C49 *)
Theorem C49_never_stopped : forall s tr, comes s tr -> is_stopped s = false.
Proof. intros s tr C. apply life_ok in C as [_ B _ _ _ _ _]. unfold is_stopped. destruct (lf_run s); congruence. Qed.
Print Assumptions C49_never_stopped.

(** It would say so in the state Stopped; that state is never entered. *)
Theorem C49_is_stopped : (forall s, is_stopped s = true <-> lf_run s = RsStopped) /\ forall s tr, comes s tr -> lf_run s <> RsStopped.
Proof.
  split; [intros s; unfold is_stopped; destruct (lf_run s); split; congruence|]. intros s tr C. apply life_ok in C as [_ B _ _ _ _ _]. congruence.
Qed.
Print Assumptions C49_is_stopped.

(** ** C50: while the root bus runs, a stop request makes Start return after tearing down *)

Definition left_after_stop (p : phase) : nat :=
  match p with
  | Check => 5 | Wait => 6 | Test => 5 | Work n => n + 6 | Ended => 4 | Detached => 3 | Unloaded => 2 | Cleared => 1
  | Idle | Setup => 0
  end.
Definition still_to_come (p : phase) : list levent :=
  match p with
  | Check | Wait | Test | Work _ => [EvBusEnded; EvDetached; EvUnloaded; EvCleared; EvReturned]
  | Ended => [EvDetached; EvUnloaded; EvCleared; EvReturned]
  | Detached => [EvUnloaded; EvCleared; EvReturned]
  | Unloaded => [EvCleared; EvReturned]
  | Cleared => [EvReturned]
  | Idle | Setup => []
  end.
Definition stopping (s : life) : Prop :=
  lf_made s = true /\ lf_should s = false /\ lf_phase s <> Setup /\
  (lf_phase s <> Idle -> lf_phase s <> Cleared -> lf_bus s = true).

Lemma stopping_step l s s' e : stopping s -> own_step l = true \/ l = LStop -> lstep l s = Some (Some (s', e)) ->
  stopping s' /\ (if own_step l then 1 else 0) + left_after_stop (lf_phase s') <= left_after_stop (lf_phase s) /\
  (e ++ still_to_come (lf_phase s') = still_to_come (lf_phase s) \/
   lf_phase s' = Idle /\ exists x, e = [EvRaised x] /\ (lf_phase s = Detached \/ bus_runs (lf_phase s))).
Proof.
  intros (M & S & NS & B) O St. destruct s as [m p b sh r]; cbn in *. subst m sh. unfold stopping.
  destruct l, p as [| | | | |[|n0]| | | |]; cbn in St, O; try discriminate; try (destruct O; discriminate); try congruence;
    try destruct b; cbn in St; try discriminate; injection St as <- <-; cbn; repeat split; auto; try discriminate; try congruence; try lia; try (intros; apply B; discriminate); right; split; eauto.
Qed.

Lemma stopping_run ls : forall s s2 e, stopping s -> Forall (fun l => own_step l = true \/ l = LStop) ls -> lexec ls s = Some (s2, e) ->
  stopping s2 /\ length (filter own_step ls) + left_after_stop (lf_phase s2) <= left_after_stop (lf_phase s) /\
  (e ++ still_to_come (lf_phase s2) = still_to_come (lf_phase s) \/
   lf_phase s2 = Idle /\ exists e' x, e = e' ++ [EvRaised x] /\ (e' ++ [EvUnloaded; EvCleared; EvReturned] = still_to_come (lf_phase s) \/ e' = [] /\ bus_runs (lf_phase s))).
Proof.
  induction ls as [|l ls IH]; intros s s2 e H F E; [injection E as <- <-; auto|]. cbn [lexec] in E.
  destruct (lstep l s) as [[[s1 e1]|]|] eqn:St; try discriminate. destruct (lexec ls s1) as [[s2' e2]|] eqn:E2; [|discriminate].
  injection E as <- <-. inversion F as [|? ? Hl F']; subst. destruct (stopping_step _ _ _ _ H Hl St) as (H1 & C1 & T1).
  destruct (IH _ _ _ H1 F' E2) as (H2 & C2 & T2). split; auto. split.
  - cbn [filter]. destruct (own_step l); cbn [length]; lia.
  - destruct T1 as [T1|(P1 & x & -> & Q)].
    + destruct T2 as [T2|(P2 & e' & x & -> & Q)]; [left; now rewrite <- app_assoc, T2|]. right. split; auto. exists (e1 ++ e'), x. split; [now rewrite app_assoc|].
      destruct Q as [Q|(-> & Q)]; [left; now rewrite <- app_assoc, Q|]. rewrite app_nil_r. clear IH E2 F F' H2 C2.
      assert (length (e1 ++ still_to_come (lf_phase s1)) = length (still_to_come (lf_phase s))) as L by now rewrite T1. rewrite app_length in L.
      assert (length (still_to_come (lf_phase s1)) = 5) as L1 by (destruct (lf_phase s1); auto; contradiction).
      assert (bus_runs (lf_phase s)) by (destruct (lf_phase s); cbn in *; auto; lia).
      right. split; auto. apply length_zero_iff_nil. destruct (lf_phase s); cbn in L; lia.
    + rewrite P1 in T2, C2. cbn in T2, C2. assert (e2 = [] /\ lf_phase s2' = Idle) as (-> & P2).
      { destruct T2 as [T2|(P2 & e' & y & -> & [Q2|(_ & [])])]; [|apply (f_equal (@length levent)) in Q2; rewrite app_length in Q2; cbn in Q2; lia].
        apply app_eq_nil in T2 as (-> & T2). split; auto. destruct (lf_phase s2') eqn:E3; try discriminate; auto. now destruct H2 as (_ & _ & X & _). }
      right. split; auto. exists [], x. split; auto. destruct Q as [->|Q]; auto.
Qed.

(** However long the messages in hand take, and whatever further stop requests come in: after at most
    [backlog + 6] more steps Start has returned, having detached and dropped the bus and unloaded the
    templates, or an exception of a callback or of a plugin being unloaded has left it; and it does not get stuck before. *)
Theorem C50_stop_while_running : forall s tr, comes s tr -> bus_runs (lf_phase s) ->
  exists s', lstep LStop s = Some (Some (s', [])) /\
  forall ls s2 e, Forall (fun l => own_step l = true \/ l = LStop) ls -> lexec ls s' = Some (s2, e) ->
    length (filter own_step ls) <= backlog (lf_phase s) + 6 /\
    (lf_phase s2 <> Idle -> exists l s3 e3, own_step l = true /\ lstep l s2 = Some (Some (s3, e3))) /\
    (lf_phase s2 = Idle -> e = [EvBusEnded; EvDetached; EvUnloaded; EvCleared; EvReturned] \/
                           exists x, e = [EvRaised x] \/ e = [EvBusEnded; EvDetached; EvRaised x]).
Proof.
  intros s tr C R. pose proof (life_ok _ _ C) as [A B Cb D E F G].
  assert (lf_phase s <> Idle) as NI by (intros X; rewrite X in R; exact R).
  assert (lf_bus s = true) as Hb by auto. specialize (D NI).
  set (s' := mkLife true (lf_phase s) true false (lf_run s)).
  exists s'. split; [unfold lstep, s'; rewrite D, Hb; cbn; destruct (lf_phase s); cbn; reflexivity|].
  intros ls s2 e Fo Ex. assert (stopping s') as St.
  { repeat split; cbn; auto. intros X. rewrite X in R. exact R. }
  destruct (stopping_run _ _ _ _ St Fo Ex) as ((M2 & S2 & P2 & B2) & Cn & T). split; [|split].
  - cbn in Cn. destruct (lf_phase s); cbn in *; try contradiction; lia.
  - intros N. destruct s2 as [m2 p2 b2 sh2 r2]; cbn in *. subst m2 sh2.
    destruct p2 as [| | | | |[|n2]| | | |]; try congruence; try (rewrite B2 by discriminate).
    + exists LCheck. eexists _, _. split; reflexivity.
    + exists LWake. eexists _, _. split; reflexivity.
    + exists (LTest 0). eexists _, _. split; reflexivity.
    + exists LWork. eexists _, _. split; reflexivity.
    + exists LWork. eexists _, _. split; reflexivity.
    + exists LDetach. eexists _, _. split; reflexivity.
    + exists LUnload. eexists _, _. split; reflexivity.
    + exists LClear. eexists _, _. split; reflexivity.
    + exists LReturn. eexists _, _. split; reflexivity.
  - intros X. assert (still_to_come (lf_phase s') = [EvBusEnded; EvDetached; EvUnloaded; EvCleared; EvReturned]) as Y by (cbn; destruct (lf_phase s); cbn in *; contradiction || reflexivity).
    rewrite Y, X in T. cbn [still_to_come] in T. rewrite app_nil_r in T. destruct T as [->|(_ & e' & x & -> & [Q|(-> & _)])]; [auto| |right; exists x; auto].
    right. exists x. right. change [EvBusEnded; EvDetached; EvUnloaded; EvCleared; EvReturned] with ([EvBusEnded; EvDetached] ++ [EvUnloaded; EvCleared; EvReturned]) in Q.
    apply app_inv_tail in Q. now subst e'.
Qed.
Print Assumptions C50_stop_while_running.

(** ** C50: a request that comes before is forgotten *)

Definition without_request (s : life) : life := mkLife (lf_made s) (lf_phase s) (lf_bus s) false (lf_run s).

(** Between start and stop: not ended otherwise than by an exception. *)
Definition unended (s : life) : Prop := before_bus (lf_phase s) \/ bus_runs (lf_phase s) /\ lf_should s = true.
Lemma running_run ls : forall s s1 e, unended s -> lf_made s = true -> ~ In LStop ls -> lexec ls s = Some (s1, e) ->
  unended s1 /\ ~ In EvBusEnded e /\ ~ In EvReturned e /\ (bus_runs (lf_phase s) -> bus_runs (lf_phase s1) \/ exists x, In (EvRaised x) e).
Proof.
  induction ls as [|l ls IH]; intros s s1 e R M N E; [injection E as <- <-; auto 10|]. cbn [lexec] in E.
  destruct (lstep l s) as [[[s' e']|]|] eqn:St; try discriminate. destruct (lexec ls s') as [[s2 e2]|] eqn:E2; [|discriminate].
  injection E as <- <-.
  assert (unended s' /\ lf_made s' = true /\ (e' = [] \/ e' = [EvBusStarted] \/ exists x, e' = [EvRaised x]) /\ (bus_runs (lf_phase s) -> bus_runs (lf_phase s') \/ exists x, e' = [EvRaised x])) as (R' & M' & Ee & Br).
  { unfold unended, before_bus in *. destruct s as [m p b sh r]; cbn in *. subst m.
    destruct l, p as [| | | | |[|n0]| | | |]; cbn in St, R; try discriminate; try (exfalso; apply N; simpl; auto; fail); try (destruct R as [[R|R]|(R & R')]; try discriminate; try contradiction); subst;
      try destruct b; try discriminate; injection St as <- <-; cbn; repeat split; eauto 6; try tauto. }
  apply (IH s' s2 e2) in E2 as (R2 & N1 & N2 & B2); auto; [|intros I; apply N; simpl; auto]. split; auto. rewrite !in_app_iff.
  split; [intros [X|X]; [|auto]; destruct Ee as [->|[->|(x & ->)]]; simpl in X; intuition discriminate|].
  split; [intros [X|X]; [|auto]; destruct Ee as [->|[->|(x & ->)]]; simpl in X; intuition discriminate|].
  intros B. destruct (Br B) as [B'|(x & ->)]; [|right; exists x; simpl; auto]. destruct (B2 B') as [B3|(x & X)]; auto. right. exists x. apply in_or_app. auto.
Qed.

Lemma before_run ls : forall s s1 e, before_bus (lf_phase s) -> lf_made s = true -> ~ In LStop ls -> lexec ls s = Some (s1, e) ->
  (before_bus (lf_phase s1) /\ ~ In EvBusStarted e /\ lexec ls (without_request s) = Some (without_request s1, e)) \/
  (lexec ls (without_request s) = Some (s1, e) /\ ~ In EvBusEnded e /\ ~ In EvReturned e /\
   (bus_runs (lf_phase s1) \/ exists e1 x e2, e = e1 ++ EvBusStarted :: e2 /\ In (EvRaised x) e2)).
Proof.
  induction ls as [|l ls IH]; intros s s1 e B M N E.
  - injection E as <- <-. left. auto.
  - cbn [lexec] in E. destruct (lstep l s) as [[[s' e']|]|] eqn:St; try discriminate.
    destruct (lexec ls s') as [[s2 e2]|] eqn:E2; [|discriminate]. injection E as <- <-.
    assert (~ In LStop ls) as N' by (intros I; apply N; simpl; auto).
    assert (lf_made s' = true /\ ((before_bus (lf_phase s') /\ (e' = [] \/ exists x, e' = [EvRaised x]) /\ lstep l (without_request s) = Some (Some (without_request s', e'))) \/
            (bus_runs (lf_phase s') /\ lf_should s' = true /\ e' = [EvBusStarted] /\ lstep l (without_request s) = Some (Some (s', e'))))) as (M' & D).
    { unfold before_bus, without_request in *. destruct s as [m p b sh r]; cbn in *. subst m.
      destruct B as [-> | ->]; destruct l; cbn in St |- *; try discriminate; try (exfalso; apply N; simpl; auto; fail);
        try destruct b; try discriminate; injection St as <- <-; cbn; split; eauto 10. }
    cbn [lexec]. destruct D as [(B' & Ee & St')|(R' & S' & -> & St')]; rewrite St'.
    + destruct (IH _ _ _ B' M' N' E2) as [(B2 & N2 & X)|(X & N2 & N3 & G)]; rewrite X.
      * left. split; auto. split; auto. rewrite in_app_iff. destruct Ee as [-> |(x & ->)]; simpl; intuition discriminate.
      * right. split; auto. rewrite !in_app_iff. split; [destruct Ee as [-> |(x & ->)]; simpl; intuition discriminate|]. split; [destruct Ee as [-> |(x & ->)]; simpl; intuition discriminate|].
        destruct G as [G|(e3 & x & e4 & -> & J)]; auto. right. exists (e' ++ e3), x, e4. split; auto. now rewrite app_assoc.
    + right. rewrite E2. destruct (running_run _ _ _ _ (or_intror (conj R' S')) M' N' E2) as (_ & N1 & N2 & G). split; auto. simpl. split; [intuition discriminate|]. split; [intuition discriminate|].
      destruct (G R') as [G'|(x & J)]; auto. right. exists [], x, e2. auto.
Qed.

(** With or without the request, the same happens: once the root bus has been started the states are the
    same, and without a further request the bus keeps running and Start does not return, unless an exception ends it. *)
Theorem C50_stop_before_forgotten : forall s tr, comes s tr -> before_bus (lf_phase s) -> lf_made s = true -> lf_bus s = true ->
  exists s', lstep LStop s = Some (Some (s', [])) /\
  forall ls s1 e, ~ In LStop ls -> lexec ls s = Some (s1, e) -> In EvBusStarted e ->
    lexec ls s' = Some (s1, e) /\ ~ In EvBusEnded e /\ ~ In EvReturned e /\
    (bus_runs (lf_phase s1) \/ exists e1 x e2, e = e1 ++ EvBusStarted :: e2 /\ In (EvRaised x) e2).
Proof.
  intros s tr C B M Hb. exists (without_request s). split.
  - unfold lstep, without_request. rewrite M, Hb. destruct (lf_phase s); reflexivity.
  - intros ls s1 e N E I. destruct (before_run _ _ _ _ B M N E) as [(_ & X & _)|X]; [contradiction|auto].
Qed.
Print Assumptions C50_stop_before_forgotten.

(** ** C50: a request that comes too late, or before the object exists, dereferences a null pointer *)
Theorem C50_stop_null : forall s tr, comes s tr -> (lstep LStop s = Some None <-> lf_made s = false \/ In EvCleared tr).
Proof.
  intros s tr C. pose proof (life_ok _ _ C) as [A B Cb D E F G].
  assert (lstep LStop s = Some None <-> lf_made s && lf_bus s = false) as ->.
  { unfold lstep. destruct (lf_phase s), (lf_made s && lf_bus s); split; congruence. }
  destruct (lf_made s); cbn; [|tauto]. rewrite (Cb eq_refl). intuition discriminate.
Qed.
Print Assumptions C50_stop_null.

(** In between, from the end of the bus to the point where it is dropped, a request changes nothing. *)
Theorem C50_stop_during_teardown : forall s tr, comes s tr -> lf_phase s = Ended \/ lf_phase s = Detached \/ lf_phase s = Unloaded ->
  lstep LStop s = Some (Some (s, [])).
Proof.
  intros s tr C P. pose proof (life_ok _ _ C) as [A B Cb D E F G].
  assert (lf_bus s = true) as Hb by (apply E; tauto). assert (lf_should s = false) as Hs by auto.
  assert (lf_made s = true) as Hm by (apply D; destruct P as [-> |[-> | ->]]; discriminate).
  unfold lstep. rewrite Hm, Hb. destruct s; cbn in *. subst. destruct P as [-> |[-> | ->]]; reflexivity.
Qed.
Print Assumptions C50_stop_during_teardown.

(** The object cannot be started again. *)
Theorem C50_no_restart : forall s tr, comes s tr -> In EvCleared tr -> lf_phase s = Setup -> lstep LBus s = Some None.
Proof.
  intros s tr C I P. pose proof (life_ok _ _ C) as [A B Cb D E F G].
  assert (lf_made s = true) as Hm by (apply D; rewrite P; discriminate).
  unfold lstep. rewrite P. rewrite (proj2 (Cb Hm) I). reflexivity.
Qed.
Print Assumptions C50_no_restart.

(** ** C50: Start gets there *)

(** An object that is made, not started, and has not been torn down can be started, and its bus then runs: Start
    has no other way but an exception out of its setup. *)
Theorem C50_start : forall s tr, comes s tr -> lf_phase s = Idle ->
  (lf_made s = false -> exists s0, lstep LMake s = Some (Some (s0, [])) /\ lf_made s0 = true /\ lf_phase s0 = Idle) /\
  (lf_made s = true -> ~ In EvCleared tr -> exists s1 s2, lstep LStart s = Some (Some (s1, [])) /\
     lstep LBus s1 = Some (Some (s2, [EvBusStarted])) /\ bus_runs (lf_phase s2) /\
     forall l s3 e, l <> LStop -> lstep l s1 = Some (Some (s3, e)) -> s3 = s2 \/ exists x, e = [EvRaised x]).
Proof.
  intros s tr C P. pose proof (life_ok _ _ C) as [A B Cb D E F G]. split.
  - intros M. unfold lstep. rewrite P, M. eexists. split; [reflexivity|]. split; reflexivity.
  - intros M N. assert (lf_bus s = true) as Hb by (destruct (lf_bus s) eqn:X; [reflexivity|]; exfalso; apply N; apply (Cb M); reflexivity).
    unfold lstep. rewrite P, M, Hb. eexists _, _. split; [reflexivity|]. cbn. split; [reflexivity|]. split; [exact I|].
    intros l s3 e Ns St. destruct l; try discriminate St; try congruence; injection St as <- <-; [right; eexists; reflexivity|left; reflexivity].
Qed.
Print Assumptions C50_start.

Lemma work_off n : forall m b r, lexec (repeat LWork (S n)) (mkLife m (Work n) b false r) = Some (mkLife m Check b false r, []).
Proof.
  induction n as [|n IH]; intros m b r; [reflexivity|].
  change (repeat LWork (S (S n))) with (LWork :: repeat LWork (S n)). cbn [lexec]. unfold lstep. cbn [lf_phase lf_made lf_bus lf_should lf_run]. rewrite IH. reflexivity.
Qed.

(** Once asked to stop while its bus runs, Start can return, with all its teardown. *)
Theorem C50_can_return : forall s tr, comes s tr -> bus_runs (lf_phase s) ->
  exists s1 ls s2, lstep LStop s = Some (Some (s1, [])) /\ Forall (fun l => own_step l = true /\ forall x, l <> LRaise x) ls /\
    lexec ls s1 = Some (s2, [EvBusEnded; EvDetached; EvUnloaded; EvCleared; EvReturned]) /\ lf_phase s2 = Idle.
Proof.
  intros s tr C R. pose proof (life_ok _ _ C) as [A B Cb D E F G].
  assert (lf_phase s <> Idle) as NI by (intros X; rewrite X in R; exact R).
  assert (lf_bus s = true) as Hb by auto. specialize (D NI).
  set (back := [LDetach; LUnload; LClear; LReturn]).
  assert (forall p l, p = Check /\ l = [LCheck] \/ p = Wait /\ l = [LWake; LTest 0] \/ p = Test /\ l = [LTest 0] \/ (exists n, p = Work n /\ l = repeat LWork (S n) ++ [LCheck]) ->
    Forall (fun l => own_step l = true /\ forall x, l <> LRaise x) (l ++ back) /\
    exists s2, lexec (l ++ back) (mkLife true p true false (lf_run s)) = Some (s2, [EvBusEnded; EvDetached; EvUnloaded; EvCleared; EvReturned]) /\ lf_phase s2 = Idle) as X.
  { assert (forall l, In l back \/ l = LCheck \/ l = LWake \/ l = LTest 0 \/ l = LWork -> own_step l = true /\ forall x, l <> LRaise x) as Ok
      by (intros l [[<-|[<-|[<-|[<-|[]]]]]|[->|[->|[->| ->]]]]; split; try reflexivity; intros x; discriminate).
    intros p l [(-> & ->)|[(-> & ->)|[(-> & ->)|(n & -> & ->)]]].
    - split; [apply Forall_forall; intros l I; apply Ok; cbn in *; intuition auto|]. eexists. split; reflexivity.
    - split; [apply Forall_forall; intros l I; apply Ok; cbn in *; intuition auto|]. eexists. split; reflexivity.
    - split; [apply Forall_forall; intros l I; apply Ok; cbn in *; intuition auto|]. eexists. split; reflexivity.
    - split.
      + rewrite <- app_assoc. apply Forall_app. split; [apply Forall_forall; intros l I; apply repeat_spec in I as ->; apply Ok; auto|].
        apply Forall_forall; intros l I; apply Ok; cbn in *; intuition auto.
      + eexists. rewrite <- app_assoc. split; [|shelve]. eapply (lexec_app _ _ _ _ [] _ _ (work_off n true true (lf_run s))). reflexivity.
        Unshelve. reflexivity. }
  assert (exists l, lf_phase s = Check /\ l = [LCheck] \/ lf_phase s = Wait /\ l = [LWake; LTest 0] \/ lf_phase s = Test /\ l = [LTest 0] \/ (exists n, lf_phase s = Work n /\ l = repeat LWork (S n) ++ [LCheck])) as (l & Hl)
    by (destruct (lf_phase s); try contradiction R; eauto 9).
  destruct (X _ _ Hl) as (Fo & s2 & Ex & P2).
  exists (mkLife true (lf_phase s) true false (lf_run s)), (l ++ back), s2.
  split; [unfold lstep; rewrite D, Hb; destruct (lf_phase s); reflexivity|]. auto.
Qed.
Print Assumptions C50_can_return.

(** An exception out of the setup, out of a callback, and out of a plugin being unloaded leaves Start, with whatever was to
    come after left undone; nothing else is thrown. *)
Theorem C50_raise : forall s tr x, comes s tr ->
  ((exists s', lstep (LRaise x) s = Some (Some (s', [EvRaised x])) /\ lf_phase s' = Idle /\ lf_bus s' = lf_bus s) <->
   lf_phase s = Setup \/ lf_phase s = Detached \/ exists n, lf_phase s = Work (S n)) /\
  lstep (LRaise x) s <> Some None.
Proof.
  intros s tr x C. split; [split|].
  - intros (s' & St & _). unfold lstep in St. destruct (lf_phase s) as [| | | | |[|n]| | | |]; try discriminate St; eauto.
  - intros H. unfold lstep. destruct H as [-> |[-> |(n & ->)]]; eexists; (split; [reflexivity|]); auto.
  - unfold lstep. destruct (lf_phase s) as [| | | | |[|n]| | | |]; discriminate.
Qed.
Print Assumptions C50_raise.

(** ** Cases *)
Definition up : list llabel := [LMake; LStart; LBus; LCheck; LWake; LTest 2; LWork].
Definition down : list llabel := [LStop; LWork; LWork; LCheck; LDetach; LUnload; LClear; LReturn].
Definition state_after (ls : list llabel) : life := match lexec ls life_init with Some (s, _) => s | None => life_init end.
Definition events_after (ls : list llabel) : list levent := match lexec ls life_init with Some (_, e) => e | None => [] end.

Example C49_case : comes (state_after (up ++ down)) (events_after (up ++ down)) /\ is_stopped (state_after (up ++ down)) = false /\
  lf_run (state_after (up ++ down)) = RsRunning.
Proof. split; [exists (up ++ down); reflexivity|]. split; reflexivity. Qed.
Example C50_running_case : comes (state_after up) (events_after up) /\ lf_phase (state_after up) = Work 1 /\
  lf_phase (state_after (up ++ down)) = Idle /\ events_after (up ++ down) = [EvBusStarted; EvBusEnded; EvDetached; EvUnloaded; EvCleared; EvReturned].
Proof. split; [exists up; reflexivity|]. repeat split. Qed.
(** A callback throws after the request, or a plugin while it is unloaded. *)
Example C50_raised_case : events_after (up ++ [LStop; LRaise RuntimeError]) = [EvBusStarted; EvRaised RuntimeError] /\
  events_after (up ++ [LStop; LWork; LWork; LCheck; LDetach; LRaise OtherError]) = [EvBusStarted; EvBusEnded; EvDetached; EvRaised OtherError] /\
  lf_phase (state_after (up ++ [LStop; LWork; LWork; LCheck; LDetach; LRaise OtherError])) = Idle.
Proof. repeat split. Qed.
(** Two requests before the bus starts, none after: it runs. *)
Example C50_before_case : comes (state_after [LMake; LStop; LStart]) [] /\ before_bus (lf_phase (state_after [LMake; LStop; LStart])) /\
  lf_bus (state_after [LMake; LStop; LStart]) = true /\
  state_after [LMake; LStop; LStart; LStop; LBus; LCheck; LWake] = state_after [LMake; LStart; LBus; LCheck; LWake] /\
  lf_phase (state_after [LMake; LStart; LBus; LCheck; LWake]) = Test.
Proof. split; [exists [LMake; LStop; LStart]; reflexivity|]. split; [right; reflexivity|]. repeat split. Qed.
Example C50_null_case : lstep LStop life_init = Some None /\ lstep LStop (state_after (up ++ down)) = Some None /\ In EvCleared (events_after (up ++ down)) /\
  comes (state_after (up ++ firstn 5 down)) (events_after (up ++ firstn 5 down)) /\ lf_phase (state_after (up ++ firstn 5 down)) = Detached /\
  comes (state_after (up ++ down ++ [LStart])) (events_after (up ++ down)) /\ lf_phase (state_after (up ++ down ++ [LStart])) = Setup.
Proof.
  split; [reflexivity|]. split; [reflexivity|]. split; [vm_compute; repeat (first [left; reflexivity|right])|]. split; [exists (up ++ firstn 5 down); reflexivity|]. split; [reflexivity|].
  split; [exists (up ++ down ++ [LStart]); reflexivity|reflexivity].
Qed.

Example C50_start_case : comes (state_after [LMake]) [] /\ lf_phase (state_after [LMake]) = Idle /\ lf_made (state_after [LMake]) = true /\
  lf_phase (state_after (up ++ firstn 5 down)) = Detached /\ events_after (up ++ firstn 5 down) = [EvBusStarted; EvBusEnded; EvDetached].
Proof. split; [exists [LMake]; reflexivity|]. repeat split. Qed.

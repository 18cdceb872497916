(** C80: how the program ends. *)
From Coq Require Import List Arith Bool Lia.
From Verif Require Import LifeModel ProgModel.
Import ListNotations.

(** * C80 *)

Lemma pexec_snoc ls : forall l s s2 e o, pexec (ls ++ [l]) s = Some (s2, e, o) ->
  exists s1 e1 o1 e2 o2, pexec ls s = Some (s1, e1, o1) /\ pstep l s1 = Some (Some (s2, e2, o2)) /\ e = e1 ++ e2 /\ o = o1 ++ o2.
Proof.
  induction ls as [|a ls IH]; intros l s s2 e o H; simpl in H.
  - destruct (pstep l s) as [[[[s1 e1] o1]|]|] eqn:E; try discriminate. injection H as <- <- <-. exists s, [], [], e1, o1. rewrite !app_nil_r. auto.
  - simpl. destruct (pstep a s) as [[[[s1 e1] o1]|]|] eqn:E; try discriminate. destruct (pexec (ls ++ [l]) s1) as [[[s3 e3] o3]|] eqn:E3; [|discriminate]. injection H as <- <- <-.
    destruct (IH _ _ _ _ _ E3) as (s4 & e4 & o4 & e5 & o5 & X & Y & -> & ->). rewrite X. exists s4, (e1 ++ e4), (o1 ++ o4), e5, o5. rewrite !app_assoc. auto.
Qed.

(** The events and the output so far, and whether a signal has come since the root bus was started. *)
Definition upto (p : phase) : list levent :=
  match p with
  | Idle | Setup => []
  | Check | Wait | Test | Work _ => [EvBusStarted]
  | Ended => [EvBusStarted; EvBusEnded]
  | Detached => [EvBusStarted; EvBusEnded; EvDetached]
  | Unloaded => [EvBusStarted; EvBusEnded; EvDetached; EvUnloaded]
  | Cleared => [EvBusStarted; EvBusEnded; EvDetached; EvUnloaded; EvCleared]
  end.
Definition running (p : phase) : bool := match p with Check | Wait | Test | Work _ => true | _ => false end.
(** A signal came after the root bus had been started and before it ended. *)
Definition signalled (ls : list plabel) : Prop :=
  exists l1 l2 s e o, ls = l1 ++ PSignal :: l2 /\ pexec l1 prog_init = Some (s, e, o) /\ e = [EvBusStarted].
Lemma signalled_app ls l : signalled ls -> signalled (ls ++ [l]).
Proof. intros (l1 & l2 & s & e & o & -> & X & E). exists l1, (l2 ++ [l]), s, e, o. rewrite <- app_assoc. auto. Qed.

Record pinv (ls : list plabel) (s : prog) (e : list levent) (o : list line) : Prop := mkPI {
  pi_begin : pg_pc s = PBegin -> pg_life s = life_init /\ e = [] /\ o = [];
  pi_hook : pg_pc s = PHooked -> pg_life s = life_init /\ e = [] /\ o = [Hooking; Starting];
  pi_made : pg_pc s = PMade -> lf_made (pg_life s) = true /\ lf_bus (pg_life s) = true /\ lf_phase (pg_life s) = Idle /\ e = [] /\ o = [Hooking; Starting];
  pi_run : pg_pc s = PStarted -> lf_made (pg_life s) = true /\ lf_phase (pg_life s) <> Idle /\ e = upto (lf_phase (pg_life s)) /\ o = [Hooking; Starting] /\
    (lf_bus (pg_life s) = true <-> lf_phase (pg_life s) <> Cleared) /\
    (if running (lf_phase (pg_life s)) then lf_should (pg_life s) = false -> signalled ls else lf_phase (pg_life s) <> Setup -> signalled ls);
  pi_exit : pg_pc s = PExit -> e = [EvBusStarted; EvBusEnded; EvDetached; EvUnloaded; EvCleared; EvReturned] /\ o = [Hooking; Starting; Exiting] /\ signalled ls;
  pi_abort : forall x, pg_pc s = PAbort x ->
    e = [] /\ o = [Hooking; Starting] \/
    ((exists p, (p = Setup \/ (exists n, p = Work n) \/ p = Detached) /\ e = upto p ++ [EvRaised x] /\ (p = Detached -> signalled ls)) /\
     o = match x with RuntimeError => [Hooking; Starting; What] | OtherError => [Hooking; Starting] end)
}.

Lemma pinv_ok ls : forall s e o, pexec ls prog_init = Some (s, e, o) -> pinv ls s e o.
Proof.
  induction ls as [|l ls IH] using rev_ind; intros s2 e o X; [injection X as <- <- <-; constructor; simpl; auto; discriminate|].
  destruct (pexec_snoc _ _ _ _ _ _ X) as (s & e1 & o1 & e2 & o2 & X1 & St & -> & ->).
  destruct (IH _ _ _ X1) as [A B C D E F]. clear IH X. destruct s as [pc f]. cbn in *.
  assert (signalled ls -> signalled (ls ++ [l])) as Sg by (apply signalled_app).
  destruct l as [| |x| |l|]; cbn in St; destruct pc as [| | | | |x0]; cbn in St; try discriminate.
  - injection St as <- <- <-. destruct (A eq_refl) as (-> & -> & ->). constructor; cbn; try discriminate; auto.
  - destruct (B eq_refl) as (-> & -> & ->). cbn in St. injection St as <- <- <-. constructor; cbn; try discriminate; auto 10.
  - injection St as <- <- <-. destruct (B eq_refl) as (-> & -> & ->). constructor; cbn; try discriminate; auto.
  - destruct (C eq_refl) as (M & Bu & P & -> & ->). unfold lstep in St. rewrite P, M in St. injection St as <- <- <-. constructor; cbn; try discriminate.
    intros _. rewrite Bu. repeat split; auto; try discriminate. congruence.
  - destruct (D eq_refl) as (M & NI & -> & -> & Bu & Sh). clear A B C D E F. destruct f as [m p b sh r]. cbn in *. subst m.
    destruct l as [| |x| | | |n| | | | | |]; try discriminate; destruct p as [| | | | |[|k]| | | |]; cbn in St; try discriminate; try congruence;
      try (assert (b = true) as -> by (apply Bu; discriminate)); try (destruct x); try (destruct sh; try discriminate); injection St as <- <- <-;
      constructor; cbn; try discriminate; try (intros _; repeat split; auto; try discriminate; try congruence; try (intros; apply Sg; apply Sh; (reflexivity || discriminate)); fail);
      try (intros y Ey; injection Ey as <-; right; split; auto;
        (exists Setup + exists (Work k) + exists Detached); (split; [eauto|]); (split; [reflexivity|]); intros Ex; (discriminate Ex || (apply Sg; apply Sh; discriminate)); fail).
  - exfalso. destruct (B eq_refl) as (-> & _). discriminate.
  - destruct (C eq_refl) as (M & Bu & P & -> & ->). unfold lstep in St. rewrite M, Bu, P in St. cbn in St. injection St as <- <- <-. constructor; cbn; try discriminate. auto.
  - destruct (D eq_refl) as (M & NI & -> & -> & Bu & Sh). clear A B C D E F.
    assert (running (lf_phase f) = true -> signalled (ls ++ [PSignal])) as Sn.
    { intros R. exists ls, [], (mkProg PStarted f), (upto (lf_phase f)), [Hooking; Starting]. split; auto. split; auto. destruct (lf_phase f); cbn in R; try discriminate; auto. }
    unfold lstep in St. rewrite M in St. destruct (lf_bus f) eqn:Eb; cbn in St; [|destruct (lf_phase f); discriminate].
    assert (s2 = mkProg PStarted (mkLife (lf_made f) (lf_phase f) true false (lf_run f)) /\ e2 = [] /\ o2 = []) as (-> & -> & ->).
    { rewrite M. destruct (lf_phase f); cbn in St; injection St as <- <- <-; auto. }
    constructor; cbn; try discriminate. intros _. rewrite app_nil_r. split; auto. split; auto. split; auto. split; auto. split; auto.
    destruct (running (lf_phase f)); auto.
Qed.

(** Exit code 0, and the last line, exactly if LampPost::Start returned; then everything has been torn down in order, and a
    signal came while the root bus ran. *)
Theorem C80_exit : forall ls s e o, pexec ls prog_init = Some (s, e, o) ->
  (pg_pc s = PExit <-> In EvReturned e) /\ (In Exiting o <-> In EvReturned e) /\
  (In EvReturned e -> e = [EvBusStarted; EvBusEnded; EvDetached; EvUnloaded; EvCleared; EvReturned] /\
     exists l1 l2 s1 o1, ls = l1 ++ PSignal :: l2 /\ pexec l1 prog_init = Some (s1, [EvBusStarted], o1)).
Proof.
  intros ls s e o X. destruct (pinv_ok _ _ _ _ X) as [A B C D E F].
  assert (pg_pc s = PExit \/ ~ In EvReturned e /\ ~ In Exiting o) as G.
  { destruct (pg_pc s) as [| | | | |x] eqn:P; auto; right.
    - destruct (A eq_refl) as (_ & -> & ->). simpl. tauto.
    - destruct (B eq_refl) as (_ & -> & ->). simpl. intuition discriminate.
    - destruct (C eq_refl) as (_ & _ & _ & -> & ->). simpl. intuition discriminate.
    - destruct (D eq_refl) as (_ & _ & -> & -> & _). destruct (lf_phase (pg_life s)); simpl; intuition discriminate.
    - destruct (F _ eq_refl) as [(-> & ->)|((p & Q & -> & _) & ->)]; [simpl; intuition discriminate|].
      destruct Q as [->|[(n & ->)| ->]], x; simpl; intuition discriminate. }
  destruct G as [G|(N1 & N2)].
  - destruct (E G) as (-> & -> & Sg). split; [simpl; tauto|]. split; [simpl; tauto|]. intros _. split; auto. destruct Sg as (l1 & l2 & s1 & e1 & o1 & -> & Y & ->). exists l1, l2, s1, o1. auto.
  - split; [|split; [tauto|contradiction]]. split; [|contradiction]. intros P. exfalso. destruct (E P) as (-> & _). apply N1. simpl. tauto.
Qed.
Print Assumptions C80_exit.

(** Otherwise it ends by an exception, and main prints its text exactly if it is a runtime_error that left Start. Unless a
    plugin threw while it was being unloaded, not even the root bus has been detached: no plugin was stopped. *)
Theorem C80_abort : forall ls s e o x, pexec ls prog_init = Some (s, e, o) -> pg_pc s = PAbort x ->
  ~ In EvCleared e /\ ~ In EvUnloaded e /\
  (In What o <-> x = RuntimeError /\ In (EvRaised x) e) /\
  (e = [] \/ e = [EvRaised x] \/ e = [EvBusStarted; EvRaised x] \/
   e = [EvBusStarted; EvBusEnded; EvDetached; EvRaised x] /\ exists l1 l2 s1 o1, ls = l1 ++ PSignal :: l2 /\ pexec l1 prog_init = Some (s1, [EvBusStarted], o1)).
Proof.
  intros ls s e o x X P. destruct (pinv_ok _ _ _ _ X) as [A B C D E F].
  destruct (F _ P) as [(-> & ->)|((p & Q & -> & Sg) & ->)]; [simpl; intuition discriminate|].
  destruct Q as [->|[(n & ->)| ->]]; (split; [simpl; intuition discriminate|]); (split; [simpl; intuition discriminate|]); (split; [destruct x; simpl; intuition discriminate|]); simpl; auto.
  right. right. right. split; auto. destruct (Sg eq_refl) as (l1 & l2 & s1 & e1 & o1 & -> & Y & ->). exists l1, l2, s1, o1. auto.
Qed.
Print Assumptions C80_abort.

Local Ltac go_on := do 3 eexists; split; [discriminate|]; split; [discriminate|]; split; [discriminate|]; cbn; reflexivity.
(** It does not stop in between, and without signals after the start of the root bus and without exceptions it never ends. *)
Theorem C80_goes_on : forall ls s e o, pexec ls prog_init = Some (s, e, o) -> pg_pc s <> PExit -> (forall x, pg_pc s <> PAbort x) ->
  exists l s' e' o', l <> PSignal /\ (forall x, l <> PMakeFails x) /\ (forall x, l <> PApp (LRaise x)) /\ pstep l s = Some (Some (s', e', o')).
Proof.
  intros ls s e o X N1 N2. destruct (pinv_ok _ _ _ _ X) as [A B C D E F]. destruct s as [[| | | | |x] f]; cbn in *; try congruence; try (now destruct (N2 x)).
  - exists PHook. do 3 eexists. repeat split; try discriminate.
  - destruct (B eq_refl) as (-> & _). exists PMake. do 3 eexists. repeat split; try discriminate.
  - destruct (C eq_refl) as (M & _ & P & _). exists PStart. unfold pstep, lstep. cbn. rewrite P, M. do 3 eexists. repeat split; try discriminate.
  - destruct (D eq_refl) as (M & NI & _ & _ & Bu & _). destruct f as [m p b sh r]. cbn in *. subst m.
    destruct p as [| | | | |[|k]| | | |]; [congruence| | | | | | | | | |];
      try (assert (b = true) as -> by (apply Bu; discriminate));
      try destruct sh;
      first [exists (PApp LBus); go_on|exists (PApp LCheck); go_on|exists (PApp LWake); go_on|exists (PApp (LTest 0)); go_on|exists (PApp LWork); go_on|
             exists (PApp LDetach); go_on|exists (PApp LUnload); go_on|exists (PApp LClear); go_on|exists (PApp LReturn); go_on].
Qed.
Print Assumptions C80_goes_on.

(** A signal before main:36 is done, or after the root bus was dropped, is undefined behaviour; at any other time it is not. *)
Theorem C80_signal : forall ls s e o, pexec ls prog_init = Some (s, e, o) ->
  (pstep PSignal s = Some None <-> pg_pc s = PHooked \/ pg_pc s = PStarted /\ In EvCleared e).
Proof.
  intros ls s e o X. destruct (pinv_ok _ _ _ _ X) as [A B C D E F]. destruct s as [[| | | | |x] f]; cbn in *.
  - clear. intuition discriminate.
  - destruct (B eq_refl) as (-> & _). cbn. tauto.
  - destruct (C eq_refl) as (M & Bu & P & _). unfold lstep. rewrite P, M, Bu. cbn. clear. intuition discriminate.
  - destruct (D eq_refl) as (M & NI & -> & _ & Bu & _). clear - M Bu. unfold lstep. rewrite M. destruct (lf_bus f) eqn:Eb; cbn.
    + assert (lf_phase f <> Cleared) as NC by now apply Bu. clear - NC. destruct (lf_phase f); cbn; try congruence; clear; intuition discriminate.
    + destruct (lf_phase f); try (assert (false = true) by (apply Bu; discriminate); discriminate). cbn. clear. intuition.
  - clear. intuition discriminate.
  - clear. intuition discriminate.
Qed.
Print Assumptions C80_signal.

(** Nothing but a signal is ever undefined behaviour. *)
Theorem C80_defined : forall ls s e o l, pexec ls prog_init = Some (s, e, o) -> l <> PSignal -> pstep l s <> Some None.
Proof.
  intros ls s e o l X NS. destruct (pinv_ok _ _ _ _ X) as [A B C D E F]. destruct l as [| |x| |l|]; [| | | | |congruence];
    destruct s as [[| | | | |y] f]; cbn in *; try discriminate.
  - destruct (B eq_refl) as (-> & _). discriminate.
  - destruct (C eq_refl) as (M & _ & P & _). unfold lstep. rewrite P, M. discriminate.
  - destruct (D eq_refl) as (M & NI & _ & _ & Bu & _). destruct f as [m p b sh r]. cbn in *. subst m.
    destruct l as [| |x| | | |n| | | | | |]; try discriminate; destruct p as [| | | | |[|k]| | | |]; try discriminate; try congruence;
      try (assert (b = true) as -> by (apply Bu; discriminate)); try destruct sh; try destruct x; cbn; discriminate.
Qed.
Print Assumptions C80_defined.

(** ** Cases *)
Definition up : list plabel := [PHook; PMake; PStart; PApp LBus; PApp LCheck; PApp LWake; PApp (LTest 2)].
Example C80_exit_case : exists s o,
  pexec (up ++ [PSignal; PApp LWork; PApp LWork; PApp LWork; PApp LCheck; PApp LDetach; PApp LUnload; PApp LClear; PApp LReturn]) prog_init
    = Some (s, [EvBusStarted; EvBusEnded; EvDetached; EvUnloaded; EvCleared; EvReturned], o) /\ pg_pc s = PExit /\ In Exiting o.
Proof. do 2 eexists. split; [vm_compute; reflexivity|]. split; [vm_compute; reflexivity|]. simpl. auto. Qed.
(** A callback throws: InvalidOperation, then bad_function_call. *)
Example C80_abort_case : exists s o s' o',
  pexec (up ++ [PApp LWork; PApp (LRaise RuntimeError)]) prog_init = Some (s, [EvBusStarted; EvRaised RuntimeError], o) /\ pg_pc s = PAbort RuntimeError /\ In What o /\
  pexec (up ++ [PApp (LRaise OtherError)]) prog_init = Some (s', [EvBusStarted; EvRaised OtherError], o') /\ pg_pc s' = PAbort OtherError /\ ~ In What o'.
Proof. do 4 eexists. split; [vm_compute; reflexivity|]. split; [vm_compute; reflexivity|]. split; [simpl; auto|]. split; [vm_compute; reflexivity|]. split; [vm_compute; reflexivity|]. simpl. intuition discriminate. Qed.
Example C80_goes_on_case : exists s e o, pexec up prog_init = Some (s, e, o) /\ pg_pc s = PStarted.
Proof. do 3 eexists. split; vm_compute; reflexivity. Qed.
Example C80_signal_case : exists s e o s' e' o', pexec [PHook] prog_init = Some (s, e, o) /\ pstep PSignal s = Some None /\
  pexec (up ++ [PSignal; PApp LWork; PApp LWork; PApp LWork; PApp LCheck; PApp LDetach; PApp LUnload; PApp LClear]) prog_init = Some (s', e', o') /\ pstep PSignal s' = Some None.
Proof. do 6 eexists. split; [vm_compute; reflexivity|]. split; [vm_compute; reflexivity|]. split; vm_compute; reflexivity. Qed.

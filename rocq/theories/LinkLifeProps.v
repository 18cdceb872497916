(** C86: a link's sockets through its life. *)
From Coq Require Import List Arith Bool Lia.
From Verif Require Import LinkModel LinkLifeModel LinkLifeSpec LinkLifeProofs.
Import ListNotations.

Lemma run_end_is r ls : run_end r ls = is_running r ls.
Proof. revert r; induction ls as [|l ls IH]; intros r; simpl; auto. rewrite IH. destruct l as [[]| | | |]; reflexivity. Qed.

(** While the calls come in order, every use of a socket is of one that was created and not closed, by one thread at a time; no
    socket is closed twice or while in use; a context is terminated once, after its sockets. *)
Theorem C86_safe : forall ls s tr,
  ordered false false ls -> lkexec ls lnk_init = Some (s, tr) -> sound tr.
Proof. intros ls s tr O E. destruct (run_inv _ _ _ O E) as [_ T]. exact (t_sound _ _ _ _ _ T). Qed.
Print Assumptions C86_safe.

(** After Deinitialize nothing is left: all sockets are closed and all contexts terminated, and messages no longer reach the callback. *)
Theorem C86_clean : forall ls s tr,
  ordered false false ls -> lkexec ls lnk_init = Some (s, tr) -> is_up false ls = false -> ll_ctl s = CIdle ->
  released tr /\ (forall k, ll_sock s k = None) /\ ll_ctx s = None /\ (forall b, lkstep (KMsg b) s = None) /\ ll_bus s = BIdle /\
  (forall k, ll_held s k = None \/ ll_held s k = Some TWork).
Proof.
  intros ls s tr O E U P. destruct (run_inv _ _ _ O E) as [C T]. rewrite up_end_is, U in C.
  pose proof (c_pc _ _ _ C) as R. unfold pc_ok in R. rewrite P in R. simpl in R. destruct R as (R1 & R2 & R3).
  pose proof (c_cs _ _ _ C R3) as K. pose proof (live_idle _ _ _ C R2) as B. unfold tinvs in T. rewrite R3 in T.
  split; [split|split; [auto|split; [auto|split; [|split; [auto|]]]]].
  - intros h c X. destruct (t_octx _ _ _ _ _ T _ _ X); [auto|discriminate].
  - intros c X. destruct (in_dec lkevent_dec (EvTerm c) tr) as [|N]; auto.
    assert (Y : None = Some c) by (apply (t_ctx _ _ _ _ _ T c); auto). discriminate.
  - intros b. simpl. rewrite B, R2. reflexivity.
  - intros k. destruct (ll_held s k) as [[]|] eqn:H; auto; exfalso.
    + apply (c_hc _ _ _ C) in H. rewrite P in H. discriminate.
    + apply (c_hb _ _ _ C) in H. rewrite B in H. discriminate.
Qed.
Print Assumptions C86_clean.

(** No call waits for ever: whatever has happened, the other threads can go on so that the call that is running ends. *)
Theorem C86_ends : forall ls s tr,
  ordered false false ls -> lkexec ls lnk_init = Some (s, tr) ->
  exists ls' s' tr', Forall quiet ls' /\ lkexec ls' s = Some (s', tr') /\ ll_ctl s' = CIdle.
Proof.
  intros ls s tr O E. destruct (run_inv _ _ _ O E) as [C _].
  destruct (ctl_ends _ _ _ _ C (le_n _)) as (s' & (ls' & e & Q & X) & P). eauto 7.
Qed.
Print Assumptions C86_ends.

(** If Initialize is called again without Deinitialize, the sockets it creates anew are lost, and so is the context: nothing that
    is called later closes or terminates the old ones. *)
Theorem C86_double : forall ls s tr server client ls2 s2 e2 k h c,
  ordered false false ls -> lkexec ls lnk_init = Some (s, tr) ->
  ll_sock s k = Some h -> ll_ctx s = Some c -> In k (role_socks server client) ->
  Forall no_call ls2 -> lkexec (KCall (KInit server client) :: ls2) s = Some (s2, e2) -> ll_ctl s2 = CIdle ->
  forall ls3 s3 e3, lkexec ls3 s2 = Some (s3, e3) -> ~ In (EvClose h) (e2 ++ e3) /\ ~ In (EvTerm c) (e2 ++ e3).
Proof.
  intros ls s tr server client ls2 s2 e2 k h c O E K X R Q E2 P ls3 s3 e3 E3.
  destruct (run_inv _ _ _ O E) as [C T]. unfold tinvs in T. rewrite X in T.
  destruct (t_open _ _ _ _ _ T h) as [_ OP]. destruct OP as [[d OP] _]; [eauto|].
  pose proof (t_fresh _ _ _ _ _ T _ h OP (or_introl eq_refl)) as LH.
  destruct (t_ctx _ _ _ _ _ T c) as [_ OC]. destruct OC as [OC _]; [auto|].
  pose proof (t_fresh _ _ _ _ _ T _ c OC (or_introl eq_refl)) as LC.
  cbn [lkexec lkstep] in E2. destruct (ll_ctl s) eqn:PC; try discriminate.
  destruct (begin_call (KInit server client) s) as [s1 e1] eqn:B. unfold begin_call in B. injection B as <- <-.
  destruct (lkexec ls2 (set_pc (CNew (role_socks server client)) s)) as [[s4 e4]|] eqn:E4; try discriminate. injection E2 as <- <-.
  destruct (fading_exec _ _ _ _ k h E4 Q) as (F1 & F2 & F3); [|auto|].
  { right. exists (role_socks server client). split; [reflexivity|]. split; auto. intros j J. exact (t_inj _ _ _ _ _ T _ _ _ J K). }
  destruct (fading_ctx_exec _ _ _ _ c E4 Q) as (G1 & G2 & G3); [right; eexists; reflexivity|auto|].
  split; intros Y; apply in_app_or in Y; destruct Y as [Y|Y]; auto.
  - destruct F1 as [F1|(ks & I & _)]; [|rewrite P in I; discriminate]. exact (lost_exec _ _ _ _ _ E3 F1 F2 Y).
  - destruct G1 as [G1|[ks I]]; [|rewrite P in I; discriminate]. exact (lost_ctx_exec _ _ _ _ _ E3 G1 G2 Y).
Qed.
Print Assumptions C86_double.

(** Deinitialize of a link that is not initialised calls a method on a null pointer, at its first step; the thread does nothing
    after that. *)
Theorem C86_null : forall ls s tr ok,
  ordered false false ls -> lkexec ls lnk_init = Some (s, tr) -> is_up false ls = false -> ll_ctl s = CIdle ->
  exists s', lkexec [KCall KDeinit; KCtl ok] s = Some (s', [EvNull]) /\
    (forall c, lkstep (KCall c) s' = None) /\ (forall ok', lkstep (KCtl ok') s' = None).
Proof.
  intros ls s tr ok O E U P. destruct (run_inv _ _ _ O E) as [C T]. rewrite up_end_is, U in C.
  pose proof (c_pc _ _ _ C) as R. unfold pc_ok in R. rewrite P in R. simpl in R. destruct R as (R1 & R2 & R3).
  pose proof (c_sl _ _ _ C) as SL. rewrite (live_idle _ _ _ C R2) in SL.
  eexists. cbn [lkexec lkstep]. rewrite P. cbn [begin_call]. unfold ctl_step. prj. rewrite SL, R1. split; [reflexivity|]. split; reflexivity.
Qed.
Print Assumptions C86_null.

(** Start of a link whose worker has not been stopped ends the program. *)
Theorem C86_abort : forall ls s tr,
  ordered false false ls -> lkexec ls lnk_init = Some (s, tr) -> is_running false ls = true -> ll_ctl s = CIdle ->
  exists s', lkstep (KCall KStart) s = Some (s', [EvAbort]) /\
    (forall c, lkstep (KCall c) s' = None) /\ (forall ok, lkstep (KCtl ok) s' = None).
Proof.
  intros ls s tr O E U P. destruct (run_inv _ _ _ O E) as [C T]. rewrite run_end_is, U in C.
  destruct (c_wr _ _ _ C eq_refl) as [W _]. cbn [lkstep]. rewrite P. unfold begin_call. destruct (ll_wrk s); try congruence; (eexists; split; [reflexivity|split; reflexivity]).
Qed.
Print Assumptions C86_abort.

Definition ctl (n : nat) : list lklabel := repeat (KCtl true) n.

(** That Initialize comes when there is no worker is needed: initialised again while the worker of the first time is running, the
    worker uses a socket while Initialize does. *)
Theorem C86_restart : exists ls s tr,
  lkexec ls lnk_init = Some (s, tr) /\ is_up false ls = true /\
  inside TCtl 5 tr /\ inside TWork 5 tr.
Proof.
  exists ([KCall (KInit false true)] ++ ctl 10 ++ [KCall KStart; KCall KDeinit] ++ ctl 18 ++
     [KCall (KInit true false)] ++ ctl 6 ++ [KWork; KWork; KWork; KWork]).
  eexists _, _. split; [vm_compute; reflexivity|]. split; [reflexivity|]. split.
  - eexists [_; _; _; _; _; _; _; _; _; _; _; _; _; _; _], _. split; [reflexivity|]. simpl. intuition discriminate.
  - eexists [_; _; _; _; _; _; _; _; _; _; _; _; _; _; _; _], _. split; [reflexivity|]. simpl. tauto.
Qed.
Print Assumptions C86_restart.

(** ** What is sent and received *)

Lemma uses_app t a b : uses t (a ++ b) = uses t a ++ uses t b.
Proof. apply filter_app. Qed.

(** What the callback will still do. *)
Definition bus_due (sk : sock -> option nat) (p : bpc) : list lkevent :=
  let after k := match k with ServerPub => visits TBus sk [ClientPub] | _ => [] end in
  match p with
  | BIdle | BEnd => []
  | BTest k | BLock k | BArg k => visits TBus sk [k] ++ after k
  | BSend k h => EvRet TBus h :: after k
  | BUnlock k => after k
  end.

Lemma bus_due_ext sk sk' p : (forall k, sk k = sk' k) -> bus_due sk p = bus_due sk' p.
Proof. intros H. destruct p as [|k|k|k|k h|k|]; unfold bus_due, visits; cbn [flat_map]; try destruct k; rewrite ?H; reflexivity. Qed.

Lemma bus_due_step u r l s s' e : cinv u r s -> allowed u r l -> ll_bus s <> BIdle -> (forall b, l <> KMsg b) -> lkstep l s = Some (s', e) ->
  (forall k, ll_sock s' k = ll_sock s k) /\ uses TBus e ++ bus_due (ll_sock s) (ll_bus s') = bus_due (ll_sock s) (ll_bus s).
Proof.
  intros C A B N H. pose proof (c_bl _ _ _ C B) as L. destruct l as [c|ok| |b|]; [| | |now elim (N b)|].
  - cbn in H. destruct (ll_ctl s); try discriminate H. unfold begin_call in H. destruct c; [|destruct (ll_wrk s)|destruct (ll_run s)|]; injection H as <- <-; auto.
  - cbn in H. pose proof (c_pc _ _ _ C) as P. pose proof (c_sl _ _ _ C) as Sl. unfold pc_ok, starting, ending in P. unfold ctl_step in H. destruct (ll_ctl s) eqn:Ct; try discriminate H; try contradiction P; try (exfalso; apply L; tauto).
    + destruct (ll_wrk s); try discriminate H; injection H as <- <-; auto.
    + assert (ll_slock s = true) as Q by (rewrite Sl; destruct (ll_bus s); congruence). rewrite Q in H. discriminate H.
  - cbn in H. unfold work_step in H. destruct (ll_wrk s); try discriminate H; try (injection H as <- <-; auto; fail).
    + destruct (ll_held s k); [discriminate H|injection H as <- <-; auto].
    + destruct (ll_sock s k); injection H as <- <-; auto.
  - cbn in H. unfold lbus_step in H. pose proof (c_bk _ _ _ C) as K. unfold bus_k, pub in K. destruct (ll_bus s) as [|k|k|k|k h|k|] eqn:Eb; try discriminate H.
    + injection H as <- <-. split; [reflexivity|]. cbn [uses filter List.app ll_bus set_lbus]. unfold bus_due, visits. cbn [flat_map]. destruct (ll_sock s k) eqn:Es; [rewrite ?Es; reflexivity|]. destruct K as [-> | ->]; cbn; rewrite ?app_nil_r; reflexivity.
    + destruct (ll_held s k); [discriminate H|]. injection H as <- <-. split; reflexivity.
    + destruct (ll_sock s k) eqn:Es; injection H as <- <-; (split; [reflexivity|]); cbn; unfold visits; cbn [flat_map]; rewrite Es; cbn; reflexivity.
    + injection H as <- <-. split; reflexivity.
    + injection H as <- <-. split; [reflexivity|]. destruct K as [-> | ->]; cbn; rewrite ?app_nil_r; reflexivity.
    + injection H as <- <-. split; reflexivity.
Qed.

Lemma bus_quiet l s s' e : ll_bus s = BIdle -> (forall b, l <> KMsg b) -> lkstep l s = Some (s', e) -> ll_bus s' = BIdle /\ uses TBus e = [].
Proof.
  intros B N H. destruct l as [c|ok| |b|]; [| | |now elim (N b)|].
  - cbn in H. destruct (ll_ctl s); try discriminate H. unfold begin_call in H. destruct c; [|destruct (ll_wrk s)|destruct (ll_run s)|]; injection H as <- <-; auto.
  - cbn in H. unfold ctl_step in H. repeat match type of H with (match ?x with _ => _ end) = _ => destruct x; try discriminate H end; injection H as <- <-; auto. destruct (ll_ctx s); auto.
  - cbn in H. unfold work_step in H. repeat match type of H with (match ?x with _ => _ end) = _ => destruct x; try discriminate H end; injection H as <- <-; auto.
  - cbn in H. unfold lbus_step in H. rewrite B in H. discriminate H.
Qed.

Lemma bus_idle ls : forall s s' e, ll_bus s = BIdle -> (forall b, ~ In (KMsg b) ls) -> lkexec ls s = Some (s', e) -> uses TBus e = [].
Proof.
  induction ls as [|l ls IH]; intros s s' e B N X; cbn in X; [injection X as _ <-; reflexivity|].
  destruct (lkstep l s) as [(s1 & e1)|] eqn:S1; [|discriminate X]. destruct (lkexec ls s1) as [(s2 & e2)|] eqn:X1; [|discriminate X]. injection X as _ <-.
  destruct (bus_quiet _ _ _ _ B (fun b E => N b (or_introl E)) S1) as (B1 & U1). rewrite uses_app, U1. apply (IH s1 s2 e2 B1 (fun b I => N b (or_intror I)) X1).
Qed.

Lemma bus_due_exec ls : forall u r s s' e tr, cinv u r s -> tinvs s tr -> ordered u r ls -> (forall b, ~ In (KMsg b) ls) -> lkexec ls s = Some (s', e) -> ll_bus s' = BIdle ->
  uses TBus e = bus_due (ll_sock s) (ll_bus s).
Proof.
  induction ls as [|l ls IH]; intros u r s s' e tr C Ti O N X Bi; cbn in X; [injection X as <- <-; rewrite Bi; reflexivity|].
  destruct (lkstep l s) as [(s1 & e1)|] eqn:S1; [|discriminate X]. destruct (lkexec ls s1) as [(s2 & e2)|] eqn:X1; [|discriminate X]. injection X as <- <-.
  apply ordered_cons in O as (A & O). assert (forall b, l <> KMsg b) as Nl by (intros b E; apply (N b); now left). assert (forall b, ~ In (KMsg b) ls) as Ns by (intros b I; apply (N b); now right).
  rewrite uses_app. assert (ll_bus s = BIdle \/ ll_bus s <> BIdle) as [B|B] by (destruct (ll_bus s); auto; right; discriminate).
  - destruct (bus_quiet _ _ _ _ B Nl S1) as (B1 & ->). rewrite B, (bus_idle ls s1 s2 e2 B1 Ns X1). reflexivity.
  - destruct (bus_due_step _ _ _ _ _ _ C A B Nl S1) as (Sk & D). destruct (step_inv _ _ _ _ _ _ _ C Ti A S1) as (C1 & T1).
    rewrite (IH _ _ _ _ _ _ C1 T1 O Ns X1 Bi), <- D. f_equal. apply bus_due_ext. exact Sk.
Qed.

Lemma ordered_app l1 : forall u r l2, ordered u r (l1 ++ l2) <-> ordered u r l1 /\ ordered (up_end u l1) (run_end r l1) l2.
Proof. induction l1 as [|l l1 IH]; intros u r l2; cbn [List.app up_end run_end]; [cbn; tauto|]. rewrite !ordered_cons, IH. tauto. Qed.

(** A message that is to be sent is handed to the publishing sockets the link has, to each once: first as a server, then as a client. One that is not is handed to none. *)
Theorem C86_sends : forall ls0 s tr sends ls s' e,
  ordered false false (ls0 ++ KMsg sends :: ls) -> lkexec ls0 lnk_init = Some (s, tr) ->
  lkexec (KMsg sends :: ls) s = Some (s', e) -> (forall b, ~ In (KMsg b) ls) -> ll_bus s' = BIdle ->
  uses TBus e = if sends then visits TBus (ll_sock s) [ServerPub; ClientPub] else [].
Proof.
  intros ls0 s tr sends ls s' e O X0 X N B. apply ordered_app in O as (O0 & O). destruct (run_inv _ _ _ O0 X0) as (C & Ti).
  apply ordered_cons in O as (A & O). cbn [lkexec] in X. destruct (lkstep (KMsg sends) s) as [(s1 & e1)|] eqn:S1; [|discriminate X]. destruct (lkexec ls s1) as [(s2 & e2)|] eqn:X1; [|discriminate X]. injection X as <- <-.
  destruct (step_inv _ _ _ _ _ _ _ C Ti A S1) as (C1 & T1). rewrite uses_app, (bus_due_exec _ _ _ _ _ _ _ C1 T1 O N X1 B).
  cbn in S1. destruct (ll_bus s); try discriminate S1. destruct (ll_live s); try discriminate S1. injection S1 as <- <-. destruct sends; cbn; rewrite ?app_nil_r; reflexivity.
Qed.
Print Assumptions C86_sends.

(** What the worker will still do in this round. *)
Definition wrk_due (sk : sock -> option nat) (p : wpc) : list lkevent :=
  let after k := match k with ServerSub => visits TWork sk [ClientSub] | _ => [] end in
  match p with
  | WLock k | WCtx k | WArg k => visits TWork sk [k] ++ after k
  | WRecv k h => EvRet TWork h :: after k
  | WUnlock k => after k
  | _ => []
  end.
Definition round (sk : sock -> option nat) : list lkevent := visits TWork sk [ServerSub; ClientSub].

Lemma visits_ext t sk sk' ks : (forall k, sk k = sk' k) -> visits t sk ks = visits t sk' ks.
Proof. intros H. unfold visits. induction ks as [|k ks IH]; cbn; [reflexivity|]. now rewrite H, IH. Qed.
Lemma wrk_due_ext sk sk' p : (forall k, sk k = sk' k) -> wrk_due sk p = wrk_due sk' p.
Proof. intros H. destruct p as [| |k|k|k|k h|k|]; unfold wrk_due; try destruct k; rewrite ?(visits_ext TWork sk sk' _ H); reflexivity. Qed.

Lemma wrk_due_step u r l s s' e : cinv u r s -> ll_ctl s = CIdle -> r = true -> no_call l -> lkstep l s = Some (s', e) ->
  ll_ctl s' = CIdle /\ (forall k, ll_sock s' k = ll_sock s k) /\
  uses TWork e ++ wrk_due (ll_sock s) (ll_wrk s') = wrk_due (ll_sock s) (ll_wrk s) ++ match l, ll_wrk s with KWork, WTest => round (ll_sock s) | _, _ => [] end.
Proof.
  intros C I R N H. destruct l as [c|ok| |b|]; [now elim N| | | |].
  - cbn in H. unfold ctl_step in H. rewrite I in H. discriminate H.
  - cbn in H. unfold work_step in H. pose proof (c_wk _ _ _ C) as K. pose proof (c_cs _ _ _ C) as Cs. pose proof (c_run _ _ _ C) as Ru. unfold wrk_k, subk in K. destruct (ll_wrk s) as [| |k|k|k|k h|k|] eqn:Ew; try discriminate H.
    + rewrite Ru, R in H. injection H as <- <-. split; [exact I|]. split; [reflexivity|]. cbn. unfold round, visits. cbn [flat_map]. now rewrite !app_nil_r.
    + destruct (ll_held s k); [discriminate H|]. injection H as <- <-. split; [exact I|]. split; [reflexivity|]. rewrite app_nil_r. reflexivity.
    + injection H as <- <-. split; [exact I|]. split; [reflexivity|]. rewrite app_nil_r. cbn. destruct (ll_ctx s) eqn:Ec; [reflexivity|]. unfold visits. cbn [flat_map]. rewrite (Cs eq_refl k). reflexivity.
    + destruct (ll_sock s k) eqn:Es; injection H as <- <-; (split; [exact I|]); (split; [reflexivity|]); rewrite app_nil_r; cbn; unfold visits; cbn [flat_map]; rewrite Es; reflexivity.
    + injection H as <- <-. split; [exact I|]. split; [reflexivity|]. now rewrite app_nil_r.
    + injection H as <- <-. split; [exact I|]. split; [reflexivity|]. rewrite app_nil_r. destruct K as [-> | ->]; cbn; rewrite ?app_nil_r; reflexivity.
  - cbn in H. destruct (ll_bus s); try discriminate H. destruct (ll_live s); [discriminate H|]. injection H as <- <-. split; [exact I|]. split; [reflexivity|]. now rewrite app_nil_r.
  - cbn in H. unfold lbus_step in H. rewrite app_nil_r. repeat match type of H with (match ?x with _ => _ end) = _ => destruct x; try discriminate H end; injection H as <- <-; auto.
Qed.

Lemma wrk_due_exec ls : forall u s s' e tr, cinv u true s -> tinvs s tr -> ll_ctl s = CIdle -> Forall no_call ls -> lkexec ls s = Some (s', e) ->
  exists n, uses TWork e ++ wrk_due (ll_sock s) (ll_wrk s') = wrk_due (ll_sock s) (ll_wrk s) ++ concat (repeat (round (ll_sock s)) n) /\
    (ll_wrk s = WTest -> In KWork ls -> n <> 0).
Proof.
  induction ls as [|l ls IH]; intros u s s' e tr C Ti I N X; cbn [lkexec] in X.
  - injection X as <- <-. exists 0. cbn. rewrite app_nil_r. split; [reflexivity|]. intros _ [].
  - destruct (lkstep l s) as [(s1 & e1)|] eqn:S1; [|discriminate X]. destruct (lkexec ls s1) as [(s2 & e2)|] eqn:X1; [|discriminate X]. injection X as <- <-.
    inversion N as [|l' ls' N1 N2]; subst. destruct (wrk_due_step _ _ _ _ _ _ C I eq_refl N1 S1) as (I1 & Sk & D).
    assert (allowed u true l) as A by (destruct l as [[]| | | |]; cbn in *; tauto). destruct (step_inv _ _ _ _ _ _ _ C Ti A S1) as (C1 & T1).
    assert (run_after true l = true) as Er by (destruct l as [[]| | | |]; cbn in *; tauto). rewrite Er in C1.
    destruct (IH _ _ _ _ _ C1 T1 I1 N2 X1) as (n & E & P). unfold round in E. rewrite (wrk_due_ext _ (ll_sock s) (ll_wrk s2) Sk), (wrk_due_ext _ (ll_sock s) (ll_wrk s1) Sk), (visits_ext TWork _ (ll_sock s) _ Sk) in E. fold (round (ll_sock s)) in E.
    rewrite uses_app, <- app_assoc, E, app_assoc, D.
    destruct l as [c|ok| |b|]; [now elim N1| | | |]; try (exists n; rewrite app_nil_r; split; [reflexivity|]; intros W [Q|Q]; [discriminate Q|]; apply P; [|exact Q]).
    + cbn in S1. unfold ctl_step in S1. rewrite I in S1. discriminate S1.
    + destruct (ll_wrk s) eqn:W; try (exists n; rewrite app_nil_r; split; [reflexivity|]; intros W'; discriminate W'). exists (S n). cbn [repeat concat]. rewrite <- app_assoc. split; [reflexivity|]. intros _ _. discriminate.
    + cbn in S1. destruct (ll_bus s); try discriminate S1. destruct (ll_live s); [discriminate S1|]. injection S1 as <- _. exact W.
    + cbn in S1. unfold lbus_step in S1. repeat match type of S1 with (match ?x with _ => _ end) = _ => destruct x; try discriminate S1 end; injection S1 as <- _; exact W.
Qed.

(** While the link is up and running, each round of the worker asks the subscribing sockets it has, each once: first as a server, then as a client. *)
Theorem C86_polls : forall ls0 s tr ls s' e,
  ordered false false ls0 -> lkexec ls0 lnk_init = Some (s, tr) -> is_running false ls0 = true -> ll_ctl s = CIdle -> ll_wrk s = WTest ->
  Forall no_call ls -> lkexec ls s = Some (s', e) -> ll_wrk s' = WTest ->
  exists n, uses TWork e = concat (repeat (visits TWork (ll_sock s) [ServerSub; ClientSub]) n) /\ (In KWork ls -> n <> 0).
Proof.
  intros ls0 s tr ls s' e O X0 R I W N X W'. destruct (run_inv _ _ _ O X0) as (C & Ti). rewrite run_end_is, R in C.
  destruct (wrk_due_exec _ _ _ _ _ _ C Ti I N X) as (n & E & P). rewrite W, W' in E. cbn in E. rewrite app_nil_r in E. exists n. auto.
Qed.
Print Assumptions C86_polls.

(* ------------------------------------------------------------------ *)
(** * Cases *)

(** A link that is server and client is initialised, started, receives and sends, is deinitialised while its worker is
    running and stopped afterwards. *)
Definition case_run : list lklabel :=
  [KCall (KInit true true)] ++ ctl 16 ++ [KCall KStart; KMsg true; KWork; KWork; KWork; KWork; KBus; KBus; KBus; KWork; KBus; KBus] ++
  repeat KBus 6 ++ [KCall KDeinit; KCtl true; KCtl true; KWork] ++ ctl 16 ++ [KCall KStop] ++ repeat KWork 4 ++ [KCtl true].

Example C86_case :
  ordered false false case_run /\
  (exists s tr, lkexec case_run lnk_init = Some (s, tr) /\ is_up false case_run = false /\ ll_ctl s = CIdle /\
    In (EvCall TBus 1) tr /\ In (EvCall TBus 3) tr /\ In (EvCall TWork 2) tr /\ In (EvClose 4) tr /\ In (EvTerm 0) tr).
Proof.
  split; [vm_compute; auto 10|]. eexists _, _. split; [vm_compute; reflexivity|]. simpl. repeat split; auto 40.
Qed.

(** The same link initialised twice, then deinitialised: the first context and its four sockets are never released. *)
Example C86_case_double :
  exists s s2 e2 s3 e3,
  ordered false false ([KCall (KInit true true)] ++ ctl 16) /\
  (exists tr, lkexec ([KCall (KInit true true)] ++ ctl 16) lnk_init = Some (s, tr)) /\
  ll_sock s ServerSub = Some 2 /\ ll_ctx s = Some 0 /\ In ServerSub (role_socks true true) /\ Forall no_call (ctl 16) /\
  lkexec (KCall (KInit true true) :: ctl 16) s = Some (s2, e2) /\ ll_ctl s2 = CIdle /\
  lkexec (KCall KDeinit :: ctl 18) s2 = Some (s3, e3) /\ In (EvClose 7) e3 /\ In (EvTerm 5) e3.
Proof.
  assert (X : match lkexec ([KCall (KInit true true)] ++ ctl 16) lnk_init with
    | Some (s, _) => match lkexec (KCall (KInit true true) :: ctl 16) s with
      | Some (s2, _) => match lkexec (KCall KDeinit :: ctl 18) s2 with
        | Some (_, e3) => (ll_sock s ServerSub, ll_ctx s, ll_ctl s2, e3)
        | None => (None, None, CDead, []) end
      | None => (None, None, CDead, []) end
    | None => (None, None, CDead, []) end =
    (Some 2, Some 0, CIdle, [EvClose 6; EvClose 7; EvClose 8; EvClose 9; EvTerm 5])) by (vm_compute; reflexivity).
  destruct (lkexec ([KCall (KInit true true)] ++ ctl 16) lnk_init) as [[s tr]|]; [|discriminate].
  destruct (lkexec (KCall (KInit true true) :: ctl 16) s) as [[s2 e2]|] eqn:E2; [|discriminate].
  destruct (lkexec (KCall KDeinit :: ctl 18) s2) as [[s3 e3]|] eqn:E3; [|discriminate].
  injection X as X1 X2 X3 X4. exists s, s2, e2, s3, e3.
  split; [vm_compute; auto|]. split; [eauto|]. split; [auto|]. split; [auto|]. split; [simpl; auto|].
  split; [repeat (apply Forall_cons; [exact I|]); apply Forall_nil|].
  split; [auto|]. split; [auto|]. split; [auto|]. rewrite X4. simpl. auto 12.
Qed.

(** A started link meets the hypotheses of [C86_abort], and one that has been deinitialised those of [C86_null]. *)
Example C86_case_abort : exists s tr,
  let ls := [KCall (KInit false true)] ++ ctl 10 ++ [KCall KStart] in
  ordered false false ls /\ lkexec ls lnk_init = Some (s, tr) /\ is_running false ls = true /\ ll_ctl s = CIdle.
Proof.
  assert (X : option_map (fun p => ll_ctl (fst p)) (lkexec ([KCall (KInit false true)] ++ ctl 10 ++ [KCall KStart]) lnk_init) = Some CIdle) by (vm_compute; reflexivity).
  destruct (lkexec ([KCall (KInit false true)] ++ ctl 10 ++ [KCall KStart]) lnk_init) as [[s tr]|] eqn:E; [|discriminate].
  injection X as X. exists s, tr. split; [vm_compute; auto|]. split; [exact E|]. split; [reflexivity|exact X].
Qed.

Example C86_case_null : exists s tr,
  let ls := [KCall (KInit false true)] ++ ctl 10 ++ [KCall KDeinit] ++ ctl 18 in
  ordered false false ls /\ lkexec ls lnk_init = Some (s, tr) /\ is_up false ls = false /\ ll_ctl s = CIdle.
Proof.
  assert (X : option_map (fun p => ll_ctl (fst p)) (lkexec ([KCall (KInit false true)] ++ ctl 10 ++ [KCall KDeinit] ++ ctl 18) lnk_init) = Some CIdle) by (vm_compute; reflexivity).
  destruct (lkexec ([KCall (KInit false true)] ++ ctl 10 ++ [KCall KDeinit] ++ ctl 18) lnk_init) as [[s tr]|] eqn:E; [|discriminate].
  injection X as X. exists s, tr. split; [vm_compute; auto|]. split; [exact E|]. split; [reflexivity|exact X].
Qed.

(** The same link sends one message and asks its sockets twice. *)
Definition case_up : list lklabel := [KCall (KInit true true)] ++ ctl 16 ++ [KCall KStart].
Example C86_case_uses : exists s tr s1 e1 s2 e2,
  lkexec case_up lnk_init = Some (s, tr) /\ ordered false false (case_up ++ KMsg true :: repeat KBus 11) /\
  lkexec (KMsg true :: repeat KBus 11) s = Some (s1, e1) /\ (forall b, ~ In (KMsg b) (repeat KBus 11)) /\ ll_bus s1 = BIdle /\
  uses TBus e1 = [EvCall TBus 1; EvRet TBus 1; EvCall TBus 3; EvRet TBus 3] /\
  is_running false case_up = true /\ ll_ctl s = CIdle /\ ll_wrk s = WTest /\ Forall no_call (repeat KWork 22) /\ lkexec (repeat KWork 22) s = Some (s2, e2) /\ ll_wrk s2 = WTest /\
  length (uses TWork e2) = 8.
Proof.
  eexists _, _, _, _, _, _. split; [vm_compute; reflexivity|]. split; [vm_compute; auto 10|]. split; [vm_compute; reflexivity|].
  split; [intros b I; apply repeat_spec in I; discriminate I|]. split; [vm_compute; reflexivity|]. split; [vm_compute; reflexivity|]. split; [reflexivity|]. split; [reflexivity|]. split; [reflexivity|].
  split; [repeat constructor|]. split; [vm_compute; reflexivity|]. split; reflexivity.
Qed.

(** C96: actions whose provider and consumer are on different processes. *)
From Coq Require Import String List Arith ZArith Bool Lia Permutation.
From Verif Require Import Prelude OMap DatagramModel DatagramSpec DatagramStmt NetProps BusModel BusSpec BusProofs BusTree BusLocks BusLocks2 BusLocks3 BusDist BusAccount BusOnce BusDeliver BusDeliveryProps LinkModel NodeModel NetModel NodeProps RouteProps ActionSpec ActionProofs ActionProps ClusterModel ClusterSpec ClusterProofs ClusterProps SysInfoModel WideSpec WideProofs WideProps RemoteSpec RemoteProofs.
Import ListNotations.
Open Scope string_scope.
Open Scope list_scope.

(** Whatever the links connect, also in cycles: topic and data of every message that is distributed on any process were published, responded or requested on some process. *)
Theorem C96_origin : forall n ls c T i m,
  cexec n ls cl_init = Some (c, T) -> In (i, m) (distributed T) ->
  published_there ls m \/
  (responded_there ls m /\ exists t, bm_topic m = (t ++ "/response")%string) \/
  (requested_there ls m /\ exists t, bm_topic m = (t ++ "/request")%string).
Proof.
  intros n ls c T i m X I. unfold distributed in I. apply in_flat_map in I as ((j & e) & I & J). destruct e as [e| |]; try contradiction. destruct e; try contradiction. destruct J as [J|[]]. injection J as -> <-.
  destruct (node_exec _ _ _ _ X i) as (ls' & XE). apply (accepted_issued _ _ _ _ i root m0 X). rewrite events_node. apply (begun_accepted _ _ _ _ XE). apply begun_in, in_bus_events, at_node_in. exact I.
Qed.
Print Assumptions C96_origin.

Lemma invoke_issued n ls c Ta Tb i r s p k : cexec n ls cl_init = Some (c, Ta ++ (i, NEv (EvInvoke r s p k)) :: Tb) ->
  exists ls1 ls2 st1 st2 tr1 b q, exec ls1 init = Some (st1, tr1) /\ step (LRun r) st1 = Some (st2, [EvReceive r b s p; EvInvoke r s p k]) /\ exec (ls1 ++ LRun r :: ls2) init = Some (cl_nodes c i, events_of i (Ta ++ (i, NEv (EvInvoke r s p k)) :: Tb)) /\
    events_of i Ta = tr1 ++ [EvReceive r b s p] /\
    nth_error (s_subs st1) s = Some q /\ accepts (s_topic q) (bm_topic (snd p)) /\ receive st1 s (snd p) = InvCall k /\ issued ls (snd p).
Proof.
  intros X. destruct (node_exec _ _ _ _ X i) as (ls' & XE). rewrite <- events_node in XE.
  assert (events_of i (Ta ++ (i, NEv (EvInvoke r s p k)) :: Tb) = events_of i Ta ++ EvInvoke r s p k :: events_of i Tb) as E by (rewrite events_app; unfold events_of at 2; cbn [flat_map]; now rewrite Nat.eqb_refl).
  pose proof XE as XE'. rewrite E in XE'.
  destruct (invoke_point _ _ _ _ _ _ _ _ XE') as (ls1 & ls2 & st1 & st2 & tr1 & tr2 & b & x & q & -> & X1 & H & X2 & Ea & G & R & Nq & Ac & Rv).
  exists ls1, ls2, st1, st2, tr1, b, q. repeat (split; [eassumption|]).
  destruct (current_sent _ _ _ _ x p X1 G) as (Acc & _); [rewrite R; now left|]. apply (accepted_issued _ _ _ _ i r p X). rewrite E, accepted_app, in_app_iff. left. rewrite Ea, accepted_app, in_app_iff. auto.
Qed.

(** Whenever a request callback [u] of consumer [co] of process [i] is entered, for [id] and with datagram [d]: it is the callback of the latest request that this consumer made under
    [id]; the message carries [id] and [d]; a provider of some process responded with exactly [id] and [d], or some thread published such an envelope. *)
Theorem C96_correlated : forall n ls c Ta Tb i r s p co id u d,
  cexec n ls cl_init = Some (c, Ta ++ (i, NEv (EvInvoke r s p (CallRequest co id u d))) :: Tb) ->
  latest id (requests co (events_of i Ta)) = Some u /\ answer (bm_data (snd p)) id d /\
  ((exists j q, In (CBus j (LRespond q id d)) ls) \/ published_there ls (snd p)).
Proof.
  intros n ls c Ta Tb i r s p co id u d X. destruct (invoke_issued _ _ _ _ _ _ _ _ _ _ X) as (ls1 & ls2 & st1 & st2 & tr1 & b & q & X1 & H & XE & Ea & Nq & Ac & Rv & Is).
  assert (reach st1) as Rc by (exists ls1, tr1; auto). destruct (receive_request _ _ _ _ _ _ _ Rv) as (q' & y & Nq' & Ecb & Ny & O & An). assert (q' = q) as -> by congruence.
  split; [rewrite Ea, requests_app, latest_app; simpl; eapply open_registered; eauto|]. split; [exact An|].
  destruct (w_ccb _ (reach_wired _ Rc) _ _ _ Nq Ecb) as (y1 & Ny1 & Es). assert (y1 = y) as -> by congruence.
  assert (exists t, s_topic q = (t ++ "/response")%string) as (t & Tq) by (eapply (consumer_topic st1 co s); [exact Rc| |exact Nq]; exists y, q; auto).
  assert (bm_topic (snd p) = (t ++ "/response")%string) as Tm. { destruct Ac as [Ac|Ac]; [congruence|]. rewrite Tq in Ac. now apply response_not_all in Ac. }
  destruct Is as [P|[((j & p' & id' & d' & I & E) & _)|(_ & t' & T')]]; [auto| |].
  - left. exists j, p'. rewrite E in An. apply answer_envelope in An as (A1 & A2). simpl in A1, A2. injection A1 as <-. subst d'. exact I.
  - exfalso. rewrite Tm in T'. symmetry in T'. now apply request_not_response in T'.
Qed.
Print Assumptions C96_correlated.

(** Whenever the callback of provider [q] of process [i] is entered: it gets the data of the message, with its invocation id; a consumer of some process made the request under this
    id, or some thread published such an envelope. *)
Theorem C96_envelope : forall n ls c Ta Tb i r s p q id v d,
  cexec n ls cl_init = Some (c, Ta ++ (i, NEv (EvInvoke r s p (CallProvider q id v d))) :: Tb) ->
  d = bm_data (snd p) /\ has_id d id /\
  ((exists j co d0 u, In (CBus j (LRequest co id d0 (Some u))) ls /\ d = request_of id d0) \/ published_there ls (snd p)).
Proof.
  intros n ls c Ta Tb i r s p q id v d X. destruct (invoke_issued _ _ _ _ _ _ _ _ _ _ X) as (ls1 & ls2 & st1 & st2 & tr1 & b & z & X1 & H & XE & Ea & Nz & Ac & Rv & Is).
  assert (reach st1) as Rc by (exists ls1, tr1; auto). destruct (receive_provider _ _ _ _ _ _ _ Rv) as (z' & y & Nz' & Ecb & Ny & O & Ed & Hi). assert (z' = z) as -> by congruence.
  split; [exact Ed|]. split; [exact Hi|].
  destruct (w_pcb _ (reach_wired _ Rc) _ _ _ Nz Ecb) as (y1 & Ny1 & Es). assert (y1 = y) as -> by congruence.
  assert (exists t, s_topic z = (t ++ "/request")%string) as (t & Tq).
  { destruct (w_prov _ (reach_wired _ Rc) _ _ Ny) as (t & q0 & w & N0 & T0 & _). exists t. rewrite Es in N0. congruence. }
  assert (bm_topic (snd p) = (t ++ "/request")%string) as Tm. { destruct Ac as [Ac|Ac]; [congruence|]. rewrite Tq in Ac. now apply request_not_all in Ac. }
  destruct Is as [P|[(_ & t' & T')|((j & co & id' & d' & u & I & E) & _)]]; [auto| |].
  - exfalso. rewrite Tm in T'. now apply request_not_response in T'.
  - left. exists j, co, d', u. assert (has_id d id') as Hi' by (rewrite Ed, E; eexists; split; reflexivity). rewrite (has_id_inj _ _ _ Hi Hi'). split; [exact I|congruence].
Qed.
Print Assumptions C96_envelope.

(** ** Requests *)

Lemma provider_calls n rt ls0 c0 T0 ls c T i b s topic q v :
  cexec n ls0 cl_init = Some (c0, T0) -> cexec n ls c0 = Some (c, T) ->
  distributed T0 = [] -> one_root rt (T0 ++ T) -> at_rest c ->
  calways (fun c => subscribed i (rt i) b s topic (CbProvider q) c /\ offers i q v c) n ls c0 ->
  Forall2 (provided q v) (filter (fun m => wants topic (bm_topic m)) (queued (T0 ++ T) i (rt i))) (calls (T0 ++ T) i s).
Proof.
  intros X0 X Q R E S. eapply (calls_related n rt ls0 ls c0 c T0 T X0 X Q R E i b s topic (CbProvider q) (fun st => exists y, nth_error (s_provs st) q = Some y /\ pr_cb y = Some v)); [|exact S].
  intros st m (y & Ny & Cb) Ns. unfold receive. rewrite Ns. cbn [s_cb]. rewrite Ny, Cb. destruct (envelope_id (bm_data m)) as [id|] eqn:Ei; [|exact I].
  exists id. split; [now apply has_id_envelope|reflexivity].
Qed.

(** The provider's callback is called once for each message on its topic that the root bus of its process accepted, in the order of acceptance, with its invocation id. *)
Theorem C96_provider : forall n rt ls0 c0 T0 ls c T i b s topic q v,
  cexec n ls0 cl_init = Some (c0, T0) -> cexec n ls c0 = Some (c, T) ->
  distributed T0 = [] -> one_root rt (T0 ++ T) -> at_rest c ->
  calways (fun c => subscribed i (rt i) b s topic (CbProvider q) c /\ offers i q v c) n ls c0 ->
  Forall2 (provided q v) (filter (fun m => wants topic (bm_topic m)) (queued (T0 ++ T) i (rt i))) (calls (T0 ++ T) i s).
Proof. exact provider_calls. Qed.
Print Assumptions C96_provider.

Lemma Forall2_perm {A B} (R : A -> B -> Prop) l k : Forall2 R l k -> forall l', Permutation l l' -> exists k', Permutation k k' /\ Forall2 R l' k'.
Proof.
  intros F l' P. revert k F. induction P as [|x l l' P IH|x y l|l l' l'' P1 IH1 P2 IH2]; intros k F.
  - inversion F; subst. exists []. split; constructor.
  - inversion F as [|? z ? k0 R0 F0]; subst. destruct (IH _ F0) as (k' & P' & F'). exists (z :: k'). split; constructor; auto.
  - inversion F as [|? z ? k0 R0 F0]; subst. inversion F0 as [|? z' ? k1 R1 F1]; subst. exists (z' :: z :: k1). split; [constructor|]. constructor; auto.
  - destruct (IH1 _ F) as (k1 & P1' & F1). destruct (IH2 _ F1) as (k2 & P2' & F2). exists k2. split; [etransitivity; eauto|exact F2].
Qed.

Lemma star_queued k name n rt pos ls0 c0 T0 ls c T i :
  a_star k name n -> cexec n ls0 cl_init = Some (c0, T0) -> cexec n ls c0 = Some (c, T) -> own_callbacks n (ls0 ++ ls) ->
  distributed T0 = [] -> calways (attached n rt pos) n ls c0 -> one_root rt (T0 ++ T) -> at_rest c ->
  (forall j m, In (j, m) (local (T0 ++ T)) -> j <= k) -> i <= k ->
  Permutation (queued (T0 ++ T) i (rt i)) (owed name i (local (T0 ++ T))).
Proof.
  intros St X0 X O Q A R E L Li. rewrite <- (here_queued n rt ls0 ls c0 c T0 T X0 X R E i). rewrite <- (owed_star k name i _ Li L). apply perm_here.
  destruct (C91_settles _ _ _ _ _ _ _ _ _ X0 X O Q A R E) as (ws & W & P). destruct (star_alike _ _ _ St) as (SL & SW). rewrite (alike_exec _ _ SL SW) in W. rewrite <- P in *.
  apply (C60_star _ _ _ _ W). intros j m I. apply (L j m). unfold NetProps.published. apply in_flat_map. exists (WPublish j m). split; [exact I|now left].
Qed.

(** A server and its clients: the provider's callback is called exactly once for every request published on its process or on a peer. *)
Theorem C96_provider_star : forall k name n rt pos ls0 c0 T0 ls c T i b s topic q v,
  a_star k name n ->
  cexec n ls0 cl_init = Some (c0, T0) -> cexec n ls c0 = Some (c, T) -> own_callbacks n (ls0 ++ ls) ->
  distributed T0 = [] -> calways (attached n rt pos) n ls c0 -> one_root rt (T0 ++ T) -> at_rest c ->
  (forall j m, In (j, m) (local (T0 ++ T)) -> j <= k) ->
  i <= k -> calways (fun c => subscribed i (rt i) b s topic (CbProvider q) c /\ offers i q v c) n ls c0 ->
  exists ks, Permutation (calls (T0 ++ T) i s) ks /\
    Forall2 (provided q v) (filter (fun m => wants topic (bm_topic m)) (owed name i (local (T0 ++ T)))) ks.
Proof.
  intros k name n rt pos ls0 c0 T0 ls c T i b s topic q v St X0 X O Q A R E L Li S.
  eapply Forall2_perm; [eapply provider_calls; eauto|]. apply perm_filter. eapply star_queued; eauto.
Qed.
Print Assumptions C96_provider_star.

(** ** Answers *)

(** In any network: an answer that the process of the consumer accepts - whichever way it came - calls the callback of the request, exactly once. The request is open and was
    not answered before; its id has not been used in an answer before, and is not used for two requests. *)
Theorem C96_answered : forall n rt ls1 c1 T1 ls2 c T2 i b s topic co id u m d,
  cexec n ls1 cl_init = Some (c1, T1) -> cexec n ls2 c1 = Some (c, T2) -> one_root rt (T1 ++ T2) -> at_rest c ->
  calways (consumes i (rt i) b s topic co) n ls2 c1 -> waits i co id u c1 -> unused ls1 id ->
  NoDup (map fst (requests co (events_of i (T1 ++ T2)))) ->
  In m (queued (T1 ++ T2) i (rt i)) -> bm_topic m = topic -> answer (bm_data m) id d ->
  filter (fun x => String.eqb (fst x) id) (answered co (events_of i (T1 ++ T2))) = [(id, u)].
Proof.
  intros n rt ls1 c1 T1 ls2 c T2 i b s topic co id u m d X1 X2 R E C W U ND I Et An.
  assert (In (id, u) (answered co (events_of i T2))) as J.
  { eapply (answer_once n rt ls1 ls2 c1 c T1 T2); eauto. intros d0 v I0.
    destruct (node_run _ _ _ _ X1 i) as (nls1 & A1 & _). pose proof (nexec_exec _ _ _ _ _ A1) as XE1. destruct W as ((y & Ny & Oy) & _). pose proof (open_registered co _ _ _ XE1 y id u Ny Oy) as La.
    rewrite events_app, requests_app, map_app in ND. eapply nodup_app_disj; [exact ND| |].
    - rewrite events_node. clear - La. induction (requests co (bus_events (at_node i T1))) as [|(a & w) l IH]; [discriminate La|]. cbn [latest] in La. cbn. destruct (latest id l); [right; auto|]. destruct (String.eqb_spec id a) as [->|]; [now left|discriminate La].
    - apply in_map_iff. exists (id, v). split; [reflexivity|]. eapply request_event; eauto. }
  apply only_one; [eapply answers_nodup; eauto|]. rewrite events_app, answered_app, in_app_iff. auto.
Qed.
Print Assumptions C96_answered.

(** A server and its clients: so does every answer published on the consumer's process or on a peer. *)
Theorem C96_answered_star : forall k name n rt pos ls0 c0 T0 ls1 c1 T1 ls2 c T2 i b s topic co id u j m d,
  a_star k name n ->
  cexec n ls0 cl_init = Some (c0, T0) -> cexec n ls1 c0 = Some (c1, T1) -> cexec n ls2 c1 = Some (c, T2) -> own_callbacks n (ls0 ++ ls1 ++ ls2) ->
  distributed T0 = [] -> calways (attached n rt pos) n (ls1 ++ ls2) c0 -> one_root rt (T0 ++ T1 ++ T2) -> at_rest c ->
  (forall j m, In (j, m) (local (T0 ++ T1 ++ T2)) -> j <= k) ->
  i <= k -> calways (consumes i (rt i) b s topic co) n ls2 c1 -> waits i co id u c1 -> unused (ls0 ++ ls1) id ->
  NoDup (map fst (requests co (events_of i (T0 ++ T1 ++ T2)))) ->
  In (j, m) (local (T0 ++ T1 ++ T2)) -> hears i j -> ~ marked name m -> bm_topic m = topic -> answer (bm_data m) id d ->
  filter (fun x => String.eqb (fst x) id) (answered co (events_of i (T0 ++ T1 ++ T2))) = [(id, u)].
Proof.
  intros k name n rt pos ls0 c0 T0 ls1 c1 T1 ls2 c T2 i b s topic co id u j m d St X0 X1 X2 O Q A R E L Li C W U ND I Hr Nm Et An.
  assert (cexec n (ls1 ++ ls2) c0 = Some (c, T1 ++ T2)) as X by (rewrite cexec_app, X1, X2; reflexivity).
  assert (cexec n (ls0 ++ ls1) cl_init = Some (c1, T0 ++ T1)) as X01 by (rewrite cexec_app, X0, X1; reflexivity).
  pose proof (star_queued k name n rt pos ls0 c0 T0 (ls1 ++ ls2) c (T1 ++ T2) i St X0 X O Q A R E L Li) as P.
  assert (exists m', In m' (queued (T0 ++ T1 ++ T2) i (rt i)) /\ bm_topic m' = bm_topic m /\ bm_data m' = bm_data m) as (m' & I' & E1 & E2).
  { enough (exists m', In m' (owed name i (local (T0 ++ T1 ++ T2))) /\ bm_topic m' = bm_topic m /\ bm_data m' = bm_data m) as (m' & I' & Q') by (exists m'; split; [apply (Permutation_in _ (Permutation_sym P)); exact I'|exact Q']).
    destruct (Nat.eqb_spec j i) as [->|Nj].
    - exists m. repeat split; auto. apply in_flat_map. exists (i, m). cbn. rewrite Nat.eqb_refl. split; [exact I|now left].
    - exists (mkM (name ++ "/" ++ bm_sender m) (bm_topic m) (bm_data m)). repeat split; auto. apply in_flat_map. exists (j, m). split; [exact I|]. cbn [fst snd]. rewrite (proj2 (Nat.eqb_neq j i) Nj).
      assert (markedb name m = false) as ->. { destruct (markedb name m) eqn:K; [|reflexivity]. exfalso. apply Nm. now apply markedb_iff. }
      destruct Hr as [-> |[-> | ->]]; [congruence| |]; cbn; rewrite ?orb_true_r; now left. }
  rewrite app_assoc in *. rewrite <- E1 in Et. rewrite <- E2 in An. eapply (C96_answered n rt (ls0 ++ ls1) c1 (T0 ++ T1) ls2 c T2); eauto.
Qed.
Print Assumptions C96_answered_star.

(** ** Processes joined in a tree *)

(** The provider's callback is called exactly once for every request published on any process. *)
Theorem C96_provider_tree : forall n N rt pos ls0 c0 T0 ls c T i b s topic q v,
  cexec n ls0 cl_init = Some (c0, T0) -> cexec n ls c0 = Some (c, T) -> own_callbacks n (ls0 ++ ls) ->
  distributed T0 = [] -> calways (attached n rt pos) n ls c0 -> one_root rt (T0 ++ T) -> at_rest c ->
  well_formed n -> tree n N -> (forall j m, In (j, m) (local (T0 ++ T)) -> j < N /\ unmarked n j m) ->
  i < N -> calways (fun c => subscribed i (rt i) b s topic (CbProvider q) c /\ offers i q v c) n ls c0 ->
  exists ks, Permutation (calls (T0 ++ T) i s) ks /\
    Forall2 (fun p k => provided q v (snd p) k) (filter (fun p => wants topic (bm_topic (snd p))) (local (T0 ++ T))) ks.
Proof.
  intros n N rt pos ls0 c0 T0 ls c T i b s topic q v X0 X O Q A R E W Tr L Li S.
  pose proof (tree_here _ _ _ _ _ _ _ _ _ _ _ X0 X O Q A R E W Tr L Li) as P. apply (perm_filter (fun x => wants topic (fst x))) in P. rewrite <- (filter_wants topic (queued (T0 ++ T) i (rt i)) _ eq_refl) in P.
  pose proof (provider_calls _ _ _ _ _ _ _ _ _ _ _ _ _ _ X0 X Q R E S) as F.
  set (Rl := fun (x : string * dg) k => exists id, has_id (snd x) id /\ k = CallProvider q id v (snd x)).
  assert (forall ms ks, Forall2 (provided q v) ms ks -> Forall2 Rl (map (fun m => (bm_topic m, bm_data m)) ms) ks) as M by (induction 1; cbn [map]; constructor; auto).
  apply M in F. destruct (Forall2_perm _ _ _ F _ P) as (ks & P' & F'). exists ks. split; [exact P'|]. clear - F'. revert ks F'.
  induction (local (T0 ++ T)) as [|p l IH]; intros ks F'; cbn [map filter fst snd] in *; [inversion F'; constructor|].
  destruct (wants topic (bm_topic (snd p))); [|apply IH, F']. inversion F'; subst. constructor; auto.
Qed.
Print Assumptions C96_provider_tree.

(** An answer published on any process calls the callback of the request, exactly once. *)
Theorem C96_answered_tree : forall n N rt pos ls0 c0 T0 ls1 c1 T1 ls2 c T2 i b s topic co id u j m d,
  cexec n ls0 cl_init = Some (c0, T0) -> cexec n ls1 c0 = Some (c1, T1) -> cexec n ls2 c1 = Some (c, T2) -> own_callbacks n (ls0 ++ ls1 ++ ls2) ->
  distributed T0 = [] -> calways (attached n rt pos) n (ls1 ++ ls2) c0 -> one_root rt (T0 ++ T1 ++ T2) -> at_rest c ->
  well_formed n -> tree n N -> (forall j m, In (j, m) (local (T0 ++ T1 ++ T2)) -> j < N /\ unmarked n j m) ->
  i < N -> calways (consumes i (rt i) b s topic co) n ls2 c1 -> waits i co id u c1 -> unused (ls0 ++ ls1) id ->
  NoDup (map fst (requests co (events_of i (T0 ++ T1 ++ T2)))) ->
  In (j, m) (local (T0 ++ T1 ++ T2)) -> bm_topic m = topic -> answer (bm_data m) id d ->
  filter (fun x => String.eqb (fst x) id) (answered co (events_of i (T0 ++ T1 ++ T2))) = [(id, u)].
Proof.
  intros n N rt pos ls0 c0 T0 ls1 c1 T1 ls2 c T2 i b s topic co id u j m d X0 X1 X2 O Q A R E WF Tr L Li C W U ND I Et An.
  assert (cexec n (ls1 ++ ls2) c0 = Some (c, T1 ++ T2)) as X by (rewrite cexec_app, X1, X2; reflexivity).
  assert (cexec n (ls0 ++ ls1) cl_init = Some (c1, T0 ++ T1)) as X01 by (rewrite cexec_app, X0, X1; reflexivity).
  pose proof (tree_here _ _ _ _ _ _ _ _ _ _ _ X0 X O Q A R E WF Tr L Li) as P.
  assert (In (bm_topic m, bm_data m) (map (fun m => (bm_topic m, bm_data m)) (queued (T0 ++ T1 ++ T2) i (rt i)))) as J.
  { apply (Permutation_in _ (Permutation_sym P)). apply in_map_iff. exists (j, m). auto. }
  apply in_map_iff in J as (m' & Em & I'). injection Em as E1 E2. rewrite app_assoc in *. rewrite <- E1 in Et. rewrite <- E2 in An. eapply (C96_answered n rt (ls0 ++ ls1) c1 (T0 ++ T1) ls2 c T2); eauto.
Qed.
Print Assumptions C96_answered_tree.

(** ** A concrete run: a server with a provider of "act" and a client with a consumer. The client requests, the server's callback responds, and the client's callback is called. *)

Definition rx_boot (i : nat) (l : list label) : list clabel :=
  map (CBus i) ([LNewRoot "root"; LChild 0 "Act0"] ++ l ++ [LChild 0 "Link0"; LSub 2 "/**/*" None; LSetMsg 1 (Some 7); LStart 0]).
Definition rx_set : list clabel := rx_boot 0 [LProvider 1 "act" (Some 5); LInstallProvider 0] ++ rx_boot 1 [LConsumer 1 "act"; LInstallConsumer 0].
Definition rx_request : list clabel := [CBus 1 (LRequest 0 "id1" (Val (DInt 1)) (Some 9))].
Definition rx_go (i a : nat) : list clabel := map (CBus i) (repeat (LRun 0) a).
Definition rx_ret (i : nat) : list clabel := [CBus i (LReturn 0)].
Definition rx_answer : list clabel :=
  map (CBus 1) [LFly 0; LFly 0] ++ rx_go 1 12 ++ rx_ret 1 ++ rx_go 1 6 ++ [CTake 0; CBus 0 (LFly 0)] ++ rx_go 0 7 ++
  map (CBus 0) [LRespond 0 "id1" (Val (DInt 2)); LReturn 0; LFly 1; LFly 1] ++ rx_go 0 5 ++ rx_ret 0 ++ rx_go 0 18 ++ rx_ret 0 ++ rx_go 0 6 ++
  [CTake 0; CBus 1 (LFly 1)] ++ rx_go 1 7 ++ rx_ret 1 ++ rx_go 1 5 ++ rx_ret 1 ++ rx_go 1 6.

Definition rx_okb (f : state -> bool) (st : state) : bool :=
  match s_buses st, nth_error (s_subs st) 1 with
  | [x; y; z], Some (mkSub t1 (Some (CbMsg v))) =>
      Nat.eqb v 7 && String.eqb t1 "/**/*" && f st &&
      b_run x && b_run y && b_run z && existsb (Nat.eqb 0) (b_subs y) && existsb (Nat.eqb 1) (b_subs z) && existsb (Nat.eqb 1) (map snd (b_kids x)) &&
      existsb (Nat.eqb 2) (map snd (b_kids x)) && match b_fn z with Some (ToQueue 0) => true | _ => false end
  | _, _ => false
  end.
Lemma rx_okb_ok f st : rx_okb f st = true ->
  (serving 0 2 1 st /\ nth_error (s_subs st) 1 = Some (mkSub "/**/*" (Some (CbMsg 7))) /\ exists x, get_bus st 2 = Some x /\ b_fn x = Some (ToQueue 0)) /\
  (serving 0 1 0 st /\ f st = true).
Proof.
  unfold rx_okb. intros H. destruct (s_buses st) as [|x [|y [|z [|]]]] eqn:Eb; try discriminate H.
  destruct (nth_error (s_subs st) 1) as [[t2 [[v|[|]| |]|]]|] eqn:N2; try discriminate H.
  repeat (let H' := fresh in apply andb_true_iff in H as (H & H')).
  repeat match goal with E : existsb _ _ = true |- _ => let n := fresh in let I := fresh in let Q := fresh in apply existsb_exists in E as (n & I & Q); apply Nat.eqb_eq in Q; subst n end.
  repeat match goal with E : String.eqb _ _ = true |- _ => apply String.eqb_eq in E; subst | E : Nat.eqb _ _ = true |- _ => apply Nat.eqb_eq in E; subst end.
  destruct (b_fn z) as [[[|]|]|] eqn:Fz; try discriminate.
  assert (forall c xc, get_bus st c = Some xc -> b_run xc = true) as R.
  { intros c xc Gc. unfold get_bus in Gc. rewrite Eb in Gc. destruct c as [|[|[|[|]]]]; try discriminate; injection Gc as <-; auto. }
  assert (forall c, In c (map snd (b_kids x)) -> below st 0 c) as B.
  { intros c I. apply below_kid with 0; [constructor|]. exists x. unfold get_bus. rewrite Eb. auto. }
  split; [split; [split; [exists z; unfold get_bus; rewrite Eb; auto|split; eauto]|]|split; [split; [exists y; unfold get_bus; rewrite Eb; auto|split; eauto]|assumption]].
  split; [reflexivity|]. exists z. unfold get_bus. rewrite Eb. auto.
Qed.

Definition rx_prov (st : state) : bool :=
  match nth_error (s_subs st) 0, nth_error (s_provs st) 0 with
  | Some (mkSub t (Some (CbProvider q))), Some y => String.eqb t "act/request" && Nat.eqb q 0 && match pr_cb y with Some v => Nat.eqb v 5 | None => false end
  | _, _ => false
  end.
Definition rx_cons (st : state) : bool :=
  match nth_error (s_subs st) 0, nth_error (s_conss st) 0 with
  | Some (mkSub t (Some (CbConsumer q))), Some y => String.eqb t "act/response" && Nat.eqb q 0 && Nat.eqb (co_sub y) 0
  | _, _ => false
  end.

Definition rx_m0 : bmsg := mkM "Act0" "act/request" (request_of "id1" (Val (DInt 1))).
Definition rx_m1 : bmsg := mkM "Act0" "act/response" (response_of "id1" (Val (DInt 2))).

Example C96_case : exists c0 T0 c1 T1 c T2,
  a_star 1 "Link0" wx_net /\
  cexec wx_net rx_set cl_init = Some (c0, T0) /\ cexec wx_net rx_request c0 = Some (c1, T1) /\ cexec wx_net rx_answer c1 = Some (c, T2) /\
  own_callbacks wx_net (rx_set ++ rx_request ++ rx_answer) /\ distributed T0 = [] /\
  calways (attached wx_net (fun _ => 0) (fun _ _ => (2, 1))) wx_net (rx_request ++ rx_answer) c0 /\ one_root (fun _ => 0) (T0 ++ T1 ++ T2) /\ at_rest c /\
  local (T0 ++ T1 ++ T2) = [(1, rx_m0); (0, rx_m1)] /\
  calways (fun c => subscribed 0 0 1 0 "act/request" (CbProvider 0) c /\ offers 0 0 5 c) wx_net (rx_request ++ rx_answer) c0 /\
  calways (consumes 1 0 1 0 "act/response" 0) wx_net rx_answer c1 /\ waits 1 0 "id1" 9 c1 /\ unused (rx_set ++ rx_request) "id1" /\
  requests 0 (events_of 1 (T0 ++ T1 ++ T2)) = [("id1", 9)] /\ hears 1 0 /\ ~ marked "Link0" rx_m1 /\ answer (bm_data rx_m1) "id1" (Val (DInt 2)) /\
  calls (T0 ++ T1 ++ T2) 0 0 = [CallProvider 0 "id1" 5 (request_of "id1" (Val (DInt 1)))] /\
  calls (T0 ++ T1 ++ T2) 1 0 = [CallRequest 0 "id1" 9 (Val (DInt 2))].
Proof.
  destruct (cexec wx_net rx_set cl_init) as [[c0 T0]|] eqn:E0; [|exfalso; assert (option_map (fun _ => tt) (cexec wx_net rx_set cl_init) = Some tt) as K by (vm_compute; reflexivity); rewrite E0 in K; discriminate].
  destruct (cexec wx_net rx_request c0) as [[c1 T1]|] eqn:E1.
  2: { exfalso. assert (option_map (fun _ => tt) (cexec wx_net (rx_set ++ rx_request) cl_init) = Some tt) as K by (vm_compute; reflexivity). rewrite cexec_app, E0, E1 in K. discriminate. }
  assert (cexec wx_net (rx_set ++ rx_request) cl_init = Some (c1, T0 ++ T1)) as E01 by (rewrite cexec_app, E0, E1; reflexivity).
  destruct (cexec wx_net rx_answer c1) as [[c T2]|] eqn:E2.
  2: { exfalso. assert (option_map (fun _ => tt) (cexec wx_net ((rx_set ++ rx_request) ++ rx_answer) cl_init) = Some tt) as K by (vm_compute; reflexivity). rewrite cexec_app, E01, E2 in K. discriminate. }
  assert (cexec wx_net (rx_set ++ rx_request ++ rx_answer) cl_init = Some (c, T0 ++ T1 ++ T2)) as E by (rewrite cexec_app, E0, cexec_app, E1, E2; reflexivity).
  exists c0, T0, c1, T1, c, T2.
  split. { split; [|intros [|i] [|j] [] _; reflexivity]. intros [|[|i]]; cbn; try lia; (split; [lia|split; [reflexivity|intros []; reflexivity]]). }
  split; [reflexivity|]. split; [exact E1|]. split; [exact E2|].
  split. { intros i k lk N. exists 1. intros s' I. vm_compute in I. destruct i as [|[|i]]; cbn in N; [| |destruct k; discriminate]; (destruct k as [|k]; [injection N as <-|destruct k; discriminate]); cbn in I; repeat (destruct I as [I|I]; [try discriminate I|]); try contradiction; now injection I. }
  split. { assert (option_map (fun x => distributed (snd x)) (cexec wx_net rx_set cl_init) = Some []) as K by (vm_compute; reflexivity). rewrite E0 in K. now injection K. }
  set (okb := fun c => rx_okb rx_prov (cl_nodes c 0) && rx_okb rx_cons (cl_nodes c 1)).
  assert (calways (fun c => okb c = true) wx_net (rx_request ++ rx_answer) c0) as OK.
  { apply (calwaysb_ok okb); [auto|].
    assert (option_map (fun x => calwaysb okb wx_net (rx_request ++ rx_answer) (fst x)) (cexec wx_net rx_set cl_init) = Some true) as K by (vm_compute; reflexivity). rewrite E0 in K. now injection K. }
  assert (calways (fun c => okb c = true) wx_net rx_answer c1) as OK1.
  { apply (calwaysb_ok okb); [auto|].
    assert (option_map (fun x => calwaysb okb wx_net rx_answer (fst x)) (cexec wx_net (rx_set ++ rx_request) cl_init) = Some true) as K by (vm_compute; reflexivity). rewrite E01 in K. now injection K. }
  split. { eapply calways_imp; [|exact OK]. intros cc H. apply andb_true_iff in H as (H0 & H1). intros i k lk N. cbn [fst snd]. destruct i as [|[|i]]; cbn in N; [| |destruct k; discriminate];
    (destruct k as [|k]; [injection N as <-; cbn [lk_bus lk_cb]|destruct k; discriminate]); [apply (rx_okb_ok _ _ H0)|apply (rx_okb_ok _ _ H1)]. }
  split. { apply one_root_ok. assert (option_map (fun x => forallb one_rootb (snd x)) (cexec wx_net (rx_set ++ rx_request ++ rx_answer) cl_init) = Some true) as K by (vm_compute; reflexivity). rewrite E in K. now injection K. }
  split. { split.
    - assert (option_map (fun x => cl_wire (fst x)) (cexec wx_net (rx_set ++ rx_request ++ rx_answer) cl_init) = Some []) as K by (vm_compute; reflexivity). rewrite E in K. now injection K.
    - intros i. apply rest_okb_ok. destruct i as [|[|i]].
      + assert (option_map (fun x => rest_okb (cl_nodes (fst x) 0)) (cexec wx_net (rx_set ++ rx_request ++ rx_answer) cl_init) = Some true) as K by (vm_compute; reflexivity). rewrite E in K. now injection K.
      + assert (option_map (fun x => rest_okb (cl_nodes (fst x) 1)) (cexec wx_net (rx_set ++ rx_request ++ rx_answer) cl_init) = Some true) as K by (vm_compute; reflexivity). rewrite E in K. now injection K.
      + rewrite (ClusterProps.unused _ _ _ _ (S (S i)) E); [reflexivity|reflexivity|]. intros l I. cbn in I. repeat (destruct I as [I|I]; [discriminate I|]). destruct I. }
  assert (option_map (fun x => (local (snd x), calls (snd x) 0 0, calls (snd x) 1 0, requests 0 (events_of 1 (snd x)))) (cexec wx_net (rx_set ++ rx_request ++ rx_answer) cl_init) =
    Some ([(1, rx_m0); (0, rx_m1)], [CallProvider 0 "id1" 5 (request_of "id1" (Val (DInt 1)))], [CallRequest 0 "id1" 9 (Val (DInt 2))], [("id1", 9)])) as K by (vm_compute; reflexivity).
  rewrite E in K. cbn [option_map snd] in K. injection K as K1 K2 K3 K4. rewrite K1, K2, K3, K4.
  split; [reflexivity|].
  split. { eapply calways_imp; [|exact OK]. intros cc H. apply andb_true_iff in H as (H & _). apply rx_okb_ok in H as (_ & Sv & H). unfold rx_prov in H.
    destruct (nth_error (s_subs (cl_nodes cc 0)) 0) as [[t [[|[|]|q|]|]]|] eqn:N0; try discriminate H. destruct (nth_error (s_provs (cl_nodes cc 0)) 0) as [y|] eqn:Ny; [|discriminate H].
    apply andb_true_iff in H as (H & Hv). apply andb_true_iff in H as (Ht & Hq). apply String.eqb_eq in Ht. apply Nat.eqb_eq in Hq. subst. destruct (pr_cb y) as [v|] eqn:Ev; [|discriminate Hv]. apply Nat.eqb_eq in Hv. subst.
    split; [split; [exact Sv|exact N0]|exists y; auto]. }
  split. { eapply calways_imp; [|exact OK1]. intros cc H. apply andb_true_iff in H as (_ & H). apply rx_okb_ok in H as (_ & Sv & H). unfold rx_cons in H.
    destruct (nth_error (s_subs (cl_nodes cc 1)) 0) as [[t [[|[|]| |q]|]]|] eqn:N0; try discriminate H. destruct (nth_error (s_conss (cl_nodes cc 1)) 0) as [y|] eqn:Ny; [|discriminate H].
    apply andb_true_iff in H as (H & Hs). apply andb_true_iff in H as (Ht & Hq). apply String.eqb_eq in Ht. apply Nat.eqb_eq in Hq. apply Nat.eqb_eq in Hs. subst.
    split; [exact Sv|]. split; [exists y; eexists; eauto|]. eexists. split; [exact N0|reflexivity]. }
  split. { split.
    - assert (option_map (fun x => match nth_error (s_conss (cl_nodes (fst x) 1)) 0 with Some y => olookup "id1" (co_open y) | None => None end) (cexec wx_net (rx_set ++ rx_request) cl_init) = Some (Some 9)) as K by (vm_compute; reflexivity).
      rewrite E01 in K. cbn [option_map fst] in K. injection K as K. unfold open_request. cbn [nth_error]. destruct (s_conss (cl_nodes c1 1)) as [|y q]; [discriminate K|exists y; auto].
    - assert (option_map (fun x => forallb (fun b => match b_runner b with RDist _ _ _ _ => false | _ => true end) (s_buses (cl_nodes (fst x) 1))) (cexec wx_net (rx_set ++ rx_request) cl_init) = Some true) as K by (vm_compute; reflexivity).
      rewrite E01 in K. cbn [option_map fst] in K. injection K as K. rewrite forallb_forall in K. intros r b v d (x & m & ss & stk & rest & G & Rn). apply nth_error_In in G. specialize (K _ G). cbn in K. rewrite Rn in K. discriminate K. }
  split. { repeat split.
    - intros j p d I. cbn in I. repeat (destruct I as [I|I]; [discriminate I|]). destruct I.
    - intros j p d I. cbn in I. repeat (destruct I as [I|I]; [discriminate I|]). destruct I.
    - intros j b m I. cbn in I. repeat (destruct I as [I|I]; [discriminate I|]). destruct I. }
  split; [reflexivity|]. split; [right; right; reflexivity|]. split; [intros (r & Q); discriminate Q|]. split; [eexists; split; [reflexivity|split; [reflexivity|left; reflexivity]]|]. auto.
Qed.

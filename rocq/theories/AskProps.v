(** C97: the synchronous Request when the answer comes from another process. *)
From Coq Require Import String List Arith ZArith Bool Lia Permutation.
From Verif Require Import Prelude OMap DatagramModel DatagramSpec DatagramStmt NetProps BusModel BusSpec BusProofs BusTree BusLocks BusLocks2 BusLocks3 BusDist BusAccount BusOnce BusDeliver BusDeliveryProps LinkModel NodeModel NetModel NodeProps RouteProps ActionSpec ActionProofs ActionProps ClusterModel ClusterSpec ClusterProofs ClusterProps WideSpec WideProofs WideProps RemoteSpec RemoteProofs RemoteProps.
From Verif Require Import RequestModel RequestProps SyncModel SyncSpec SyncProofs SyncProps AskModel AskSpec AskProofs.
From Verif Require Import ClusterSpec.
Import ListNotations.
Open Scope string_scope.
Open Scope list_scope.

Lemma over_jtrace i tr : is_over tr -> q_over (req_of (jtrace i tr)).
Proof.
  intros [(v & I)|(e & I)]; [exists (QeReturn v)|exists (QeThrow e)]; (split; [|exact Logic.I]); apply in_flat_map; eexists; (split; [apply in_flat_map; eexists; split; [exact I|now left]|now left]).
Qed.

Lemma jof_init i : jof i ainit = jinit.
Proof. reflexivity. Qed.

(** What Request returns was the payload of a call of its lambda. *)
Lemma return_called n i k ls s Ta v Tb : aexec n i k ls ainit = Some (s, Ta ++ AQ (QeReturn v) :: Tb) -> v = Emp \/ SyncSpec.calls k (events_of i (net_of Ta)) <> [] /\ In v (SyncSpec.calls k (events_of i (net_of Ta))).
Proof.
  intros X. destruct (ask_proj _ _ _ _ _ _ _ X) as (js & XJ & _). rewrite jof_init, jtrace_app in XJ. cbn [jtrace flat_map jev List.app] in XJ. fold (jtrace i Tb) in XJ.
  destruct (return_point _ _ _ _ _ _ _ XJ) as (js1 & js2 & j1 & j2 & -> & X1 & _ & _).
  destruct (req_proj _ _ _ _ _ XJ) as (qls & Q & _). destruct (req_proj _ _ _ _ _ X1) as (_ & _ & _ & En).
  rewrite req_of_app in Q. cbn [req_of flat_map List.app] in Q. fold (req_of (jtrace i Tb)) in Q.
  destruct (C39_never_another _ _ _ _ _ Q) as [->|(ds & E)]; [auto|]. right. rewrite En, bus_jtrace in E. rewrite E. split; [discriminate|now left].
Qed.

Lemma called_source n i k ls s Ta v Tb : aexec n i k ls ainit = Some (s, Ta ++ AQ (QeReturn v) :: Tb) -> In v (SyncSpec.calls k (events_of i (net_of Ta))) ->
  exists r p, In p (accepted r (events_of i (net_of Ta))) /\ answer (bm_data (snd p)) (k_id k) v /\
    ((exists j q, In (ANet (CBus j (LRespond q (k_id k) v))) ls) \/ published_there (net_labels ls) (snd p)).
Proof.
  intros X I.
  apply calls_in in I as (r & sb & p & I). apply events_in in I. destruct (in_split _ _ I) as (t1 & t2 & Et).
  pose proof (net_proj _ _ _ _ _ _ _ X) as XC. rewrite net_of_app, Et, <- app_assoc in XC. cbn [List.app] in XC.
  destruct (C96_correlated _ _ _ _ _ _ _ _ _ _ _ _ _ XC) as (_ & An & Src). exists r, p. split; [|split; [exact An|]].
  - destruct (node_exec _ _ _ _ XC i) as (ls' & XE). rewrite <- events_node, events_app in XE. unfold events_of at 2 in XE. cbn [flat_map] in XE. rewrite Nat.eqb_refl in XE. cbn [List.app] in XE.
    destruct (C34_correlated _ _ _ _ _ _ _ _ _ _ _ XE) as (_ & _ & Ac & _). rewrite Et, events_app, accepted_app. apply in_app_iff. auto.
  - destruct Src as [(j & q & J)|P]; [left|auto]. exists j, q. unfold net_labels in J. apply in_flat_map in J as (l & J & K). destruct l; [|contradiction]. destruct K as [->|[]]. exact J.
Qed.

(** In any network: what Request returns is empty, or what a provider of some process responded under its id - unless some thread published such an envelope itself. *)
Theorem C97_source : forall n i k ls s Ta v Tb,
  aexec n i k ls ainit = Some (s, Ta ++ AQ (QeReturn v) :: Tb) ->
  v = Emp \/
  exists r p, In p (accepted r (events_of i (net_of Ta))) /\ answer (bm_data (snd p)) (k_id k) v /\
    ((exists j q, In (ANet (CBus j (LRespond q (k_id k) v))) ls) \/ published_there (net_labels ls) (snd p)).
Proof.
  intros n i k ls s Ta v Tb X. destruct (return_called _ _ _ _ _ _ _ _ X) as [->|(_ & I)]; [auto|right]. eapply called_source; eauto.
Qed.
Print Assumptions C97_source.

(** If it does not time out, it is such an answer. *)
Theorem C97_waits : forall n i k ls s Ta v Tb,
  aexec n i k ls ainit = Some (s, Ta ++ AQ (QeReturn v) :: Tb) -> ~ In (ALocal QTimeout) ls ->
  exists r p, In p (accepted r (events_of i (net_of Ta))) /\ answer (bm_data (snd p)) (k_id k) v /\
    ((exists j q, In (ANet (CBus j (LRespond q (k_id k) v))) ls) \/ published_there (net_labels ls) (snd p)).
Proof.
  intros n i k ls s Ta v Tb X NT.
  destruct (ask_proj _ _ _ _ _ _ _ X) as (js & XJ & _ & L & _). rewrite jof_init, jtrace_app in XJ. cbn [jtrace flat_map jev List.app] in XJ. fold (jtrace i Ta) (jtrace i Tb) in XJ.
  destruct (return_point _ _ _ _ _ _ _ XJ) as (js1 & js2 & j1 & j2 & -> & X1 & _ & _).
  destruct (req_proj _ _ _ _ _ XJ) as (qls & Q & T & _). destruct (req_proj _ _ _ _ _ X1) as (_ & _ & _ & En).
  rewrite req_of_app in Q. cbn [req_of flat_map List.app] in Q. fold (req_of (jtrace i Ta)) (req_of (jtrace i Tb)) in Q.
  destruct (C39_waits _ _ _ _ _ Q) as (ds & E); [intros I; apply NT, L, T, I|]. rewrite En, bus_jtrace in E.
  eapply called_source; eauto. rewrite E. now left.
Qed.
Print Assumptions C97_waits.

(** ** Request made inside a callback *)

(** Whoever answers, on whatever process: a Request made inside a callback of the same tree of buses sits out its timeout, returns an empty datagram and leaves its request open. *)
Theorem C97_inside : forall n i k ls0 s0 T0 ls s tr r b kk,
  aexec n i k ls0 ainit = Some (s0, T0) -> a_q s0 = qinit ->
  (forall r b u d, ~ calling (cl_nodes (a_cl s0) i) r b (CallRequest (k_c k) (k_id k) u d)) ->
  calling (cl_nodes (a_cl s0) i) r b kk -> consumer_under (cl_nodes (a_cl s0) i) r (k_c k) ->
  aexec n i k ls s0 = Some (s, tr) -> inside i r ls ->
  a_q s <> QUndef /\
  (forall v, returned v tr -> v = Emp /\ In (ALocal QTimeout) ls) /\
  (In (k_id k, k_u k) (requests (k_c k) (events_of i (net_of tr))) ->
     (forall d v, In (ANet (CBus i (LRequest (k_c k) (k_id k) d (Some v)))) ls -> v = k_u k) -> waits i (k_c k) (k_id k) (k_u k) (a_cl s)).
Proof.
  intros n i k ls0 s0 T0 ls s tr r b kk X0 Q0 NC Ca Un X (In1 & In2).
  destruct (ask_proj _ _ _ _ _ _ _ X) as (js & XJ & B & L & _). pose proof (net_proj _ _ _ _ _ _ _ X0) as C0.
  assert (before k (jof i s0)) as Be. { split; [|split; [exact Q0|exact NC]]. destruct (node_exec _ _ _ _ C0 i) as (ls' & XE). exists ls', (bus_events (at_node i (net_of T0))). exact XE. }
  assert (still_inside r (SyncSpec.bus_labels js)) as F.
  { apply Forall_forall. intros l I. unfold SyncSpec.bus_labels in I. apply in_flat_map in I as (jl & I & J). destruct jl as [jl|]; [|contradiction]. destruct J as [->|[]].
    destruct (B _ I) as [I'|(b0 & m & ->)]; [|split; [discriminate|intros e; discriminate]]. split; [intros ->; auto|intros e ->; eapply In2; eauto]. }
  destruct (C74_empty _ _ _ _ _ _ _ _ Be Ca Un XJ F) as (R1 & R2 & R3). split; [exact R1|]. split.
  - intros v Iv. destruct (R2 v (returned_jtrace i v tr Iv)) as (-> & I). auto.
  - intros Rq Nu. rewrite bus_jtrace in R3. apply R3; [exact Rq|]. intros d v I. destruct (B _ I) as [I'|(b0 & m & Q)]; [eauto|discriminate Q].
Qed.
Print Assumptions C97_inside.

(** ** Answers in time *)

Lemma no_second n i co id u ls1 c1 T1 ls2 c2 T2 : cexec n ls1 cl_init = Some (c1, T1) -> cexec n ls2 c1 = Some (c2, T2) -> waits i co id u c1 ->
  NoDup (map fst (requests co (events_of i (T1 ++ T2)))) -> forall d v, ~ In (CBus i (LRequest co id d (Some v))) ls2.
Proof.
  intros X1 X2 W ND d0 v I0. destruct (node_run _ _ _ _ X1 i) as (nls1 & A1 & _). pose proof (nexec_exec _ _ _ _ _ A1) as XE1. destruct W as ((y & Ny & Oy) & _). pose proof (open_registered co _ _ _ XE1 y id u Ny Oy) as La.
  rewrite events_app, requests_app, map_app in ND. eapply nodup_app_disj; [exact ND| |].
  - rewrite events_node. clear - La. induction (requests co (bus_events (at_node i T1))) as [|(a & w) l IH]; [discriminate La|]. cbn [latest] in La. cbn. destruct (latest id l); [right; auto|]. destruct (String.eqb_spec id a) as [->|]; [now left|discriminate La].
  - apply in_map_iff. exists (id, v). split; [reflexivity|]. eapply request_event; eauto.
Qed.

Lemma resting_idle c i r b kk : at_rest c -> ~ calling (cl_nodes c i) r b kk.
Proof. intros (_ & R) (x & m & ss & stk & rest & G & E). destruct (R i) as (_ & Rb). destruct (Rb _ _ G) as (Cu & _). unfold current in Cu. rewrite E in Cu. discriminate Cu. Qed.

(** In any network: Request returns the answer that its process accepted - whichever way it came - if everything came to rest before it returned. The request was made and had not been
    answered; its id was not used in an answer before, nor for two requests; there is no other answer on the topic. *)
Theorem C97_answered : forall n rt k ls1 s1 T1 ls2 s2 T2 ls3 s3 T3 i b s topic m d v,
  aexec n i k ls1 ainit = Some (s1, T1) -> aexec n i k ls2 s1 = Some (s2, T2) ->
  one_root rt (net_of (T1 ++ T2)) -> at_rest (a_cl s2) ->
  calways (consumes i (rt i) b s topic (k_c k)) n (net_labels ls2) (a_cl s1) -> waits i (k_c k) (k_id k) (k_u k) (a_cl s1) -> unused (net_labels ls1) (k_id k) ->
  NoDup (map fst (requests (k_c k) (events_of i (net_of (T1 ++ T2))))) ->
  In m (queued (net_of (T1 ++ T2)) i (rt i)) -> bm_topic m = topic -> answer (bm_data m) (k_id k) d ->
  (forall m' d', In m' (queued (net_of (T1 ++ T2)) i (rt i)) -> bm_topic m' = topic -> answer (bm_data m') (k_id k) d' -> d' = d) ->
  aexec n i k ls3 s2 = Some (s3, T3) -> returned v T3 -> v = d.
Proof.
  intros n rt k ls1 s1 T1 ls2 s2 T2 ls3 s3 T3 i b s topic m d v X1 X2 R E Co W U ND I Et An Uq X3 Rv.
  pose proof (net_proj _ _ _ _ _ _ _ X1) as C1. pose proof (net_proj _ _ _ _ _ _ _ X2) as C2. rewrite net_of_app in *.
  assert (In (k_id k, k_u k) (answered (k_c k) (events_of i (net_of T2)))) as A by (eapply (answer_once n rt _ _ _ _ _ _ C1 C2 R E); eauto; eapply no_second; eauto).
  destruct (ask_proj _ _ _ _ _ _ _ X1) as (js1 & J1 & _). destruct (ask_proj _ _ _ _ _ _ _ X2) as (js2 & J2 & _). destruct (ask_proj _ _ _ _ _ _ _ X3) as (js3 & J3 & _).
  assert (jexec k (js1 ++ js2) jinit = Some (jof i s2, jtrace i T1 ++ jtrace i T2)) as J12 by (apply jexec_app; eauto 10).
  apply calls_answered in A. rewrite <- bus_jtrace in A.
  apply (returned_jtrace i) in Rv. destruct (in_split _ _ Rv) as (va & vb & Ev).
  destruct (a_q s2) as [q|] eqn:Eq.
  2: { exfalso. destruct js3 as [|l js3]; [cbn [jexec] in J3; assert (jtrace i T3 = []) as Z0 by congruence; rewrite Z0 in Rv; destruct Rv|]. cbn [jexec] in J3. unfold jstep in J3. cbn [jof j_q] in J3. rewrite Eq in J3. discriminate J3. }
  assert (q_c q = CIdle) as Ca.
  { pose proof (linked_exec _ _ jinit _ _ reach_init (linked_init k) J12) as La. unfold linked in La. cbn [jof j_q] in La. rewrite Eq in La. destruct (q_c q) eqn:C; auto; destruct La as (r0 & b0 & La); exact (False_ind _ (resting_idle _ i _ _ _ E La)). }
  destruct (req_proj _ _ _ _ _ J12) as (qz & Qz & _ & En). cbn [jof j_q] in Qz. rewrite Eq in Qz. change (j_q jinit) with qinit in Qz.
  destruct (q_ok_all _ _ _ Qz) as (_ & _ & Fin & _). specialize (Fin Ca). rewrite bus_of_app, calls_app in En.
  destruct (q_finished (req_of (jtrace i T1 ++ jtrace i T2))) as [|d0 ds] eqn:Ef.
  { rewrite Fin in En. symmetry in En. apply app_eq_nil in En as (_ & En). contradiction. }
  assert (d0 = d) as ->.
  { assert (In d0 (SyncSpec.calls k (bus_of (jtrace i T1 ++ jtrace i T2)))) as J by (rewrite bus_of_app, calls_app, <- En, Fin; now left).
    apply calls_in in J as (r0 & s0 & m0 & J). destruct (in_split _ _ J) as (p1 & p2 & Ep). pose proof (bus_proj _ _ _ _ _ J12) as Bz. rewrite Ep in Bz.
    destruct (C34_correlated _ _ _ _ _ _ _ _ _ _ _ Bz) as (_ & An0 & Ac & _). apply (Uq (snd m0)); [| |exact An0].
    2: { destruct (invoke_topic _ _ _ _ _ _ _ _ _ _ _ Bz) as (yz & qz0 & Nyz & Esz & Nqz & Tqz). rewrite <- Tqz. clear - Co Nyz Esz Nqz C2.
         assert (consumes i (rt i) b s topic (k_c k) (a_cl s1)) as (_ & (y1 & q1 & Ny1 & Es1 & _) & q & Nq & <-) by (destruct (net_labels ls2); apply Co).
         destruct (cexec_node n i (fun _ => True) _ _ _ _ C2) as (nls2 & A2 & _). pose proof (nexec_exec _ _ _ _ _ A2) as XE2. cbn [jof j_bus] in *.
         destruct (cons_exec _ _ _ _ _ _ XE2 Ny1) as (y2 & Ny2 & E2 & _). destruct (topic_exec _ _ _ _ _ _ XE2 Nq) as (q2 & Nq2 & Tq2). congruence. }
    assert (In m0 (accepted r0 (events_of i (net_of T1 ++ net_of T2)))) as Ac'. { rewrite events_app, <- !bus_jtrace, <- bus_of_app, Ep, accepted_app. apply in_app_iff. auto. }
    assert (r0 = rt i) as ->. { unfold accepted in Ac'. apply in_flat_map in Ac' as (e & I0 & K). destruct e; try contradiction. destruct (Nat.eqb_spec root r0) as [->|]; [|contradiction]. apply events_in in I0. destruct (R i r0 m1) as (R0 & _). eapply R0; eauto. }
    rewrite queued_node. apply in_map. rewrite <- events_node. exact Ac'. }
  assert (jexec k ((js1 ++ js2) ++ js3) jinit = Some (jof i s3, ((jtrace i T1 ++ jtrace i T2) ++ va) ++ JQ (QeReturn v) :: vb)) as Z.
  { apply jexec_app. do 3 eexists. split; [exact J12|]. split; [exact J3|]. rewrite Ev. now rewrite !app_assoc. }
  destruct (req_proj _ _ _ _ _ Z) as (qw & Qw & _). rewrite req_of_app in Qw. cbn [req_of flat_map List.app] in Qw. fold (req_of vb) in Qw. change (j_q jinit) with qinit in Qw.
  eapply (C39_completed _ _ _ _ _ d (ds ++ q_finished (req_of va)) Qw). fold (req_of ((jtrace i T1 ++ jtrace i T2) ++ va)). rewrite req_of_app, finished_app, Ef. reflexivity.
Qed.
Print Assumptions C97_answered.

Lemma star_arrives k0 name n rt pos ls0 c0 T0 ls c T i topic id j m d :
  a_star k0 name n -> cexec n ls0 cl_init = Some (c0, T0) -> cexec n ls c0 = Some (c, T) -> own_callbacks n (ls0 ++ ls) ->
  distributed T0 = [] -> calways (attached n rt pos) n ls c0 -> one_root rt (T0 ++ T) -> at_rest c ->
  (forall j m, In (j, m) (local (T0 ++ T)) -> j <= k0) -> i <= k0 ->
  In (j, m) (local (T0 ++ T)) -> hears i j -> ~ marked name m -> bm_topic m = topic -> answer (bm_data m) id d ->
  exists m', In m' (queued (T0 ++ T) i (rt i)) /\ bm_topic m' = topic /\ answer (bm_data m') id d.
Proof.
  intros St X0 X O Q A R E L Li I Hr Nm Et An.
  pose proof (star_queued k0 name n rt pos ls0 c0 T0 ls c T i St X0 X O Q A R E L Li) as P.
  enough (exists m', In m' (owed name i (local (T0 ++ T))) /\ bm_topic m' = bm_topic m /\ bm_data m' = bm_data m) as (m' & I' & E1 & E2).
  { exists m'. split; [apply (Permutation_in _ (Permutation_sym P)); exact I'|]. rewrite E1, E2. auto. }
  destruct (Nat.eqb_spec j i) as [->|Nj].
  - exists m. repeat split; auto. apply in_flat_map. exists (i, m). cbn. rewrite Nat.eqb_refl. split; [exact I|now left].
  - exists (mkM (name ++ "/" ++ bm_sender m) (bm_topic m) (bm_data m)). repeat split; auto. apply in_flat_map. exists (j, m). split; [exact I|]. cbn [fst snd]. rewrite (proj2 (Nat.eqb_neq j i) Nj).
    assert (markedb name m = false) as ->. { destruct (markedb name m) eqn:K; [|reflexivity]. exfalso. apply Nm. now apply markedb_iff. }
    destruct Hr as [-> |[-> | ->]]; [congruence| |]; cbn; rewrite ?orb_true_r; now left.
Qed.

(** What a process of a star accepts carries data that was published on some process. *)
Lemma star_only k0 name n rt pos ls0 c0 T0 ls c T i m :
  a_star k0 name n -> cexec n ls0 cl_init = Some (c0, T0) -> cexec n ls c0 = Some (c, T) -> own_callbacks n (ls0 ++ ls) ->
  distributed T0 = [] -> calways (attached n rt pos) n ls c0 -> one_root rt (T0 ++ T) -> at_rest c ->
  (forall j m, In (j, m) (local (T0 ++ T)) -> j <= k0) -> i <= k0 ->
  In m (queued (T0 ++ T) i (rt i)) -> exists j m0, In (j, m0) (local (T0 ++ T)) /\ bm_topic m = bm_topic m0 /\ bm_data m = bm_data m0.
Proof.
  intros St X0 X O Q A R E L Li I.
  apply (Permutation_in _ (star_queued k0 name n rt pos ls0 c0 T0 ls c T i St X0 X O Q A R E L Li)) in I.
  unfold owed in I. apply in_flat_map in I as ((j & m0) & I & J). exists j, m0. split; [exact I|]. cbn [fst snd] in J.
  destruct (Nat.eqb j i); [destruct J as [<-|[]]; auto|]. destruct (markedb name m0); [contradiction|]. destruct (_ || _)%bool; [|contradiction]. destruct J as [<-|[]]; auto.
Qed.

(** A server and its clients: Request returns the answer that was published on its process or on a peer, if that is the only answer on the topic and everything came to rest before it returned. *)
Theorem C97_answered_star : forall k0 name n rt pos k ls0 s0 T0 ls1 s1 T1 ls2 s2 T2 ls3 s3 T3 i b s topic j m d v,
  a_star k0 name n ->
  aexec n i k ls0 ainit = Some (s0, T0) -> aexec n i k ls1 s0 = Some (s1, T1) -> aexec n i k ls2 s1 = Some (s2, T2) -> own_callbacks n (net_labels (ls0 ++ ls1 ++ ls2)) ->
  distributed (net_of T0) = [] -> calways (attached n rt pos) n (net_labels (ls1 ++ ls2)) (a_cl s0) -> one_root rt (net_of (T0 ++ T1 ++ T2)) -> at_rest (a_cl s2) ->
  (forall j m, In (j, m) (local (net_of (T0 ++ T1 ++ T2))) -> j <= k0) -> i <= k0 ->
  calways (consumes i (rt i) b s topic (k_c k)) n (net_labels ls2) (a_cl s1) -> waits i (k_c k) (k_id k) (k_u k) (a_cl s1) -> unused (net_labels (ls0 ++ ls1)) (k_id k) ->
  NoDup (map fst (requests (k_c k) (events_of i (net_of (T0 ++ T1 ++ T2))))) ->
  In (j, m) (local (net_of (T0 ++ T1 ++ T2))) -> hears i j -> ~ marked name m -> bm_topic m = topic -> answer (bm_data m) (k_id k) d ->
  (forall j' m' d', In (j', m') (local (net_of (T0 ++ T1 ++ T2))) -> bm_topic m' = topic -> answer (bm_data m') (k_id k) d' -> d' = d) ->
  aexec n i k ls3 s2 = Some (s3, T3) -> returned v T3 -> v = d.
Proof.
  intros k0 name n rt pos k ls0 s0 T0 ls1 s1 T1 ls2 s2 T2 ls3 s3 T3 i b s topic j m d v St X0 X1 X2 O Q A R E L Li C W U ND I Hr Nm Et An Uq X3 Rv.
  assert (aexec n i k (ls0 ++ ls1) ainit = Some (s1, T0 ++ T1)) as X01 by (apply aexec_app; eauto 10).
  assert (aexec n i k (ls1 ++ ls2) s0 = Some (s2, T1 ++ T2)) as X12 by (apply aexec_app; eauto 10).
  pose proof (net_proj _ _ _ _ _ _ _ X0) as C0. pose proof (net_proj _ _ _ _ _ _ _ X12) as C12.
  rewrite net_labels_app in O. rewrite (net_of_app T0 (T1 ++ T2)) in R, L, I, Uq.
  destruct (star_arrives _ _ _ _ _ _ _ _ _ _ _ _ _ _ _ _ _ St C0 C12 O Q A R E L Li I Hr Nm Et An) as (m' & I' & Et' & An').
  assert (forall m0 d', In m0 (queued (net_of T0 ++ net_of (T1 ++ T2)) i (rt i)) -> bm_topic m0 = topic -> answer (bm_data m0) (k_id k) d' -> d' = d) as Uq'.
  { intros m0 d' I0 T0' A0. destruct (star_only _ _ _ _ _ _ _ _ _ _ _ _ _ St C0 C12 O Q A R E L Li I0) as (j1 & m1 & I1 & Et1 & Ed). rewrite Ed in A0. rewrite Et1 in T0'. eauto. }
  rewrite <- net_of_app, app_assoc in R, I', Uq'. rewrite app_assoc in ND.
  eapply (C97_answered n rt k (ls0 ++ ls1) s1 (T0 ++ T1) ls2 s2 T2); eauto.
Qed.
Print Assumptions C97_answered_star.

(** Processes joined in a tree: so it does if the answer was published on any process. *)
Theorem C97_answered_tree : forall n N rt pos k ls0 s0 T0 ls1 s1 T1 ls2 s2 T2 ls3 s3 T3 i b s topic j m d v,
  aexec n i k ls0 ainit = Some (s0, T0) -> aexec n i k ls1 s0 = Some (s1, T1) -> aexec n i k ls2 s1 = Some (s2, T2) -> own_callbacks n (net_labels (ls0 ++ ls1 ++ ls2)) ->
  distributed (net_of T0) = [] -> calways (attached n rt pos) n (net_labels (ls1 ++ ls2)) (a_cl s0) -> one_root rt (net_of (T0 ++ T1 ++ T2)) -> at_rest (a_cl s2) ->
  well_formed n -> tree n N -> (forall j m, In (j, m) (local (net_of (T0 ++ T1 ++ T2))) -> j < N /\ unmarked n j m) -> i < N ->
  calways (consumes i (rt i) b s topic (k_c k)) n (net_labels ls2) (a_cl s1) -> waits i (k_c k) (k_id k) (k_u k) (a_cl s1) -> unused (net_labels (ls0 ++ ls1)) (k_id k) ->
  NoDup (map fst (requests (k_c k) (events_of i (net_of (T0 ++ T1 ++ T2))))) ->
  In (j, m) (local (net_of (T0 ++ T1 ++ T2))) -> bm_topic m = topic -> answer (bm_data m) (k_id k) d ->
  (forall j' m' d', In (j', m') (local (net_of (T0 ++ T1 ++ T2))) -> bm_topic m' = topic -> answer (bm_data m') (k_id k) d' -> d' = d) ->
  aexec n i k ls3 s2 = Some (s3, T3) -> returned v T3 -> v = d.
Proof.
  intros n N rt pos k ls0 s0 T0 ls1 s1 T1 ls2 s2 T2 ls3 s3 T3 i b s topic j m d v X0 X1 X2 O Q A R E WF Tr L Li C W U ND I Et An Uq X3 Rv.
  assert (aexec n i k (ls0 ++ ls1) ainit = Some (s1, T0 ++ T1)) as X01 by (apply aexec_app; eauto 10).
  assert (aexec n i k (ls1 ++ ls2) s0 = Some (s2, T1 ++ T2)) as X12 by (apply aexec_app; eauto 10).
  pose proof (net_proj _ _ _ _ _ _ _ X0) as C0. pose proof (net_proj _ _ _ _ _ _ _ X12) as C12.
  rewrite net_labels_app in O. rewrite (net_of_app T0 (T1 ++ T2)) in R, L, I, Uq.
  pose proof (tree_here _ _ _ _ _ _ _ _ _ _ _ C0 C12 O Q A R E WF Tr L Li) as P.
  assert (exists m', In m' (queued (net_of T0 ++ net_of (T1 ++ T2)) i (rt i)) /\ bm_topic m' = topic /\ answer (bm_data m') (k_id k) d) as (m' & I' & Et' & An').
  { assert (In (bm_topic m, bm_data m) (map (fun m => (bm_topic m, bm_data m)) (queued (net_of T0 ++ net_of (T1 ++ T2)) i (rt i)))) as J.
    { apply (Permutation_in _ (Permutation_sym P)). apply in_map_iff. exists (j, m). auto. }
    apply in_map_iff in J as (m' & Em & I'). injection Em as E1 E2. exists m'. rewrite E1, E2. auto. }
  assert (forall m0 d', In m0 (queued (net_of T0 ++ net_of (T1 ++ T2)) i (rt i)) -> bm_topic m0 = topic -> answer (bm_data m0) (k_id k) d' -> d' = d) as Uq'.
  { intros m0 d' I0 T0' A0. assert (In (bm_topic m0, bm_data m0) (map (fun m => (bm_topic m, bm_data m)) (queued (net_of T0 ++ net_of (T1 ++ T2)) i (rt i)))) as J by (apply in_map_iff; exists m0; auto).
    apply (Permutation_in _ P), in_map_iff in J as ((j1 & m1) & Em & I1). cbn [snd] in Em. injection Em as E1 E2. rewrite <- E2 in A0. rewrite <- E1 in T0'. eauto. }
  rewrite <- net_of_app, app_assoc in R, I', Uq'. rewrite app_assoc in ND.
  eapply (C97_answered n rt k (ls0 ++ ls1) s1 (T0 ++ T1) ls2 s2 T2); eauto.
Qed.
Print Assumptions C97_answered_tree.

(** ** Answers too late *)

(** In any network: Request is over, and the answer arrives afterwards. Then the bus thread of that process is inside the lambda and stays there; the lambda's only step is one on locals
    that are gone. *)
Theorem C97_late : forall n k ls1 s1 T1 ls2 s2 T2 i r b s topic p d,
  aexec n i k ls1 ainit = Some (s1, T1) -> is_over T1 -> waits i (k_c k) (k_id k) (k_u k) (a_cl s1) ->
  aexec n i k ls2 s1 = Some (s2, T2) ->
  calways (consumes i r b s topic (k_c k)) n (net_labels ls2) (a_cl s1) ->
  (forall d v, ~ In (ANet (CBus i (LRequest (k_c k) (k_id k) d (Some v)))) ls2) ->
  In (i, NEv (EvReceive r b s p)) (net_of T2) -> answer (bm_data (snd p)) (k_id k) d ->
  (exists r' b' d', calling (cl_nodes (a_cl s2) i) r' b' (CallRequest (k_c k) (k_id k) (k_u k) d')) /\
  (a_q s2 = QUndef \/ exists s3, astep n i k (ALocal QTest) s2 = Some (s3, []) /\ a_q s3 = QUndef).
Proof.
  intros n k ls1 s1 T1 ls2 s2 T2 i r b s topic p d X1 Ov W X2 Co NR Ir An.
  destruct (ask_proj _ _ _ _ _ _ _ X1) as (js1 & J1 & _). destruct (ask_proj _ _ _ _ _ _ _ X2) as (js2 & J2 & B2 & _ & AL). rewrite jof_init in J1.
  assert (before k jinit) as Be. { split; [apply reach_init|]. split; [reflexivity|]. intros r0 b0 u0 d0 (x & m & ss & stk & rest & G & _). destruct r0; discriminate G. }
  assert (always (fun st => serving r b s st /\ consumer_on st (k_c k) s) (SyncSpec.bus_labels js2) (cl_nodes (a_cl s1) i)) as Al.
  { apply AL. eapply calways_imp; [|exact Co]. intros c (S1 & S2 & _). auto. }
  assert (forall d v, ~ In (LRequest (k_c k) (k_id k) d (Some v)) (SyncSpec.bus_labels js2)) as NR'.
  { intros d0 v I. unfold SyncSpec.bus_labels in I. apply in_flat_map in I as (jl & I & J). destruct jl as [jl|]; [|contradiction]. destruct J as [->|[]]. destruct (B2 _ I) as [I'|(b0 & m & E0)]; [eapply NR; eauto|discriminate E0]. }
  assert (In (EvReceive r b s p) (bus_of (jtrace i T2))) as Ir' by (rewrite bus_jtrace; apply events_in; exact Ir).
  split.
  - assert (reach (cl_nodes (a_cl s1) i)) as Rc1 by exact (jexec_reach _ _ jinit _ _ reach_init J1).
    pose proof (linked_exec _ _ jinit _ _ reach_init (linked_init k) J1) as L1.
    eapply (late_stuck k js2 (jof i s1) (jof i s2)); eauto.
    + destruct (req_proj _ _ _ _ _ J1) as (qa & Qa & _). destruct (a_q s1) as [q1|] eqn:Eq1.
      * exists q1. cbn [jof j_q] in *. rewrite Eq1 in Qa. split; [exact Eq1|]. split; [apply (q_ok_all _ _ _ Qa), over_jtrace; exact Ov|].
        unfold linked in L1. cbn [jof j_q] in L1. rewrite Eq1 in L1. destruct (q_c q1) eqn:C; auto; destruct L1 as (r0 & b0 & La); exfalso; eapply (proj2 W); exact La.
      * exfalso. destruct js2 as [|l js2]; [cbn [jexec] in J2; assert (jtrace i T2 = []) as Z0 by congruence; rewrite Z0 in Ir'; destruct Ir'|]. cbn [jexec] in J2. unfold jstep in J2. cbn [jof j_q] in J2. rewrite Eq1 in J2. discriminate J2.
    + pose proof (bus_proj _ _ _ _ _ J2) as XB. apply calls_answered. eapply (answered_received (k_c k) s (k_id k) (k_u k) d r b p _ _ _ _ Rc1 XB W); eauto.
      clear - Al. revert Al. generalize (cl_nodes (a_cl s1) i). cbn [jof j_bus]. induction (SyncSpec.bus_labels js2) as [|l ls IH]; intros st Al; simpl in *; [tauto|].
      destruct Al as ((_ & A) & B). split; auto. destruct (step l st) as [[x e1]|]; auto.
  - destruct (C74_called k js1 js2 jinit (jof i s1) (jof i s2) _ _ r b s p d Be J1 (over_jtrace i _ Ov) W J2 Al NR' Ir' An) as [H|((j3 & H & H3) & _)]; [auto|right].
    exists (mkA (a_cl s2) (j_q j3) (j_pub j3)). split; [|exact H3]. cbn [astep]. fold (jof i s2). rewrite H. reflexivity.
Qed.
Print Assumptions C97_late.

(** A server and its clients: when an answer to a Request that is over is published on its process or on a peer, the processes never come to rest again. *)
Theorem C97_late_star : forall k0 name n rt pos k ls0 s0 T0 ls1 s1 T1 ls2 s2 T2 i b s topic j m d,
  a_star k0 name n ->
  aexec n i k ls0 ainit = Some (s0, T0) -> aexec n i k ls1 s0 = Some (s1, T1) -> is_over (T0 ++ T1) -> aexec n i k ls2 s1 = Some (s2, T2) -> own_callbacks n (net_labels (ls0 ++ ls1 ++ ls2)) ->
  distributed (net_of T0) = [] -> calways (attached n rt pos) n (net_labels (ls1 ++ ls2)) (a_cl s0) -> one_root rt (net_of (T0 ++ T1 ++ T2)) ->
  (forall j m, In (j, m) (local (net_of (T0 ++ T1 ++ T2))) -> j <= k0) -> i <= k0 ->
  calways (consumes i (rt i) b s topic (k_c k)) n (net_labels ls2) (a_cl s1) -> waits i (k_c k) (k_id k) (k_u k) (a_cl s1) -> unused (net_labels (ls0 ++ ls1)) (k_id k) ->
  NoDup (map fst (requests (k_c k) (events_of i (net_of (T0 ++ T1 ++ T2))))) ->
  In (j, m) (local (net_of (T0 ++ T1 ++ T2))) -> hears i j -> ~ marked name m -> bm_topic m = topic -> answer (bm_data m) (k_id k) d ->
  ~ at_rest (a_cl s2).
Proof.
  intros k0 name n rt pos k ls0 s0 T0 ls1 s1 T1 ls2 s2 T2 i b s topic j m d St X0 X1 Ov X2 O Q A R L Li C W U ND I Hr Nm Et An E.
  assert (aexec n i k (ls0 ++ ls1) ainit = Some (s1, T0 ++ T1)) as X01 by (apply aexec_app; eauto 10).
  assert (aexec n i k (ls1 ++ ls2) s0 = Some (s2, T1 ++ T2)) as X12 by (apply aexec_app; eauto 10).
  pose proof (net_proj _ _ _ _ _ _ _ X0) as C0. pose proof (net_proj _ _ _ _ _ _ _ X12) as C12. pose proof (net_proj _ _ _ _ _ _ _ X01) as C01. pose proof (net_proj _ _ _ _ _ _ _ X2) as C2.
  rewrite net_labels_app in O. rewrite (net_of_app T0 (T1 ++ T2)) in R, L, I.
  destruct (star_arrives _ _ _ _ _ _ _ _ _ _ _ _ _ _ _ _ _ St C0 C12 O Q A R E L Li I Hr Nm Et An) as (m' & I' & Et' & An').
  rewrite <- net_of_app, app_assoc, net_of_app in R, I'. rewrite app_assoc, net_of_app in ND.
  assert (In (k_id k, k_u k) (answered (k_c k) (events_of i (net_of T2)))) as Aw by (eapply (answer_once n rt _ _ _ _ _ _ C01 C2 R E); eauto; eapply no_second; eauto).
  destruct (ask_proj _ _ _ _ _ _ _ X01) as (js1 & J1 & _). destruct (ask_proj _ _ _ _ _ _ _ X2) as (js2 & J2 & _ & _ & _). rewrite jof_init in J1.
  apply calls_answered in Aw. rewrite <- bus_jtrace in Aw.
  assert (reach (cl_nodes (a_cl s1) i)) as Rc1 by exact (jexec_reach _ _ jinit _ _ reach_init J1).
  pose proof (linked_exec _ _ jinit _ _ reach_init (linked_init k) J1) as L1.
  destruct (late_stuck k js2 (jof i s1) (jof i s2) (jtrace i T2)) as (r0 & b0 & d0 & La); auto.
  - destruct (req_proj _ _ _ _ _ J1) as (qa & Qa & _). destruct (a_q s1) as [q1|] eqn:Eq1.
    + exists q1. cbn [jof j_q] in *. rewrite Eq1 in Qa. split; [exact Eq1|]. split; [apply (q_ok_all _ _ _ Qa), over_jtrace; exact Ov|].
      unfold linked in L1. cbn [jof j_q] in L1. rewrite Eq1 in L1. destruct (q_c q1) eqn:Cq; auto; destruct L1 as (r0 & b0 & La); exfalso; eapply (proj2 W); exact La.
    + exfalso. destruct js2 as [|l js2]; [cbn [jexec] in J2; assert (jtrace i T2 = []) as Z0 by congruence; rewrite Z0 in Aw; apply Aw; reflexivity|]. cbn [jexec] in J2. unfold jstep in J2. cbn [jof j_q] in J2. rewrite Eq1 in J2. discriminate J2.
  - exact (resting_idle _ i _ _ _ E La).
Qed.
Print Assumptions C97_late_star.

(** ** A concrete run: the client of C96_case makes its request with Request. *)

Definition ax_key : skey := mkKey 0 "id1" 9.
Definition ax_set : list alabel := map ANet rx_set.
Definition ax_request : list alabel := map ANet rx_request.
(** The request is published and goes to the server; its provider responds; the response comes back and is being distributed. *)
Definition ax_there (l : list qlabel) : list alabel :=
  map ANet (map (CBus 1) [LFly 0; LFly 0]) ++ map ALocal l ++
  map ANet (rx_go 1 12 ++ rx_ret 1 ++ rx_go 1 6 ++ [CTake 0; CBus 0 (LFly 0)] ++ rx_go 0 7 ++
    map (CBus 0) [LRespond 0 "id1" (Val (DInt 2)); LReturn 0; LFly 1; LFly 1] ++ rx_go 0 5 ++ rx_ret 0 ++ rx_go 0 18 ++ rx_ret 0 ++ rx_go 0 6 ++ [CTake 0; CBus 1 (LFly 1)] ++ rx_go 1 7).
Definition ax_answer : list alabel :=
  ax_there [QCheck; QBlock] ++ map ALocal [QTest; QWrite; QWritten; QClear; QNotify] ++ map ANet (rx_ret 1 ++ rx_go 1 5 ++ rx_ret 1 ++ rx_go 1 6).
Definition ax_return : list alabel := map ALocal [QWake; QCheck; QReturn].

Lemma ax_labels : net_labels ax_set = rx_set /\ net_labels ax_request = rx_request /\ net_labels ax_answer = rx_answer.
Proof. split; [|split]; vm_compute; reflexivity. Qed.

Example C97_case : exists s0 T0 s1 T1 s2 T2 s3 T3,
  a_star 1 "Link0" wx_net /\
  aexec wx_net 1 ax_key ax_set ainit = Some (s0, T0) /\ aexec wx_net 1 ax_key ax_request s0 = Some (s1, T1) /\ aexec wx_net 1 ax_key ax_answer s1 = Some (s2, T2) /\
  own_callbacks wx_net (net_labels (ax_set ++ ax_request ++ ax_answer)) /\ distributed (net_of T0) = [] /\
  calways (attached wx_net (fun _ => 0) (fun _ _ => (2, 1))) wx_net (net_labels (ax_request ++ ax_answer)) (a_cl s0) /\ one_root (fun _ => 0) (net_of (T0 ++ T1 ++ T2)) /\ at_rest (a_cl s2) /\
  local (net_of (T0 ++ T1 ++ T2)) = [(1, rx_m0); (0, rx_m1)] /\
  calways (consumes 1 0 1 0 "act/response" 0) wx_net (net_labels ax_answer) (a_cl s1) /\ waits 1 0 "id1" 9 (a_cl s1) /\ unused (net_labels (ax_set ++ ax_request)) "id1" /\
  NoDup (map fst (requests 0 (events_of 1 (net_of (T0 ++ T1 ++ T2))))) /\ hears 1 0 /\ ~ marked "Link0" rx_m1 /\ answer (bm_data rx_m1) "id1" (Val (DInt 2)) /\
  (forall j' m' d', In (j', m') (local (net_of (T0 ++ T1 ++ T2))) -> bm_topic m' = "act/response" -> answer (bm_data m') "id1" d' -> d' = Val (DInt 2)) /\
  aexec wx_net 1 ax_key ax_return s2 = Some (s3, T3) /\ returned (Val (DInt 2)) T3.
Proof.
  destruct C96_case as (c0 & T0' & c1 & T1' & c & T2' & St & X0 & X1 & X2 & O & Q & A & R & E & L & _ & Co & W & U & Rq & Hr & Nm & An & _).
  destruct ax_labels as (L0 & L1 & L2).
  destruct (aexec wx_net 1 ax_key ax_set ainit) as [[s0 T0]|] eqn:E0; [|exfalso; assert (option_map (fun _ => tt) (aexec wx_net 1 ax_key ax_set ainit) = Some tt) as K by (vm_compute; reflexivity); rewrite E0 in K; discriminate K].
  assert (option_map (fun x => existsb (fun e => match e with AQ (QeReturn (Val (DInt 2))) => true | _ => false end) (snd x)) (aexec wx_net 1 ax_key (ax_set ++ ax_request ++ ax_answer ++ ax_return) ainit) = Some true) as K by (vm_compute; reflexivity).
  assert (option_map (fun x => existsb (fun e => match e with AQ (QeReturn _) => true | _ => false end) (snd x)) (aexec wx_net 1 ax_key (ax_set ++ ax_request ++ ax_answer) ainit) = Some false) as K' by (vm_compute; reflexivity).
  destruct (aexec wx_net 1 ax_key (ax_set ++ ax_request ++ ax_answer ++ ax_return) ainit) as [[s3 T]|] eqn:EA; [|discriminate K].
  apply aexec_app in EA as (s0' & t0 & t123 & EA0 & EA & ->). rewrite E0 in EA0. injection EA0 as <- <-.
  apply aexec_app in EA as (s1 & T1 & t23 & E1 & EA & ->). apply aexec_app in EA as (s2 & T2 & T3 & E2 & E3 & ->).
  exists s0, T0, s1, T1, s2, T2, s3, T3.
  pose proof (net_proj _ _ _ _ _ _ _ E0) as N0. rewrite L0 in N0. change (a_cl ainit) with cl_init in N0. rewrite X0 in N0. injection N0 as -> ->.
  pose proof (net_proj _ _ _ _ _ _ _ E1) as N1. rewrite L1 in N1. rewrite X1 in N1. injection N1 as -> ->.
  pose proof (net_proj _ _ _ _ _ _ _ E2) as N2. rewrite L2 in N2. rewrite X2 in N2. injection N2 as -> ->.
  rewrite !net_labels_app, !net_of_app, L0, L1, L2, L, Rq.
  split; [exact St|]. split; [reflexivity|]. split; [exact E1|]. split; [exact E2|]. split; [exact O|]. split; [exact Q|]. split; [exact A|]. split; [exact R|]. split; [exact E|]. split; [reflexivity|].
  split; [exact Co|]. split; [exact W|]. split; [exact U|]. split; [repeat constructor; intros []|]. split; [exact Hr|]. split; [exact Nm|]. split; [exact An|]. split.
  { intros j' m' d' [I|[I|[]]] Et A'; injection I as <- <-; [discriminate Et|]. destruct A' as (kvs & Qk & _ & [A'|(A' & _)]); injection Qk as <-; cbn in A'; congruence. }
  split; [exact E3|]. cbn [option_map snd] in K. injection K as K. apply existsb_exists in K as (e & I & H).
  repeat match type of H with (match ?x with _ => _ end) = true => destruct x; try discriminate H end. clear H.
  rewrite !in_app_iff in I. destruct I as [I|[I|[I|I]]]; [| | |exact I]; exfalso;
    assert (aexec wx_net 1 ax_key (ax_set ++ ax_request ++ ax_answer) ainit = Some (s2, T0 ++ T1 ++ T2)) as E012 by (apply aexec_app; do 3 eexists; split; [exact E0|]; split; [apply aexec_app; do 3 eexists; split; [exact E1|]; split; [exact E2|reflexivity]|reflexivity]);
    rewrite E012 in K'; cbn [option_map snd] in K'; injection K' as K'; (assert (existsb (fun e => match e with AQ (QeReturn _) => true | _ => false end) (T0 ++ T1 ++ T2) = true) as Y by (apply existsb_exists; eexists; split; [rewrite !in_app_iff; eauto|reflexivity]); congruence).
Qed.

(** The same, but Request times out before the answer arrives. *)
Definition ax_timeout : list alabel := ax_set ++ ax_request ++ map ANet (map (CBus 1) [LFly 0; LFly 0]) ++ map ALocal [QCheck; QBlock; QTimeout; QFinal; QReturn].
Definition ax_late : list alabel := skipn 2 (ax_there []).
Definition ax_receive (x : nat * nevent) : list bmsg := match x with (1, NEv (EvReceive 0 1 0 p)) => [snd p] | _ => [] end.

Example C97_late_case : exists s1 T1 s2 T2 p,
  aexec wx_net 1 ax_key ax_timeout ainit = Some (s1, T1) /\ returned Emp T1 /\ waits 1 0 "id1" 9 (a_cl s1) /\
  aexec wx_net 1 ax_key ax_late s1 = Some (s2, T2) /\
  calways (consumes 1 0 1 0 "act/response" 0) wx_net (net_labels ax_late) (a_cl s1) /\
  (forall d v, ~ In (ANet (CBus 1 (LRequest 0 "id1" d (Some v)))) ax_late) /\
  In (1, NEv (EvReceive 0 1 0 p)) (net_of T2) /\ answer (bm_data (snd p)) "id1" (Val (DInt 2)) /\
  a_q s2 <> QUndef /\ exists s3, astep wx_net 1 ax_key (ALocal QTest) s2 = Some (s3, []) /\ a_q s3 = QUndef.
Proof.
  assert (option_map (fun x => (existsb (fun e => match e with AQ (QeReturn Emp) => true | _ => false end) (snd x),
      match nth_error (s_conss (cl_nodes (a_cl (fst x)) 1)) 0 with Some y => olookup "id1" (co_open y) | None => None end,
      forallb (fun b => match b_runner b with RDist _ _ _ _ => false | _ => true end) (s_buses (cl_nodes (a_cl (fst x)) 1)),
      calwaysb (fun c => rx_okb rx_cons (cl_nodes c 1)) wx_net (net_labels ax_late) (a_cl (fst x))))
    (aexec wx_net 1 ax_key ax_timeout ainit) = Some (true, Some 9, true, true)) as K1 by (vm_compute; reflexivity).
  assert (option_map (fun x => (flat_map ax_receive (net_of (snd x)), a_q (fst x))) (aexec wx_net 1 ax_key (ax_timeout ++ ax_late) ainit) =
    Some ([mkM ("Link0" ++ "/" ++ "Act0") "act/response" (response_of "id1" (Val (DInt 2)))], QLive (mkQ WLeft (CTest (Val (DInt 2))) true true Emp))) as K2 by (vm_compute; reflexivity).
  destruct (aexec wx_net 1 ax_key (ax_timeout ++ ax_late) ainit) as [[s2 T]|] eqn:E; [|discriminate K2]. apply aexec_app in E as (s1 & T1 & T2 & E1 & E2 & ->).
  rewrite E1 in K1. cbn [option_map fst snd] in K1, K2. injection K1 as Ka Kb Kc Kd. injection K2 as Ke Kf.
  assert (flat_map ax_receive (net_of T1) = []) as Kg.
  { assert (option_map (fun x => flat_map ax_receive (net_of (snd x))) (aexec wx_net 1 ax_key ax_timeout ainit) = Some []) as K by (vm_compute; reflexivity). rewrite E1 in K. now injection K. }
  rewrite net_of_app, flat_map_app, Kg in Ke. cbn [List.app] in Ke.
  assert (exists p, In (1, NEv (EvReceive 0 1 0 p)) (net_of T2) /\ snd p = mkM ("Link0" ++ "/" ++ "Act0") "act/response" (response_of "id1" (Val (DInt 2)))) as (p & Ip & Ep).
  { match type of Ke with _ = [?m] => assert (In m (flat_map ax_receive (net_of T2))) as I by (rewrite Ke; now left) end. apply in_flat_map in I as ((i & e) & I & J).
    unfold ax_receive in J. repeat match type of J with In _ (match ?x with _ => _ end) => destruct x; try contradiction end. destruct J as [J|[]]. eexists. split; [exact I|exact J]. }
  exists s1, T1, s2, T2, p. split; [exact E1|]. split.
  { apply existsb_exists in Ka as (e & I & H). repeat match type of H with (match ?x with _ => _ end) = true => destruct x; try discriminate H end. exact I. }
  split. { split.
    - unfold open_request. destruct (s_conss (cl_nodes (a_cl s1) 1)) as [|y q]; [discriminate Kb|exists y; auto].
    - rewrite forallb_forall in Kc. intros r b v d (x & m & ss & stk & rest & G & Rn). apply nth_error_In in G. specialize (Kc _ G). cbn in Kc. rewrite Rn in Kc. discriminate Kc. }
  split; [exact E2|]. split.
  { eapply (calwaysb_ok (fun c => rx_okb rx_cons (cl_nodes c 1))); [|exact Kd]. intros cc H. apply rx_okb_ok in H as (_ & Sv & H). unfold rx_cons in H.
    destruct (nth_error (s_subs (cl_nodes cc 1)) 0) as [[t [[|[|]| |q]|]]|] eqn:N0; try discriminate H. destruct (nth_error (s_conss (cl_nodes cc 1)) 0) as [y|] eqn:Ny; [|discriminate H].
    apply andb_true_iff in H as (H & Hs). apply andb_true_iff in H as (Ht & Hq). apply String.eqb_eq in Ht. apply Nat.eqb_eq in Hq. apply Nat.eqb_eq in Hs. subst.
    split; [exact Sv|]. split; [exists y; eexists; eauto|]. eexists. split; [exact N0|reflexivity]. }
  split. { intros d v I. assert (forallb (fun l => match l with ANet (CBus 1 (LRequest _ _ _ _)) => false | _ => true end) ax_late = true) as K by (vm_compute; reflexivity). rewrite forallb_forall in K. specialize (K _ I). discriminate K. }
  split; [exact Ip|]. split; [rewrite Ep; eexists; split; [reflexivity|split; [reflexivity|left; reflexivity]]|]. split; [rewrite Kf; discriminate|].
  eexists. cbn [astep]. unfold jstep. cbn [j_q j_bus]. rewrite Kf. cbn. split; reflexivity.
Qed.

(** The server of a star: a subscriber of "go" makes a Request from within its callback. *)
Definition ax_go (k : nat) : list alabel :=
  map ANet (map (CBus 0) ([LNewRoot "root"; LChild 0 "Act0"; LConsumer 1 "act"; LInstallConsumer 0; LSub 1 "go" (Some (Some 8)); LPub 1 "go"; LStart 0; LPublish 1 Emp; LFly 0; LFly 0] ++ repeat (LRun 0) k)).
Definition ax_inside : list alabel := map ANet (map (CBus 0) [LRequest 0 "id1" Emp (Some 9); LFly 1; LFly 1]) ++ map ALocal [QCheck; QBlock; QTimeout; QFinal; QReturn].
Definition ax_found (st : state) : bool :=
  match s_buses st, s_conss st with
  | [x; y], [c] => match b_runner x, b_runner y with RDist _ (FSubs 1 [] :: _) (Some (CallData 8 Emp)) _, RIdle => true | _, _ => false end &&
      existsb (Nat.eqb 1) (map snd (b_kids x)) && existsb (Nat.eqb (co_sub c)) (b_subs y)
  | _, _ => false
  end.

Example C97_inside_case : exists s0 T0 s tr,
  aexec wx_net 0 ax_key (ax_go 8) ainit = Some (s0, T0) /\ a_q s0 = qinit /\
  (forall r b u d, ~ calling (cl_nodes (a_cl s0) 0) r b (CallRequest 0 "id1" u d)) /\
  calling (cl_nodes (a_cl s0) 0) 0 1 (CallData 8 Emp) /\ consumer_under (cl_nodes (a_cl s0) 0) 0 0 /\
  aexec wx_net 0 ax_key ax_inside s0 = Some (s, tr) /\ inside 0 0 ax_inside /\ returned Emp tr /\
  In ("id1", 9) (requests 0 (events_of 0 (net_of tr))).
Proof.
  assert (option_map (fun x => (a_q (fst x), ax_found (cl_nodes (a_cl (fst x)) 0), snd x)) (aexec wx_net 0 ax_key (ax_go 8) ainit) =
          option_map (fun x => (qinit, true, snd x)) (aexec wx_net 0 ax_key (ax_go 8) ainit)) as K1 by (vm_compute; reflexivity).
  assert (option_map (fun x => (existsb (fun e => match e with AQ (QeReturn Emp) => true | _ => false end) (snd x), requests 0 (events_of 0 (net_of (snd x))))) (aexec wx_net 0 ax_key (ax_go 8 ++ ax_inside) ainit) =
          Some (true, [("id1", 9)])) as K2 by (vm_compute; reflexivity).
  destruct (aexec wx_net 0 ax_key (ax_go 8 ++ ax_inside) ainit) as [[s T]|] eqn:E; [|discriminate K2]. apply aexec_app in E as (s0 & T0 & tr & E1 & E2 & ->).
  assert (option_map (fun x => (existsb (fun e => match e with AQ (QeReturn Emp) => true | _ => false end) (snd x), requests 0 (events_of 0 (net_of (snd x))))) (aexec wx_net 0 ax_key (ax_go 8) ainit) = Some (false, [])) as K3 by (vm_compute; reflexivity).
  rewrite E1 in K1, K3. cbn [option_map fst snd] in K1, K2, K3. injection K1 as Ka Kb. injection K2 as Kc Kd. injection K3 as Ke Kf.
  rewrite existsb_app, Ke in Kc. cbn [orb] in Kc. rewrite net_of_app, events_app, requests_app, Kf in Kd. cbn [List.app] in Kd.
  exists s0, T0, s, tr. split; [exact E1|]. split; [exact Ka|].
  unfold ax_found in Kb. destruct (s_buses (cl_nodes (a_cl s0) 0)) as [|x [|y [|]]] eqn:Eb; try discriminate Kb. destruct (s_conss (cl_nodes (a_cl s0) 0)) as [|c [|]] eqn:Ec; try discriminate Kb.
  apply andb_true_iff in Kb as (Kb & K5). apply andb_true_iff in Kb as (Kb & K4).
  apply existsb_exists in K4 as (k4 & I4 & Q4). apply Nat.eqb_eq in Q4. subst k4. apply existsb_exists in K5 as (k5 & I5 & Q5). apply Nat.eqb_eq in Q5. subst k5.
  destruct (b_runner x) as [| | | |m stk cl rest] eqn:Rx; try discriminate Kb.
  destruct stk as [|f stk]; [discriminate Kb|]. destruct f as [b ss|b|b ks] eqn:Ef; try discriminate Kb. subst f. destruct b as [|[|]]; try discriminate Kb. destruct ss; try discriminate Kb.
  destruct cl as [[u d| | |]|]; try discriminate Kb. repeat match type of Kb with (match ?z with _ => _ end) = true => let Q := fresh "Q" in destruct z eqn:Q; try discriminate Kb end. subst.
  assert (get_bus (cl_nodes (a_cl s0) 0) 0 = Some x /\ get_bus (cl_nodes (a_cl s0) 0) 1 = Some y) as (G0 & G1) by (unfold get_bus; rewrite Eb; auto).
  split. { intros r b u d (z & m' & ss & stk' & rest' & G & R'). unfold get_bus in G. rewrite Eb in G. destruct r as [|[|[|]]]; try discriminate G; injection G as <-; congruence. }
  split. { exists x, m, [], stk, rest. auto. }
  split. { exists c, 1, y. rewrite Ec. split; [reflexivity|]. split; [exact G1|]. split; [exact I5|]. apply below_kid with 0; [constructor|]. exists x. auto. }
  split; [exact E2|]. split. { split; [|intros e]; intros I; cbn in I; repeat (destruct I as [I|I]; [discriminate I|]); destruct I. }
  split. { apply existsb_exists in Kc as (e & I & H). repeat match type of H with (match ?x with _ => _ end) = true => destruct x; try discriminate H end. exact I. }
  rewrite Kd. now left.
Qed.

(** Lemmas for C97: an execution of AskModel is one of the processes (ClusterModel) and one of Request on the bus (SyncModel). *)
From Coq Require Import String List Arith Bool Lia.
From Verif Require Import Prelude OMap DatagramModel DatagramSpec BusModel BusSpec BusProofs BusTree BusLocks BusLocks2 BusLocks3 BusDist BusAccount BusOnce LinkModel NodeModel NetModel NodeProps ActionSpec ActionProofs ActionProps ClusterModel ClusterSpec ClusterProofs RemoteSpec RemoteProofs.
From Verif Require Import RequestModel RequestProps SyncModel SyncSpec SyncProofs SyncProps AskModel AskSpec.
Import ListNotations.
Open Scope list_scope.

Definition jof (i : nat) (s : astate) : jstate := mkJ (cl_nodes (a_cl s) i) (a_q s) (a_pub s).
Definition jev (i : nat) (e : aevent) : list jevent :=
  match e with AN (j, NEv e) => if Nat.eqb j i then [JB e] else [] | AN _ => [] | AQ e => [JQ e] end.
Definition jtrace (i : nat) (tr : list aevent) : list jevent := flat_map (jev i) tr.

Lemma jtrace_app i a b : jtrace i (a ++ b) = jtrace i a ++ jtrace i b.
Proof. apply flat_map_app. Qed.
Lemma net_of_app a b : net_of (a ++ b) = net_of a ++ net_of b.
Proof. apply flat_map_app. Qed.
Lemma net_labels_app a b : net_labels (a ++ b) = net_labels a ++ net_labels b.
Proof. apply flat_map_app. Qed.
Lemma net_of_AN T : net_of (map AN T) = T.
Proof. induction T; cbn; [reflexivity|]. f_equal. assumption. Qed.
Lemma net_of_asked es : net_of (asked es) = [].
Proof. induction es as [|[]]; cbn; auto. Qed.
Lemma jtrace_asked i es : jtrace i (asked es) = flat_map (fun e => match e with JQ e => [JQ e] | JB _ => [] end) es.
Proof. induction es as [|[]]; cbn; auto. f_equal. assumption. Qed.
Lemma no_bus evs : flat_map (fun e => match e with JQ e => [JQ e] | JB _ => [] end) (map JB evs) = [].
Proof. induction evs; cbn; auto. Qed.
Lemma all_asked qe : flat_map (fun e => match e with JQ e => [JQ e] | JB _ => [] end) (map JQ qe) = map JQ qe.
Proof. induction qe; cbn; auto. f_equal. assumption. Qed.
Lemma jtrace_here i evs : jtrace i (map AN (map (pair i) evs)) = map JB (bus_events evs).
Proof. induction evs as [|[] evs IH]; cbn; rewrite ?Nat.eqb_refl; cbn; auto. f_equal. exact IH. Qed.
Lemma jtrace_there i j evs : j <> i -> jtrace i (map AN (map (pair j) evs)) = [].
Proof. intros N. induction evs as [|[] evs IH]; cbn; auto. rewrite (proj2 (Nat.eqb_neq j i) N). exact IH. Qed.
Lemma bus_jtrace i tr : bus_of (jtrace i tr) = events_of i (net_of tr).
Proof.
  induction tr as [|e tr IH]; [reflexivity|]. change (e :: tr) with ([e] ++ tr). rewrite jtrace_app, bus_of_app, net_of_app, events_app, IH. f_equal.
  destruct e as [(j & [e| |])|e]; try reflexivity. unfold jtrace. cbn. destruct (Nat.eqb j i); reflexivity.
Qed.
Lemma returned_jtrace i v tr : returned v tr -> In (JQ (QeReturn v)) (jtrace i tr).
Proof. intros I. apply in_flat_map. eexists. split; [exact I|]. now left. Qed.

Lemma aexec_app n i k l1 : forall l2 s s' tr, aexec n i k (l1 ++ l2) s = Some (s', tr) <-> exists s1 t1 t2, aexec n i k l1 s = Some (s1, t1) /\ aexec n i k l2 s1 = Some (s', t2) /\ tr = t1 ++ t2.
Proof.
  induction l1 as [|l l1 IH]; intros l2 s s' tr; cbn [List.app aexec].
  - split; [intros H; exists s, [], tr; auto|]. intros (s1 & t1 & t2 & H1 & H & ->). injection H1 as <- <-. exact H.
  - destruct (astep n i k l s) as [[s1 e1]|].
    + split.
      * destruct (aexec n i k (l1 ++ l2) s1) as [[s2 e2]|] eqn:E; [|discriminate]. intros H. injection H as <- <-. apply IH in E as (s3 & t1 & t2 & E1 & E2 & ->).
        rewrite E1. exists s3, (e1 ++ t1), t2. split; [reflexivity|]. split; [exact E2|]. now rewrite app_assoc.
      * intros (s3 & t1 & t2 & H1 & H2 & ->). destruct (aexec n i k l1 s1) as [[s4 e4]|] eqn:E; [|discriminate H1]. injection H1 as <- <-.
        assert (aexec n i k (l1 ++ l2) s1 = Some (s', e4 ++ t2)) as -> by (apply IH; eauto 10). now rewrite app_assoc.
    + split; [discriminate|]. intros (s1 & t1 & t2 & H & _). discriminate H.
Qed.

Lemma net_step n i k l s s' es : astep n i k l s = Some (s', es) ->
  match l with ANet l => cstep n l (a_cl s) = Some (a_cl s', net_of es) | ALocal _ => a_cl s' = a_cl s /\ net_of es = [] end.
Proof.
  destruct l as [l|l]; cbn [astep].
  - destruct (cstep n l (a_cl s)) as [[c T]|]; [|discriminate]. destruct (on_bus n l (a_cl s)) as [[i' x]|]; [|discriminate]. destruct (Nat.eqb i' i).
    + destruct (jstep _ _ _) as [[j' e]|]; [|discriminate]. intros H. injection H as <- <-. cbn [a_cl]. now rewrite net_of_app, net_of_AN, net_of_asked, app_nil_r.
    + intros H. injection H as <- <-. cbn [a_cl]. now rewrite net_of_AN.
  - destruct (jstep _ _ _) as [[j' e]|]; [|discriminate]. intros H. injection H as <- <-. cbn [a_cl]. now rewrite net_of_asked.
Qed.
Lemma net_proj n i k ls : forall s s' tr, aexec n i k ls s = Some (s', tr) -> cexec n (net_labels ls) (a_cl s) = Some (a_cl s', net_of tr).
Proof.
  induction ls as [|l ls IH]; intros s s' tr H; cbn [aexec] in H; [injection H as <- <-; reflexivity|].
  destruct (astep n i k l s) as [[s1 e1]|] eqn:S; [|discriminate H]. destruct (aexec n i k ls s1) as [[s2 e2]|] eqn:E; [|discriminate H]. injection H as <- <-.
  apply IH in E. rewrite net_of_app. apply net_step in S. destruct l as [l|l].
  - change (net_labels (ANet l :: ls)) with (l :: net_labels ls). cbn [cexec]. now rewrite S, E.
  - destruct S as (<- & ->). exact E.
Qed.

Lemma bus_observe ks evs : bus_events (observe ks evs) = evs.
Proof.
  induction evs as [|e evs IH]; [reflexivity|]. unfold observe. cbn [flat_map]. fold (observe ks evs). change ((NEv e :: transmit ks e) ++ observe ks evs) with ([NEv e] ++ (transmit ks e ++ observe ks evs)).
  rewrite !bus_events_app, IH. cbn [bus_events flat_map List.app]. f_equal.
  replace (bus_events (transmit ks e)) with (@nil event); [reflexivity|]. symmetry. unfold transmit. destruct e; try reflexivity. destruct c; try reflexivity.
  induction (indexed ks) as [|x l IHl]; [reflexivity|]. cbn [flat_map]. rewrite bus_events_app, IHl, app_nil_r. destruct (Nat.eqb _ _); [|reflexivity].
  induction (on_message _ _) as [|a l0 IH0]; [reflexivity|exact IH0].
Qed.

(** A step of the processes that happens on [i]: what the bus there does. *)
Lemma on_bus_step n l c c' T i x : cstep n l c = Some (c', T) -> on_bus n l c = Some (i, x) ->
  (exists evs, step x (cl_nodes c i) = Some (cl_nodes c' i, evs) /\ jtrace i (map AN T) = map JB evs) /\
  (forall j, j <> i -> cl_nodes c' j = cl_nodes c j /\ jtrace j (map AN T) = []) /\ (l = CBus i x \/ exists b m, x = LPublishMsg b m).
Proof.
  intros C O. destruct l as [i0 x0|p]; cbn [cstep on_bus] in *.
  - injection O as -> ->. cbn [nstep] in C. destruct (step x (cl_nodes c i)) as [[st evs]|] eqn:S; [|discriminate C]. injection C as <- <-. cbn [cl_nodes]. split; [|split; [|auto]].
    + exists evs. split; [unfold put_node; now rewrite Nat.eqb_refl|]. now rewrite jtrace_here, bus_observe.
    + intros j N. split; [unfold put_node; now rewrite (proj2 (Nat.eqb_neq j i) N)|]. apply jtrace_there. auto.
  - destruct (take p (cl_wire c)) as [[[[[i0 k] r] m] rest]|]; [|discriminate C]. destruct (nth_error (nt_links n i0) k) as [lk|] eqn:Nk; [|discriminate O]. injection O as -> <-.
    cbn [nstep] in C. rewrite Nk in C. destruct (lk_socket lk (sub_socket r)); [|discriminate C]. destruct (step _ (cl_nodes c i)) as [[st evs]|] eqn:S; [|discriminate C]. injection C as <- <-. cbn [cl_nodes]. split; [|split; [|eauto]].
    + exists evs. split; [unfold put_node; now rewrite Nat.eqb_refl|]. match goal with |- jtrace i (map AN (?a :: ?l)) = _ => change (jtrace i (map AN l) = map JB evs) end. now rewrite jtrace_here, bus_observe.
    + intros j N. split; [unfold put_node; now rewrite (proj2 (Nat.eqb_neq j i) N)|]. match goal with |- jtrace j (map AN (?a :: ?l)) = _ => change (jtrace j (map AN l) = []) end. apply jtrace_there. auto.
Qed.

Lemma ask_proj n i k ls : forall s s' tr, aexec n i k ls s = Some (s', tr) ->
  exists js, jexec k js (jof i s) = Some (jof i s', jtrace i tr) /\
    (forall l, In (JBus l) js -> In (ANet (CBus i l)) ls \/ exists b m, l = LPublishMsg b m) /\
    (forall l, In (JLocal l) js -> In (ALocal l) ls) /\
    (forall P : state -> Prop, calways (fun c => P (cl_nodes c i)) n (net_labels ls) (a_cl s) -> always P (bus_labels js) (cl_nodes (a_cl s) i)).
Proof.
  induction ls as [|l ls IH]; intros s s' tr H; cbn [aexec] in H.
  { injection H as <- <-. exists []. repeat split; auto; try contradiction. apply H. }
  destruct (astep n i k l s) as [[s1 e1]|] eqn:S; [|discriminate H]. destruct (aexec n i k ls s1) as [[s2 e2]|] eqn:E; [|discriminate H]. injection H as <- <-.
  destruct (IH _ _ _ E) as (js & XJ & B & L & A). clear IH E. rewrite jtrace_app.
  destruct l as [l|l]; cbn [astep] in S.
  - destruct (cstep n l (a_cl s)) as [[c T]|] eqn:C; [|discriminate S]. destruct (on_bus n l (a_cl s)) as [[i' x]|] eqn:O; [|discriminate S].
    destruct (on_bus_step _ _ _ _ _ _ _ C O) as ((evs & St & Ej) & Oth & Lb). destruct (Nat.eqb_spec i' i) as [->|N].
    + fold (jof i s) in S. destruct (jstep k (JBus x) (jof i s)) as [[j' es]|] eqn:J; [|discriminate S]. injection S as <- <-.
      assert (j' = jof i (mkA c (j_q j') (j_pub j')) /\ es = jtrace i (map AN T ++ asked es)) as (E1 & E2).
      { destruct (jstep_inv _ _ _ _ _ J) as (_ & [(l0 & evs' & qe & El & _ & St' & _ & _ & ->)|(l0 & qe & El & _)]); [|discriminate El]. injection El as <-.
        cbn [jof j_bus] in St'. rewrite St in St'. injection St' as Eb <-. split; [destruct j'; cbn in *; subst; reflexivity|].
        rewrite jtrace_app, Ej, jtrace_asked, flat_map_app, no_bus, all_asked. reflexivity. }
      exists (JBus x :: js). split; [|split; [|split]].
      * cbn [jexec]. rewrite J. rewrite <- E1 in XJ. rewrite XJ. rewrite <- E2. reflexivity.
      * intros l0 [I|I]; [injection I as <-; destruct Lb as [->|Lb]; auto; left; now left|]. destruct (B _ I) as [I'|I']; auto. left. now right.
      * intros l0 [I|I]; [discriminate I|right; auto].
      * intros P W. change (net_labels (ANet l :: ls)) with (l :: net_labels ls) in W. cbn [calways] in W. rewrite C in W. destruct W as (W0 & W). cbn [bus_labels flat_map List.app always]. split; [exact W0|].
        rewrite St. apply A. exact W.
    + injection S as <- <-. destruct (Oth i (not_eq_sym N)) as (En & Et). exists js. rewrite Et. cbn [List.app].
      assert (jof i (mkA c (a_q s) (a_pub s)) = jof i s) as Ej' by (unfold jof; cbn; now rewrite En). rewrite Ej' in XJ. split; [exact XJ|]. split; [|split].
      * intros l0 I. destruct (B _ I) as [I'|I']; auto. left. now right.
      * intros l0 I. right. auto.
      * intros P W. change (net_labels (ANet l :: ls)) with (l :: net_labels ls) in W. cbn [calways] in W. rewrite C in W. destruct W as (W0 & W). specialize (A P W). cbn [a_cl] in A. now rewrite En in A.
  - fold (jof i s) in S. destruct (jstep k (JLocal l) (jof i s)) as [[j' es]|] eqn:J; [|discriminate S]. injection S as <- <-.
    assert (j' = jof i (mkA (a_cl s) (j_q j') (j_pub j')) /\ es = jtrace i (asked es)) as (E1 & E2).
    { destruct (jstep_inv _ _ _ _ _ J) as (_ & [(l0 & evs' & qe & El & _)|(l0 & qe & El & _ & _ & Eb & Ep & ->)]); [discriminate El|]. split; [destruct j'; cbn in *; subst; reflexivity|].
      now rewrite jtrace_asked, all_asked. }
    exists (JLocal l :: js). split; [|split; [|split]].
    + cbn [jexec]. rewrite J. rewrite <- E1 in XJ. rewrite XJ. rewrite <- E2. reflexivity.
    + intros l0 [I|I]; [discriminate I|]. destruct (B _ I) as [I'|I']; auto. left. now right.
    + intros l0 [I|I]; [injection I as <-; now left|right; auto].
    + intros P W. apply (A P). exact W.
Qed.

(** Nothing that Request does on the bus is undefined: only the lambda and the final read are. *)
Lemma sync_defined ls : (forall l, In l ls -> own_step l = false) -> forall q m es, qexec ls (QLive q) = Some (m, es) -> m <> QUndef.
Proof.
  induction ls as [|l ls IH]; intros F q m es H; cbn [qexec] in H; [injection H as <- <-; discriminate|].
  destruct (qstep l (QLive q)) as [[m1 e1]|] eqn:S; [|discriminate H]. destruct (qexec ls m1) as [[m2 e2]|] eqn:E; [|discriminate H]. injection H as <- <-.
  assert (exists q1, m1 = QLive q1) as (q1 & ->).
  { pose proof (F l (or_introl eq_refl)) as O. destruct q as [w c rg wt rs]. destruct l; try discriminate O; cbn [qstep] in S; unfold qstep1 in S; cbn in S; destruct w, c; try discriminate S; try (destruct rg; try discriminate S); injection S as <- _; unfold w_set, c_set; eauto. }
  eapply IH; eauto. intros l0 I. apply F. now right.
Qed.
Lemma sync_foreign k st l i evs : forall x, In x (sync_label k st l ++ flat_map (sync_event k i) evs) -> own_step x = false.
Proof.
  intros x I. apply in_app_iff in I as [I|I].
  - destruct l; try contradiction. cbn in I. destruct (in_lambda k st r); destruct I as [<-|[]] || contradiction; reflexivity.
  - apply in_flat_map in I as (e & _ & I). destruct e; cbn in I; try contradiction;
      repeat match type of I with In _ (match ?c with _ => _ end) => destruct c end; try contradiction; destruct I as [<-|[]]; reflexivity.
Qed.

(** Once Request is over and its request still open, a call of the lambda never ends. *)
Lemma late_stuck k js j1 j2 t2 : reach (j_bus j1) -> linked k j1 -> (exists q, j_q j1 = QLive q /\ q_w q = WLeft /\ q_c q = CIdle) ->
  jexec k js j1 = Some (j2, t2) -> calls k (bus_of t2) <> [] -> exists r b d, lambda_at k (j_bus j2) r b d.
Proof.
  intros Rc L (q1 & Eq1 & W1 & C1) X Ne.
  destruct (j_q j2) as [q2|] eqn:Eq2.
  - destruct (req_proj _ _ _ _ _ X) as (qb & Qb & _ & En). rewrite Eq1, Eq2 in Qb. destruct (over_stuck _ _ _ _ W1 (or_introl C1) Qb) as (_ & [(_ & _ & E0)|(d3 & C3)]); [rewrite E0 in En; congruence|].
    pose proof (linked_exec _ _ _ _ _ Rc L X) as L2. unfold linked in L2. rewrite Eq2, C3 in L2. destruct L2 as (r & b & La). eauto.
  - destruct js as [|l js _] using rev_ind; [cbn in X; injection X as <- _; congruence|].
    apply jexec_app in X as (j3 & t3 & t4 & X3 & X4 & ->). cbn [jexec] in X4. destruct (jstep k l j3) as [[j4 t5]|] eqn:S; [|discriminate X4]. injection X4 as <- <-.
    pose proof (linked_exec _ _ _ _ _ Rc L X3) as L3. destruct (req_proj _ _ _ _ _ X3) as (qb & Qb & _). rewrite Eq1 in Qb.
    destruct (jstep_inv _ _ _ _ _ S) as ((q3 & Eq3) & [(l0 & evs & qe & -> & _ & _ & _ & Q & _)|(l0 & qe & -> & O & Q & Eb & _)]).
    + rewrite Eq3, Eq2 in Q. exfalso. eapply sync_defined; [|exact Q|reflexivity]. apply sync_foreign.
    + rewrite Eq3 in Qb. destruct (over_stuck _ _ _ _ W1 (or_introl C1) Qb) as (W3 & [(C3 & _)|(d3 & C3)]).
      * exfalso. rewrite Eq3 in Q. destruct q3 as [w c rg wt rs]. cbn in W3, C3. subst w c. destruct l0; cbn in Q; unfold qstep1 in Q; cbn in Q; discriminate Q || discriminate O.
      * unfold linked in L3. rewrite Eq3, C3 in L3. cbn in L3. destruct L3 as (r & b & La). rewrite Eb. eauto.
Qed.

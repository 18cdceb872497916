(** Proofs for C94: the callbacks of subscribers of several processes. *)
From Coq Require Import String List Arith ZArith Bool Lia Permutation.
From Verif Require Import Prelude NetProps OMap DatagramModel DatagramSpec BusModel BusSpec BusProofs BusTree BusLocks2 BusLocks3 BusDist BusAccount BusOnce BusDeliver BusDeliveryProps LinkModel NodeModel NetModel NodeProps ActionProofs ClusterModel ClusterSpec ClusterProofs WideSpec.
Import ListNotations.
Open Scope list_scope.

(** ** One bus *)

Definition entered (s : nat) (tr : list event) : list call :=
  flat_map (fun e => match e with EvInvoke _ s' _ c => if Nat.eqb s' s then [c] else [] | _ => [] end) tr.
Definition got (s : nat) (tr : list event) : list pubn :=
  flat_map (fun e => match e with EvReceive _ _ s' p => if Nat.eqb s' s then [p] else [] | _ => [] end) tr.
Lemma entered_app s a b : entered s (a ++ b) = entered s a ++ entered s b.
Proof. apply flat_map_app. Qed.
Lemma got_app s a b : got s (a ++ b) = got s a ++ got s b.
Proof. apply flat_map_app. Qed.

Lemma in_got s p tr : In p (got s tr) <-> exists r b, In (EvReceive r b s p) tr.
Proof.
  unfold got. rewrite in_flat_map. split.
  - intros (e & I & J). destruct e; try contradiction. destruct (Nat.eqb_spec s0 s) as [->|]; [|contradiction]. destruct J as [<-|[]]. eauto.
  - intros (r & b & I). exists (EvReceive r b s p). split; auto. rewrite Nat.eqb_refl. now left.
Qed.
Lemma in_entered s c tr : In c (entered s tr) <-> exists r p, In (EvInvoke r s p c) tr.
Proof.
  unfold entered. rewrite in_flat_map. split.
  - intros (e & I & J). destruct e; try contradiction. destruct (Nat.eqb_spec s0 s) as [->|]; [|contradiction]. destruct J as [<-|[]]. eauto.
  - intros (r & p & I). exists (EvInvoke r s p c). split; auto. rewrite Nat.eqb_refl. now left.
Qed.

Lemma entered_step l st st' evs s topic cb arg :
  (forall m, receive st s m = InvCall (arg m)) -> nth_error (s_subs st) s = Some (mkSub topic (Some cb)) ->
  step l st = Some (st', evs) -> entered s evs = map (fun p => arg (snd p)) (got s evs).
Proof.
  intros Ar Ns H. destruct (got s evs) as [|p q] eqn:Q.
  - apply all_empty. intros c I. apply in_entered in I as (r & p & I). destruct (invoke_inv _ _ _ _ _ _ _ _ H I) as (x & b & ss & stk & rest & y & x' & _ & _ & _ & _ & _ & _ & E & _).
    subst evs. cbn in Q. rewrite Nat.eqb_refl in Q. discriminate Q.
  - assert (In p (got s evs)) as I by (rewrite Q; now left). apply in_got in I as (r & b & I). rewrite <- Q. clear Q q.
    destruct (receive_inv _ _ _ _ _ _ _ _ H I) as (x & ss & stk & rest & y & -> & G & R & N & A & _).
    cbn [step] in H. unfold run_step in H. rewrite G, R, N in H. apply ant_accepts in A. rewrite A, Ar in H. injection H as _ <-.
    cbn. rewrite Nat.eqb_refl. reflexivity.
Qed.

Lemma entered_exec ls : forall st st' tr s topic cb arg,
  (forall st m, nth_error (s_subs st) s = Some (mkSub topic (Some cb)) -> receive st s m = InvCall (arg m)) ->
  always (fun x => nth_error (s_subs x) s = Some (mkSub topic (Some cb))) ls st -> exec ls st = Some (st', tr) ->
  entered s tr = map (fun p => arg (snd p)) (got s tr).
Proof.
  induction ls as [|l ls IH]; intros st st' tr s topic cb arg Ar A X; cbn [exec] in X; [injection X as <- <-; reflexivity|].
  cbn [always] in A. destruct A as (A0 & A). destruct (step l st) as [[s1 e1]|] eqn:H; [|discriminate X]. destruct (exec ls s1) as [[s2 e2]|] eqn:E; [|discriminate X]. injection X as <- <-.
  rewrite entered_app, got_app, map_app. rewrite (entered_step _ _ _ _ _ _ _ arg (fun m => Ar _ m A0) A0 H), (IH _ _ _ _ _ _ _ Ar A E). reflexivity.
Qed.

(** Who receives has begun. *)
Lemma receive_begun ls st tr r b s p : exec ls init = Some (st, tr) -> In (EvReceive r b s p) tr -> In p (begun r tr).
Proof.
  revert ls st tr. apply (exec_trace_ind init (fun st _ tr => In (EvReceive r b s p) tr -> In p (begun r tr))).
  - intros [].
  - intros ls l st st' tr evs X IH H I. rewrite begun_app. apply in_app_iff. left. apply in_app_iff in I as [I|I]; [now apply IH|].
    destruct (receive_inv _ _ _ _ _ _ _ _ H I) as (x & ss & stk & rest & y & _ & G & R & _).
    pose proof (started_all r _ _ _ X) as A. unfold started in A. rewrite G in A. destruct A as (_ & _ & A & _). apply A. unfold current. rewrite R. now left.
Qed.

Lemma got_inbox r s tr : (forall r' b p, In (EvReceive r' b s p) tr -> r' = r) -> got s tr = inbox r s tr.
Proof.
  induction tr as [|e tr IH]; intros H; [reflexivity|]. unfold got, inbox in *. cbn [flat_map]. rewrite IH by (intros; eapply H; right; eauto). f_equal.
  destruct e; try reflexivity. destruct (Nat.eqb_spec s0 s) as [->|]; [|now rewrite andb_false_r]. rewrite (H root b m) by now left. now rewrite Nat.eqb_refl.
Qed.

Lemma sublist_filter {A} (f : A -> bool) (l1 l2 : list A) : sublist l1 l2 -> NoDup l2 -> (forall x, In x l2 -> (In x l1 <-> f x = true)) -> l1 = filter f l2.
Proof.
  induction 1 as [|x l1 l2 S IH|x l1 l2 S IH]; intros D F; [reflexivity| |]; inversion D; subst; cbn [filter].
  - rewrite (proj1 (F x (or_introl eq_refl)) (or_introl eq_refl)). f_equal. apply IH; auto. intros y I. rewrite <- (F y (or_intror I)). split; [now right|].
    intros [->|J]; [contradiction|exact J].
  - destruct (f x) eqn:E.
    + exfalso. apply (proj2 (F x (or_introl eq_refl))) in E. eapply sublist_in in E; eauto.
    + apply IH; auto. intros y I. apply F. now right.
Qed.

Lemma below_root st r b : below st r b -> (exists x, get_bus st b = Some x) -> exists x, get_bus st r = Some x.
Proof. induction 1 as [|b c B IH (x & G & _)]; auto. intros _. apply IH. eauto. Qed.

Lemma wants_iff topic t : wants topic t = true <-> topic = t \/ topic = "/**/*"%string.
Proof. unfold wants. rewrite orb_true_iff, !String.eqb_eq. reflexivity. Qed.

(** ** Projections *)

Lemma calls_node T i s : calls T i s = entered s (bus_events (at_node i T)).
Proof.
  induction T as [|(j & e) T IH]; [reflexivity|]. change ((j, e) :: T) with ([(j, e)] ++ T). rewrite at_node_app, bus_events_app, entered_app, <- IH.
  unfold calls. rewrite flat_map_app. f_equal. cbn. rewrite app_nil_r. destruct (Nat.eqb_spec j i) as [->|]; cbn; [|destruct e as [[]| |]; reflexivity].
  destruct e as [e| |]; try reflexivity. cbn. destruct e; try reflexivity. cbn. now rewrite app_nil_r.
Qed.
Lemma queued_node T i r : queued T i r = map snd (accepted r (bus_events (at_node i T))).
Proof.
  induction T as [|(j & e) T IH]; [reflexivity|]. change ((j, e) :: T) with ([(j, e)] ++ T). rewrite at_node_app, bus_events_app.
  rewrite accepted_app, map_app. unfold queued. rewrite flat_map_app. f_equal; [|exact IH]. cbn. rewrite app_nil_r. destruct (Nat.eqb_spec j i) as [->|]; cbn; [|destruct e as [[]| |]; reflexivity].
  destruct e as [e| |]; try reflexivity. cbn. destruct e; try reflexivity. cbn. destruct (Nat.eqb _ _); reflexivity.
Qed.

(** What a process distributes. *)
Definition here (i : nat) (D : list delivery) : list bmsg := flat_map (fun d => if Nat.eqb (fst d) i then [snd d] else []) D.
Lemma here_node T i r : (forall r' p, In (EvBegin r' p) (bus_events (at_node i T)) -> r' = r) -> here i (distributed T) = map snd (begun r (bus_events (at_node i T))).
Proof.
  induction T as [|(j & e) T IH]; intros H; [reflexivity|]. change ((j, e) :: T) with ([(j, e)] ++ T) in *. rewrite at_node_app, bus_events_app in *. rewrite begun_app, map_app.
  unfold distributed, here. rewrite !flat_map_app. f_equal; [|apply IH; intros; eapply H; apply in_app_iff; eauto]. destruct e as [e| |]; try (cbn; destruct (Nat.eqb j i); reflexivity). destruct e; try (cbn; destruct (Nat.eqb j i); reflexivity).
  cbn in *. destruct (Nat.eqb_spec j i) as [->|]; [|reflexivity]. cbn in *. rewrite (H root m) by now left. rewrite Nat.eqb_refl. reflexivity.
Qed.

Section Rest.
  Variables (n : net) (rt : nat -> nat) (ls0 ls : list clabel) (c0 c : cluster) (T0 T : list (nat * nevent)).
  Hypothesis X0 : cexec n ls0 cl_init = Some (c0, T0).
  Hypothesis X : cexec n ls c0 = Some (c, T).
  Hypothesis QUIET : distributed T0 = [].
  Hypothesis ONE : one_root rt (T0 ++ T).
  Hypothesis REST : at_rest c.

  Let all i := bus_events (at_node i (T0 ++ T)).
  Lemma all_exec i : exists ls', exec ls' init = Some (cl_nodes c i, all i).
  Proof. apply (node_exec n (ls0 ++ ls)). eapply whole; eauto. Qed.

  Lemma root_of i r p : In p (begun r (all i)) -> r = rt i.
  Proof.
    intros I. destruct (all_exec i) as (ls' & XE). apply (begun_accepted _ _ _ _ XE) in I. unfold accepted in I. apply in_flat_map in I as (e & I & J). destruct e; try contradiction.
    match type of J with In _ (if Nat.eqb ?a r then _ else _) => destruct (Nat.eqb_spec a r) as [->|]; [|contradiction] end.
    apply in_bus_events, at_node_in in I. destruct (ONE i r m) as (A & _). eapply A; eauto.
  Qed.

  Lemma here_queued i : Permutation (here i (distributed (T0 ++ T))) (queued (T0 ++ T) i (rt i)).
  Proof.
    destruct (all_exec i) as (ls' & XE). rewrite (here_node _ _ (rt i)), queued_node.
    - apply Permutation_map. apply NoDup_Permutation; [eapply begun_nodup; eauto|eapply accepted_nodup; eauto|]. intros p. split; [eapply begun_accepted; eauto|].
      intros I. eapply acc_completed in I; eauto. apply I.
    - intros r p I. apply (root_of i r p). unfold begun. apply in_flat_map. exists (EvBegin r p). rewrite Nat.eqb_refl. split; [exact I|now left].
  Qed.

  Lemma quiet0 i r : begun r (bus_events (at_node i T0)) = [].
  Proof. eapply quiet_begun; eauto. Qed.

  Lemma calls_queued i b s topic cb arg :
    (forall st m, nth_error (s_subs st) s = Some (mkSub topic (Some cb)) -> receive st s m = InvCall (arg m)) ->
    calways (subscribed i (rt i) b s topic cb) n ls c0 ->
    calls (T0 ++ T) i s = map arg (filter (fun m => wants topic (bm_topic m)) (queued (T0 ++ T) i (rt i))).
  Proof.
    intros Ar SUB. destruct (all_exec i) as (ls' & XE).
    destruct (node_run _ _ _ _ X0 i) as (nls0 & A0 & _). pose proof (nexec_exec _ _ _ _ _ A0) as XE0. assert (reach (cl_nodes c0 i)) as Rc by (eexists; eexists; exact XE0).
    destruct (cexec_node n i (fun x => serving (rt i) b s x /\ nth_error (s_subs x) s = Some (mkSub topic (Some cb))) _ _ _ _ X) as (nls & A & _ & AL).
    specialize (AL _ SUB (fun c' H => H)). pose proof (nexec_exec _ _ _ _ _ A) as XE1.
    assert (got s (bus_events (at_node i T0)) = []) as G0.
    { apply all_empty. intros p I. apply in_got in I as (r & b' & I). apply (receive_begun _ _ _ _ _ _ _ XE0) in I. rewrite quiet0 in I. destruct I. }
    assert (entered s (bus_events (at_node i T0)) = []) as E0.
    { apply all_empty. intros k I. apply in_entered in I as (r & p & I). destruct (exec_at _ _ _ _ _ XE0 I (fun _ => True)) as (l & s1 & s2 & e2 & _ & H & I2 & IN).
      { clear. generalize init. induction (bus_labels (nt_links n i) nls0) as [|l q IH]; intros st; cbn [always]; split; auto. destruct (step l st) as [[? ?]|]; auto. }
      destruct (invoke_inv _ _ _ _ _ _ _ _ H I2) as (x & b' & ss & stk & rest & y & x' & _ & _ & _ & _ & _ & _ & E & _).
      assert (In p (got s (bus_events (at_node i T0)))) as J; [|rewrite G0 in J; destruct J]. apply in_got. exists r, b'. apply IN. rewrite E. now left. }
    assert (forall r b' p, In (EvReceive r b' s p) (all i) -> r = rt i) as RT.
    { intros r b' p I. apply (receive_begun _ _ _ _ _ _ _ XE) in I. eapply root_of; eauto. }
    assert (calls (T0 ++ T) i s = map (fun p => arg (snd p)) (inbox (rt i) s (all i))) as ->.
    { rewrite calls_node, <- (got_inbox (rt i) s (all i) RT). unfold all. rewrite !at_node_app, !bus_events_app, entered_app, got_app, E0, G0. cbn [app].
      eapply entered_exec; [exact Ar| |exact XE1]. eapply always_imp; [|exact AL]. intros z (_ & Q). exact Q. }
    rewrite queued_node. fold (all i). rewrite <- (map_map snd arg). f_equal.
    destruct (C21_fifo _ _ _ (rt i) s XE) as (SL & ND).
    rewrite (sublist_filter (fun p => wants topic (bm_topic (snd p))) _ _ SL ND).
    { clear. induction (accepted (rt i) (all i)) as [|p q IH]; [reflexivity|]. cbn [filter map]. destruct (wants topic (bm_topic (snd p))); cbn [map]; now rewrite IH. }
    intros p Ip. rewrite wants_iff. split.
    - intros I. apply in_inbox in I as (b' & I). unfold all in I. rewrite at_node_app, bus_events_app in I. apply in_app_iff in I as [I|I].
      { exfalso. assert (In p (got s (bus_events (at_node i T0)))) as J by (apply in_got; eauto). rewrite G0 in J. destruct J. }
      destruct (exec_at _ _ _ _ _ XE1 I _ AL) as (l & s1 & s2 & e2 & (_ & N1) & H & I2 & _).
      destruct (receive_inv _ _ _ _ _ _ _ _ H I2) as (x & ss & stk & rest & y & _ & _ & _ & N & Ac & _). rewrite N1 in N. injection N as <-. exact Ac.
    - intros W. destruct (acc_completed n rt ls0 ls c0 c T0 T X0 X ONE REST i (rt i) p Ip) as (Cp & _).
      assert (In (EvEnd (rt i) p) (bus_events (at_node i T))) as Ie.
      { rewrite at_node_app, bus_events_app, completed_app in Cp. apply in_app_iff in Cp as [Cp|Cp].
        - exfalso. pose proof (started_all (rt i) _ _ _ XE0) as ST. unfold started in ST. rewrite quiet0 in ST. destruct (get_bus (cl_nodes c0 i) (rt i)); [destruct ST as (_ & _ & _ & ST)|destruct ST as (_ & ST); rewrite ST in Cp; destruct Cp]. destruct (ST _ Cp).
        - unfold completed in Cp. apply in_flat_map in Cp as (e & Ie & Je). destruct e; try contradiction. match type of Je with In _ (if Nat.eqb ?a ?b then _ else _) => destruct (Nat.eqb_spec a b) as [->|]; [|contradiction] end. destruct Je as [->|[]]. exact Ie. }
      apply in_inbox. exists b. unfold all. rewrite at_node_app, bus_events_app. apply in_app_iff. right.
      assert (subscribed i (rt i) b s topic cb c0) as ((Sb & Bl & _) & Ns) by (destruct ls; apply SUB).
      eapply (C20_every _ _ _ _ (rt i) b s _ Rc); [|exact XE1| |exact Ns|exact Ie|exact W].
      + eapply always_imp; [|exact AL]. intros z (Q & _). exact Q.
      + destruct Sb as (xb & Gb & _). destruct (below_root _ _ _ Bl (ex_intro _ xb Gb)) as (x & Gx). exists x. split; [exact Gx|].
        pose proof (started_all (rt i) _ _ _ XE0) as ST. unfold started in ST. rewrite Gx, quiet0 in ST. destruct ST as (_ & _ & ST & _). apply all_empty. intros y Iy. destruct (ST _ Iy).
  Qed.
End Rest.

(** ** At every moment *)

Definition invoked (s : nat) (tr : list event) : list (nat * pubn) :=
  flat_map (fun e => match e with EvInvoke r s' p _ => if Nat.eqb s' s then [(r, p)] else [] | _ => [] end) tr.
Lemma invoked_app s a b : invoked s (a ++ b) = invoked s a ++ invoked s b.
Proof. apply flat_map_app. Qed.
Lemma in_invoked s r p tr : In (r, p) (invoked s tr) <-> exists c, In (EvInvoke r s p c) tr.
Proof.
  unfold invoked. rewrite in_flat_map. split.
  - intros (e & I & J). destruct e; try contradiction. destruct (Nat.eqb_spec s0 s) as [->|]; [|contradiction]. destruct J as [J|[]]. injection J as -> ->. eauto.
  - intros (c & I). exists (EvInvoke r s p c). split; auto. rewrite Nat.eqb_refl. now left.
Qed.
Lemma heard_node T i s : heard T i s = map (fun x => snd (snd x)) (invoked s (bus_events (at_node i T))).
Proof.
  induction T as [|(j & e) T IH]; [reflexivity|]. change ((j, e) :: T) with ([(j, e)] ++ T). rewrite at_node_app, bus_events_app, invoked_app, map_app.
  unfold heard. rewrite flat_map_app. f_equal; [|exact IH]. cbn. rewrite app_nil_r. destruct (Nat.eqb_spec j i) as [->|]; cbn; [|destruct e as [[]| |]; reflexivity].
  destruct e as [e| |]; try reflexivity. cbn. destruct e; try reflexivity. cbn. destruct (Nat.eqb s0 s); reflexivity.
Qed.

Lemma invoked_inbox ls st tr r s : exec ls init = Some (st, tr) -> sublist (map snd (filter (fun x => Nat.eqb (fst x) r) (invoked s tr))) (inbox r s tr).
Proof.
  revert ls st tr. apply (exec_trace_ind init (fun st _ tr => sublist (map snd (filter (fun x => Nat.eqb (fst x) r) (invoked s tr))) (inbox r s tr))).
  - constructor.
  - intros ls l st st' tr evs X IH H. rewrite invoked_app, inbox_app, filter_app', map_app. apply sublist_app; [exact IH|].
    destruct (invoked s evs) as [|(r' & p) q] eqn:Q; [apply sublist_nil|]. assert (In (r', p) (invoked s evs)) as I by (rewrite Q; now left). apply in_invoked in I as (c & I).
    destruct (invoke_inv _ _ _ _ _ _ _ _ H I) as (x & b & ss & stk & rest & y & x' & _ & _ & _ & _ & _ & _ & E & _). subst evs. cbn in Q. rewrite Nat.eqb_refl in Q. injection Q as <-.
    cbn. rewrite Nat.eqb_refl. destruct (Nat.eqb r' r); cbn; repeat constructor.
Qed.
Lemma map_pair_filter {B} r (l : list (nat * B)) : filter (fun x => Nat.eqb (fst x) r) l = map (pair r) (map snd (filter (fun x => Nat.eqb (fst x) r) l)).
Proof. induction l as [|(a & b) l IH]; [reflexivity|]. cbn. destruct (Nat.eqb_spec a r) as [->|]; [cbn; now rewrite IH at 1|exact IH]. Qed.
Lemma invoked_nodup ls st tr s : exec ls init = Some (st, tr) -> NoDup (invoked s tr).
Proof.
  intros X. apply nodup_by. intros (r & p) I. exists (fun x => Nat.eqb (fst x) r). split; [cbn; apply Nat.eqb_refl|].
  rewrite map_pair_filter. apply FinFun.Injective_map_NoDup; [intros a b E; now injection E|].
  eapply sublist_nodup; [eapply invoked_inbox; eauto|]. eapply C20_once; eauto.
Qed.

Lemma here_keys T i : here i (distributed T) = map (fun x => snd (snd (snd x))) (filter (fun x => Nat.eqb (fst x) i) (keys beg_of T)).
Proof.
  rewrite distributed_keys. induction (keys beg_of T) as [|(j & (r & p)) l IH]; [reflexivity|]. unfold here in *. cbn. rewrite IH. destruct (Nat.eqb_spec j i) as [->|]; reflexivity.
Qed.

(** No callback is called twice for a message that was distributed once. *)
Lemma heard_here n ls c T i s : cexec n ls cl_init = Some (c, T) -> subm (heard T i s) (here i (distributed T)).
Proof.
  intros X. rewrite heard_node, here_keys. destruct (node_exec _ _ _ _ X i) as (ls' & XE).
  rewrite <- (map_map (pair i) (fun x : nat * (nat * pubn) => snd (snd (snd x)))).
  apply subm_map. apply subm_nodup; [apply FinFun.Injective_map_NoDup; [intros a b E; now injection E|eapply invoked_nodup; eauto]|].
  intros (j & (r & p)) I. apply in_map_iff in I as ((r' & p') & E & I). injection E as <- -> ->. apply filter_In. cbn. rewrite Nat.eqb_refl. split; [|reflexivity].
  apply in_invoked in I as (k & I). apply (beg_in T). destruct (in_split _ _ I) as (ta & tb & E). 
  assert (exists b, In (EvReceive r b s p) (bus_events (at_node i T))) as (b & J); [|eapply receive_begun; eauto].
  destruct (exec_at _ _ _ _ _ XE I (fun _ => True)) as (l & s1 & s2 & e2 & _ & H & I2 & IN).
  { clear. generalize init. induction ls' as [|l q IH]; intros st; cbn [always]; split; auto. destruct (step l st) as [[? ?]|]; auto. }
  destruct (invoke_inv _ _ _ _ _ _ _ _ H I2) as (x & b & ss & stk & rest & y & x' & _ & _ & _ & _ & _ & _ & E2 & _). exists b. apply IN. rewrite E2. now left.
Qed.

(** ** Sums over processes *)

Lemma here_app i a b : here i (a ++ b) = here i a ++ here i b.
Proof. apply flat_map_app. Qed.
Lemma perm_here i a b : Permutation a b -> Permutation (here i a) (here i b).
Proof. apply Permutation_flat_map. Qed.
Lemma here_flat_map {A} i (f : A -> list delivery) l : here i (flat_map f l) = flat_map (fun x => here i (f x)) l.
Proof. induction l as [|x l IH]; [reflexivity|]. cbn [flat_map]. now rewrite here_app, IH. Qed.

(** ** Networks that differ in the numbers of buses and callbacks only *)

Definition alike (a b : link) : Prop := lk_id a = lk_id b /\ forall s, lk_socket a s = lk_socket b s.

Lemma alike_message a b m : alike a b -> on_message a m = on_message b m.
Proof. intros (E & S). unfold on_message. rewrite !S. unfold sent_by. now rewrite E. Qed.
Lemma alike_receive a b m : alike a b -> on_receive a m = on_receive b m.
Proof. intros (E & _). unfold on_receive, prepend. now rewrite E. Qed.

Section Alike.
  Variables n n' : net.
  Hypothesis LINKS : forall i, Forall2 alike (nt_links n i) (nt_links n' i).
  Hypothesis WIRES : forall i k r, nt_links n i <> [] -> nt_wires n i k r = nt_wires n' i k r.

  Lemma alike_forward i m : forward n i m = forward n' i m.
  Proof.
    unfold forward, indexed. pose proof (LINKS i) as L. pose proof (WIRES i) as W. destruct (nt_links n i) as [|a0 l0]; [inversion L; reflexivity|].
    assert (forall k r, nt_wires n i k r = nt_wires n' i k r) as W' by (intros; apply W; discriminate). clear W. generalize 0. revert L. generalize (a0 :: l0) (nt_links n' i).
    induction 1 as [|a b l l' A L IH]; intros k; [reflexivity|]. cbn [length seq combine flat_map fst snd]. rewrite (alike_message _ _ m A), (IH (S k)). f_equal.
    induction (on_message b m) as [|r rs IHr]; [reflexivity|]. cbn [flat_map]. now rewrite W', IHr.
  Qed.
  Lemma alike_process x : process n x = process n' x.
  Proof.
    destruct x as [i m|i k m]; cbn [process]; [now rewrite alike_forward|]. pose proof (LINKS i) as L. revert k. induction L as [|a b l l' A L IH]; intros [|k]; cbn [nth_error]; auto.
    now rewrite (alike_receive _ _ m A).
  Qed.
  Lemma alike_exec ls : forall s, wexec n ls s = wexec n' ls s.
  Proof.
    induction ls as [|l ls IH]; intros s; cbn [wexec]; [reflexivity|]. assert (wstep n l s = wstep n' l s) as ->.
    { destruct l as [i m|p]; cbn [wstep]; [reflexivity|]. destruct (take p (fst s)) as [[x rest]|]; [|reflexivity]. now rewrite alike_process. }
    destruct (wstep n' l s); auto.
  Qed.
End Alike.

Lemma star_alike k name n : a_star k name n -> (forall i, Forall2 alike (nt_links n i) (nt_links (star k name) i)) /\ forall i j r, nt_links n i <> [] -> nt_wires n i j r = nt_wires (star k name) i j r.
Proof.
  intros (L & W). split.
  - intros i. specialize (L i). cbn [star nt_links]. destruct (nt_links n i) as [|a [|b l]]; [| |contradiction].
    + destruct (Nat.eqb_spec i 0); [lia|]. destruct (Nat.leb_spec i k); [lia|constructor].
    + destruct L as (Le & E & S). destruct (Nat.eqb_spec i 0) as [->|].
      * constructor; [|constructor]. split; [exact E|]. intros s. rewrite S. cbn. destruct s; reflexivity.
      * destruct (Nat.leb_spec i k); [|lia]. constructor; [|constructor]. split; [exact E|]. intros s. rewrite S. cbn. destruct s; reflexivity.
  - intros i j r Ne. rewrite W by (specialize (L i); destruct (nt_links n i) as [|a [|b l]]; [congruence|tauto|contradiction]). destruct i as [|i], j as [|j], r; reflexivity.
Qed.

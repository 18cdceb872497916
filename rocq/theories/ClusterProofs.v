(** Proofs for C91: what is begun, sent and received by several processes. *)
From Coq Require Import String Ascii List Arith ZArith Bool Lia Sorted Permutation.
From Verif Require Import Prelude NetProps OMap DatagramModel DatagramSpec BusModel BusSpec BusProofs BusTree BusLocks BusLocks2 BusLocks3 BusDist BusAccount BusOnce BusFlight BusDeliver BusDeliveryProps LinkModel NodeModel NetModel NodeProps ActionProofs ClusterModel ClusterSpec.
Import ListNotations.
Open Scope list_scope.

(** ** Messages whose distribution began *)

Definition started (r : nat) (st : state) (tr : list event) : Prop :=
  match get_bus st r with
  | Some x => NoDup (begun r tr) /\ incl (begun r tr) (settled r tr ++ current x) /\ incl (current x) (begun r tr) /\ incl (completed r tr) (begun r tr)
  | None => begun r tr = [] /\ completed r tr = []
  end.

Lemma completed_app r t1 t2 : completed r (t1 ++ t2) = completed r t1 ++ completed r t2.
Proof. apply flat_map_app. Qed.
Lemma lost_quiet r ms e : begun r (map (EvLost r) ms ++ [EvStop r (Some e)]) = [] /\ completed r (map (EvLost r) ms ++ [EvStop r (Some e)]) = [].
Proof. rewrite begun_app, completed_app. unfold begun, completed. rewrite !flat_lost by auto. auto. Qed.

Lemma account_nodup r st tr : account r st tr -> NoDup (accepted r tr).
Proof.
  unfold account. destruct (get_bus st r) as [x|]; intros (A & B); [|rewrite A; constructor].
  apply (NoDup_map_inv fst). rewrite B. apply seq_NoDup.
Qed.

Lemma nodup_app_disj {A} (a b : list A) x : NoDup (a ++ b) -> In x a -> In x b -> False.
Proof.
  induction a as [|c a IH]; cbn; intros D I J; [destruct I|]. inversion D; subst. destruct I as [->|I]; auto.
  match goal with H : ~ In _ _ |- _ => apply H end. apply in_app_iff. auto.
Qed.

Lemma started_run st r x l rn act evs x' tr :
  rcase st r x l (b_runner x) rn act evs -> b_runner x' = rn ->
  NoDup (settled r tr ++ current x ++ pending x) ->
  NoDup (begun r tr) /\ incl (begun r tr) (settled r tr ++ current x) /\ incl (current x) (begun r tr) /\ incl (completed r tr) (begun r tr) ->
  NoDup (begun r (tr ++ evs)) /\ incl (begun r (tr ++ evs)) (settled r (tr ++ evs) ++ current x') /\ incl (current x') (begun r (tr ++ evs)) /\ incl (completed r (tr ++ evs)) (begun r (tr ++ evs)).
Proof.
  intros R E1 ND (A & B & C & D). rewrite begun_app, completed_app, settled_app.
  unfold current, pending, batch in *. rewrite E1.
  inversion R; subst evs; match goal with Q : _ = b_runner x |- _ => rewrite <- Q in * end; subst; rewrite ?Nat.eqb_refl in *;
    try (cbn [begun completed settled flat_map app] in *; rewrite ?Nat.eqb_refl, ?app_nil_r in *; auto; fail).
  - (* begin *) cbn [begun completed settled flat_map app] in *. rewrite ?Nat.eqb_refl, ?app_nil_r in *. split; [|split; [|split]].
    + apply NoDup_snoc; auto. intros I. eapply nodup_app_disj; [exact ND|apply B; exact I|now left].
    + intros z I. apply in_app_iff in I as [I|[<-|[]]]; apply in_app_iff; [left; apply B; exact I|right; now left].
    + intros z [<-|[]]. apply in_app_iff. right. now left.
    + apply incl_appl. exact D.
  - (* drop *) cbn [begun completed settled flat_map app] in *. rewrite ?Nat.eqb_refl, ?app_nil_r in *. repeat split; auto. apply incl_appl. exact B.
  - (* end *) cbn [begun completed settled flat_map app] in *. rewrite ?Nat.eqb_refl, ?app_nil_r in *. repeat split; auto.
    + intros z [].
    + intros z I. apply in_app_iff in I as [I|I]; auto.
  - change (begun r (EvReceive r b s m :: map (EvLost r) (m :: rest) ++ [EvStop r (Some e)])) with (begun r (map (EvLost r) (m :: rest) ++ [EvStop r (Some e)])).
    change (completed r (EvReceive r b s m :: map (EvLost r) (m :: rest) ++ [EvStop r (Some e)])) with (completed r (map (EvLost r) (m :: rest) ++ [EvStop r (Some e)])).
    change (settled r (EvReceive r b s m :: map (EvLost r) (m :: rest) ++ [EvStop r (Some e)])) with (settled r (map (EvLost r) (m :: rest) ++ [EvStop r (Some e)])).
    destruct (lost_quiet r (m :: rest) e) as (-> & ->). rewrite settled_lost, !app_nil_r. repeat split; auto; [|intros z []].
    intros z I. apply B in I. apply in_app_iff in I as [I|[<-|[]]]; apply in_app_iff; auto. right. now left.
  - destruct (lost_quiet r (m :: rest) e) as (-> & ->). rewrite settled_lost, !app_nil_r. repeat split; auto; [|intros z []].
    intros z I. apply B in I. apply in_app_iff in I as [I|[<-|[]]]; apply in_app_iff; auto. right. now left.
Qed.

Lemma started_step l st st' evs tr r :
  account r st tr -> started r st tr -> step l st = Some (st', evs) -> started r st' (tr ++ evs).
Proof.
  unfold started. intros AC A H. pose proof (account_nodup _ _ _ AC) as ND. unfold account in AC. destruct (get_bus st r) as [x|] eqn:G.
  - destruct (runner_label_dec l r) as [RL|RL].
    + destruct (run_inv' _ _ _ _ _ H RL) as (x0 & rn & act & G0 & RC & E). rewrite G in G0. injection G0 as <-.
      rewrite E, run_view, G. cbn [option_map]. eapply started_run; [exact RC|cbn; now rewrite Nat.eqb_refl| |exact A].
      destruct AC as (AC & _). now rewrite AC in ND.
    + destruct (proj_other _ _ _ _ _ H RL) as (Es & Eb & _ & _ & _ & _ & Ec). rewrite begun_app, completed_app, settled_app, Es, Eb, Ec, !app_nil_r.
      destruct (step_delta _ _ _ _ _ _ H G) as (x' & G' & D). rewrite G'.
      assert (current x' = current x) as ->; [|exact A].
      unfold current. destruct (d_runner _ _ _ _ _ _ D) as [->|[E|(_ & _ & -> & ->)]]; auto. contradiction.
  - destruct A as (A1 & A2). destruct (runner_label_dec l r) as [RL|RL].
    + destruct (run_inv' _ _ _ _ _ H RL) as (x0 & rn & act & G0 & _). congruence.
    + destruct (proj_other _ _ _ _ _ H RL) as (Es & Eb & _ & _ & _ & _ & Ec). rewrite begun_app, completed_app, A1, A2, Eb, Ec.
      destruct (get_bus st' r) as [x'|] eqn:G'; auto. cbn [app]. split; [constructor|]. split; [intros y []|]. split; [|intros y []].
      destruct (step_new _ _ _ _ _ _ H G G') as (_ & _ & [(n & _ & _ & ->)|[(n & g & _ & _ & ->)|(b0 & xb & n & t & _ & _ & _ & _ & _ & ->)]]); intros y [].
Qed.

Lemma started_all r ls st tr : exec ls init = Some (st, tr) -> started r st tr.
Proof.
  revert ls st tr. apply (exec_trace_ind init (fun st _ tr => started r st tr)).
  - unfold started. destruct r; simpl; auto.
  - intros ls l st st' tr evs X A H. eapply started_step; eauto. eapply account_all; eauto.
Qed.

Lemma begun_nodup r ls st tr : exec ls init = Some (st, tr) -> NoDup (begun r tr).
Proof. intros X. pose proof (started_all r _ _ _ X) as A. unfold started in A. destruct (get_bus st r); [apply A|]. destruct A as (-> & _). constructor. Qed.
Lemma begun_accepted r ls st tr : exec ls init = Some (st, tr) -> incl (begun r tr) (accepted r tr).
Proof.
  intros X. pose proof (started_all r _ _ _ X) as A. pose proof (account_all r _ _ _ X) as B. unfold started, account in *. destruct (get_bus st r) as [x|].
  - destruct A as (_ & A & _). destruct B as (-> & _). intros y I. apply A in I. apply in_app_iff in I as [I|I]; apply in_app_iff; auto. right. apply in_app_iff. auto.
  - destruct A as (-> & _). intros y [].
Qed.
Lemma accepted_nodup r ls st tr : exec ls init = Some (st, tr) -> NoDup (accepted r tr).
Proof. intros X. eapply account_nodup, account_all; eauto. Qed.
(** A callback is called for a message whose distribution has begun. *)
Lemma invoke_begun ls st tr l st' evs r s p c : exec ls init = Some (st, tr) -> step l st = Some (st', evs) -> In (EvInvoke r s p c) evs -> In p (begun r tr).
Proof.
  intros X H I. destruct (invoke_inv _ _ _ _ _ _ _ _ H I) as (x & b & ss & stk & rest & y & x' & _ & G & R & _).
  pose proof (started_all r _ _ _ X) as A. unfold started in A. rewrite G in A. destruct A as (_ & _ & A & _). apply A. unfold current. rewrite R. now left.
Qed.

(** ** Publications: each is accepted at most once *)

Lemma accept_handed tr r i p : In (EvAccept r i p) tr -> handed i tr <> [].
Proof.
  intros I E. assert (In (ToQueue r, snd p) (handed i tr)) as J; [|rewrite E in J; destruct J].
  unfold handed. apply in_flat_map. exists (EvAccept r i p). rewrite Nat.eqb_refl. split; [exact I|now left].
Qed.

Definition accepts_of (i : nat) (tr : list event) : list (nat * pubn) :=
  flat_map (fun e => match e with EvAccept r j p => if Nat.eqb j i then [(r, p)] else [] | _ => [] end) tr.
Lemma accepts_of_app i a b : accepts_of i (a ++ b) = accepts_of i a ++ accepts_of i b.
Proof. apply flat_map_app. Qed.
Lemma accepts_of_in i tr r p : In (r, p) (accepts_of i tr) <-> In (EvAccept r i p) tr.
Proof.
  unfold accepts_of. rewrite in_flat_map. split.
  - intros (e & I & J). destruct e; try contradiction. destruct (Nat.eqb_spec i0 i) as [->|]; [|contradiction]. destruct J as [J|[]]. injection J as -> ->. exact I.
  - intros I. exists (EvAccept r i p). rewrite Nat.eqb_refl. split; [exact I|now left].
Qed.

Lemma accepts_done ls : forall st st' tr i, exec ls st = Some (st', tr) -> nth_error (s_flights st) i = Some FlyDone -> accepts_of i tr = [].
Proof.
  intros st st' tr i X N. destruct (accepts_of i tr) as [|(r & p) l] eqn:E; [reflexivity|exfalso].
  assert (In (EvAccept r i p) tr) as I by (apply accepts_of_in; rewrite E; now left).
  destruct (flight_message _ _ _ _ _ _ X N (or_introl eq_refl) _ _ I) as (b & Q). discriminate.
Qed.

Lemma accepts_once ls st tr i : exec ls init = Some (st, tr) -> length (accepts_of i tr) <= 1.
Proof.
  revert ls st tr.
  assert (forall ls st tr, exec ls init = Some (st, tr) -> length (accepts_of i tr) <= 1 /\ (accepts_of i tr <> [] -> nth_error (s_flights st) i = Some FlyDone)) as G; [|intros ls st tr X; apply (G _ _ _ X)].
  apply (exec_trace_ind init (fun st _ tr => length (accepts_of i tr) <= 1 /\ (accepts_of i tr <> [] -> nth_error (s_flights st) i = Some FlyDone))).
  - split; [cbn; lia|]. intros H. now destruct H.
  - intros ls l st st' tr evs X (A & B) H. rewrite accepts_of_app, app_length.
    destruct (accepts_of i evs) as [|(r & p) q] eqn:E.
    + cbn [length app]. rewrite app_nil_r. split; [lia|]. intros NE. specialize (B NE).
      destruct (step_flight _ _ _ _ _ _ H B) as [->|(N & _)]; auto.
      exfalso. destruct (fly_inv _ _ _ _ H) as [(p0 & d & xp & y & m & N0 & _)|[(p0 & d & xp & N0 & _)|(b & m & y & N0 & _)]]; congruence.
    + assert (In (EvAccept r i p) evs) as I by (apply accepts_of_in; rewrite E; now left).
      destruct (accept_inv _ _ _ _ _ _ _ H I) as (-> & b & N).
      assert (accepts_of i tr = []) as Z.
      { destruct (accepts_of i tr) eqn:Q; [reflexivity|]. rewrite B in N by discriminate. discriminate. }
      rewrite Z. cbn [length app].
      destruct (fly_inv _ _ _ _ H) as [(p0 & d & xp & y & m & N0 & Np & F & Gy & Em & [(Fn & -> & ->)|(Fn & -> & ->)])|[(p0 & d & xp & N0 & Np & F & -> & ->)|(b' & m & y & N0 & Gy & [(Fn & -> & ->)|[(g & Fn & -> & ->)|[(r0 & z & Fn & Gz & -> & ->)|(r0 & Fn & Gz & -> & ->)]]])]]; try discriminate E.
      cbn in E. rewrite Nat.eqb_refl in E. injection E as <- <- <-. split; [cbn; lia|]. intros _. simpl. apply list_set_eq. eapply nth_error_Some_lt; eauto.
Qed.

(** ** Multisets *)

Definition subm {A} (a b : list A) : Prop := exists r, Permutation (a ++ r) b.

Lemma subm_refl {A} (a : list A) : subm a a.
Proof. exists []. now rewrite app_nil_r. Qed.
Lemma subm_trans {A} (a b c : list A) : subm a b -> subm b c -> subm a c.
Proof. intros (r & P) (s & Q). exists (r ++ s). rewrite app_assoc, P. exact Q. Qed.
Lemma subm_map {A B} (f : A -> B) a b : subm a b -> subm (map f a) (map f b).
Proof. intros (r & P). exists (map f r). rewrite <- map_app. now apply Permutation_map. Qed.
Lemma subm_flat_map {A B} (f : A -> list B) a b : subm a b -> subm (flat_map f a) (flat_map f b).
Proof. intros (r & P). exists (flat_map f r). rewrite <- flat_map_app. now apply Permutation_flat_map. Qed.
Lemma subm_perm_r {A} (a b c : list A) : subm a b -> Permutation b c -> subm a c.
Proof. intros (r & P) Q. exists r. now rewrite P. Qed.
Lemma subm_part {A} (a r b : list A) : Permutation (r ++ a) b -> subm a b.
Proof. intros P. exists r. now rewrite Permutation_app_comm. Qed.
Lemma subm_length {A} (a b : list A) : subm a b -> length a <= length b.
Proof. intros (r & P). apply Permutation_length in P. rewrite app_length in P. lia. Qed.
Lemma subm_nodup {A} (a : list A) : NoDup a -> forall b, incl a b -> subm a b.
Proof.
  induction 1 as [|x a N D IH]; intros b I; [exists b; reflexivity|].
  destruct (in_split x b) as (b1 & b2 & ->); [apply I; now left|].
  destruct (IH (b1 ++ b2)) as (r & P).
  - intros y J. assert (In y (b1 ++ x :: b2)) as K by (apply I; now right). apply in_app_iff in K as [K|[->|K]]; [apply in_app_iff; auto|contradiction|apply in_app_iff; auto].
  - exists r. cbn [app]. rewrite P. apply Permutation_middle.
Qed.
(** Taking one more out. *)
Lemma subm_next {A} (D b : list A) x a : Permutation (D ++ b) a -> subm (b ++ [x]) a -> exists r, Permutation D (x :: r) /\ Permutation (r ++ b ++ [x]) a.
Proof.
  intros P (r & Q). exists r. rewrite <- Q in P. split.
  - apply (Permutation_app_inv_l b). rewrite Permutation_app_comm, P, <- app_assoc. reflexivity.
  - rewrite <- Q. apply Permutation_app_comm.
Qed.

Lemma nodup_by {A} (l : list A) : (forall x, In x l -> exists f, f x = true /\ NoDup (filter f l)) -> NoDup l.
Proof.
  induction l as [|x l IH]; intros H; constructor.
  - intros I. destruct (H x (or_introl eq_refl)) as (f & E & D). cbn in D. rewrite E in D. inversion D; subst.
    match goal with K : ~ In _ _ |- _ => apply K end. apply filter_In. auto.
  - apply IH. intros y I. destruct (H y (or_intror I)) as (f & E & D). exists f. split; auto. cbn in D. destruct (f x); [now inversion D|exact D].
Qed.
Lemma nodup_flat_map {A B} (g : A -> list B) l : NoDup l -> (forall x, NoDup (g x)) -> (forall x y z, In x l -> In y l -> In z (g x) -> In z (g y) -> x = y) -> NoDup (flat_map g l).
Proof.
  intros D G J. induction D as [|x l N D IH]; cbn; [constructor|].
  assert (forall a b : list B, NoDup a -> NoDup b -> (forall z, In z a -> In z b -> False) -> NoDup (a ++ b)) as K.
  { clear. induction a as [|c a IH]; cbn; auto. intros b Da Db H. inversion Da; subst. constructor.
    - rewrite in_app_iff. intros [I|I]; [contradiction|]. apply (H c); auto.
    - apply IH; auto. intros z I. apply H. auto. }
  apply K; auto.
  - apply IH. intros a b z Ia Ib. apply J; now right.
  - intros z I L. apply in_flat_map in L as (y & Iy & Iz). rewrite (J x y z (or_introl eq_refl) (or_intror Iy) I Iz) in N. contradiction.
Qed.
Lemma nodup_short {A} (l : list A) : length l <= 1 -> NoDup l.
Proof. destruct l as [|a [|b l]]; cbn; intros L; [constructor|constructor; [intros []|constructor]|lia]. Qed.

(** ** One node of a cluster *)

Definition at_node (i : nat) (T : list (nat * nevent)) : list nevent := flat_map (fun x => if Nat.eqb (fst x) i then [snd x] else []) T.

Lemma at_node_app i a b : at_node i (a ++ b) = at_node i a ++ at_node i b.
Proof. apply flat_map_app. Qed.
Lemma at_node_same i l : at_node i (map (pair i) l) = l.
Proof. induction l; [reflexivity|]. unfold at_node in *. cbn. rewrite Nat.eqb_refl. cbn. congruence. Qed.
Lemma at_node_other i j l : j <> i -> at_node i (map (pair j) l) = [].
Proof. intros N. induction l; [reflexivity|]. unfold at_node in *. cbn. apply Nat.eqb_neq in N. rewrite N. exact IHl. Qed.
Lemma at_node_in i e T : In e (at_node i T) <-> In (i, e) T.
Proof.
  unfold at_node. rewrite in_flat_map. split.
  - intros ((j & e') & I & J). cbn in J. destruct (Nat.eqb_spec j i) as [->|]; [|destruct J]. destruct J as [->|[]]. exact I.
  - intros I. exists (i, e). split; [exact I|]. cbn. rewrite Nat.eqb_refl. now left.
Qed.

Lemma cexec_app n a b c : cexec n (a ++ b) c = match cexec n a c with Some (c1, e1) => match cexec n b c1 with Some (c2, e2) => Some (c2, e1 ++ e2) | None => None end | None => None end.
Proof.
  revert c. induction a as [|l a IH]; intros c; cbn [app cexec]; [destruct (cexec n b c) as [[]|]; reflexivity|].
  destruct (cstep n l c) as [[c1 e1]|]; [|reflexivity]. rewrite IH. destruct (cexec n a c1) as [[c2 e2]|]; [|reflexivity].
  destruct (cexec n b c2) as [[c3 e3]|]; [|reflexivity]. now rewrite app_assoc.
Qed.

(** A step of the cluster is a step of one node; what it does to the messages on the way. *)
Lemma cstep_inv n l c c' T : cstep n l c = Some (c', T) ->
  exists i nl st evs, nstep (nt_links n i) nl (cl_nodes c i) = Some (st, evs) /\ T = map (pair i) evs /\ cl_nodes c' = put_node i st (cl_nodes c) /\
    ((exists x, l = CBus i x /\ nl = NBus x /\ cl_wire c' = cl_wire c ++ flat_map (outgoing n i) evs) \/
     (exists p k r m rest, l = CTake p /\ nl = NReceive k r m /\ take p (cl_wire c) = Some ((i, k, r, m), rest) /\ cl_wire c' = rest ++ flat_map (outgoing n i) evs)).
Proof.
  destruct l as [i x|p]; cbn [cstep].
  - destruct (nstep _ _ _) as [[st evs]|] eqn:N; [|discriminate]. intros H. injection H as <- <-. exists i, (NBus x), st, evs. repeat split; auto. left. eauto.
  - destruct (take p (cl_wire c)) as [[[[[i k] r] m] rest]|] eqn:E; [|discriminate]. destruct (nstep _ _ _) as [[st evs]|] eqn:N; [|discriminate].
    intros H. injection H as <- <-. exists i, (NReceive k r m), st, evs. repeat split; auto. right. exists p, k, r, m, rest. auto.
Qed.

Lemma bus_labels_app ks a b : bus_labels ks (a ++ b) = bus_labels ks a ++ bus_labels ks b.
Proof. apply flat_map_app. Qed.

Lemma nexec_cons_exec ks l st st' evs : nstep ks l st = Some (st', evs) -> exec (bus_labels ks [l]) st = Some (st', bus_events evs).
Proof. intros H. apply (nexec_exec ks [l] st st' evs). cbn [nexec]. rewrite H, app_nil_r. reflexivity. Qed.

Lemma bus_labels_one ks l st st' evs : nstep ks l st = Some (st', evs) -> exists x, bus_labels ks [l] = [x] /\ step x st = Some (st', bus_events evs).
Proof.
  intros H. pose proof (nexec_cons_exec _ _ _ _ _ H) as X.
  assert (exists x, bus_labels ks [l] = [x]) as (x & E).
  { destruct l as [x|k r m]; [exists x; reflexivity|]. cbn [nstep] in H. unfold bus_labels. cbn [flat_map]. destruct (nth_error ks k); [|discriminate]. eexists. reflexivity. }
  exists x. split; [exact E|]. rewrite E in X. cbn [exec] in X. destruct (step x st) as [[s e]|]; [|discriminate]. injection X as -> X. rewrite app_nil_r in X. now rewrite X.
Qed.

Lemma cexec_node n i (P : state -> Prop) ls : forall c c' T, cexec n ls c = Some (c', T) ->
  exists nls, nexec (nt_links n i) nls (cl_nodes c i) = Some (cl_nodes c' i, at_node i T) /\
    (forall l, In (NBus l) nls -> In (CBus i l) ls) /\
    (forall Q, calways Q n ls c -> (forall c, Q c -> P (cl_nodes c i)) -> always P (bus_labels (nt_links n i) nls) (cl_nodes c i)).
Proof.
  induction ls as [|l ls IH]; cbn [cexec]; intros c c' T X.
  - injection X as <- <-. exists []. repeat split; auto. apply H0. apply H.
  - destruct (cstep n l c) as [[c1 e1]|] eqn:C; [|discriminate]. destruct (cexec n ls c1) as [[c2 e2]|] eqn:E; [|discriminate]. injection X as <- <-.
    destruct (IH _ _ _ E) as (nls & A & B & D).
    destruct (cstep_inv _ _ _ _ _ C) as (j & nl & st & evs & N & -> & En & K). rewrite at_node_app.
    destruct (Nat.eq_dec j i) as [->|Ne].
    + assert (cl_nodes c1 i = st) as Ei by (rewrite En; unfold put_node; now rewrite Nat.eqb_refl). rewrite Ei in A, D.
      exists (nl :: nls). split; [|split].
      * cbn [nexec]. rewrite N, A, at_node_same. reflexivity.
      * intros x [I|I]; [|right; auto]. left. destruct K as [(y & -> & -> & _)|(p & k & r & m & rest & _ & -> & _)]; [congruence|discriminate].
      * intros Q W H. cbn [calways] in W. rewrite C in W. destruct W as (W0 & W). destruct (bus_labels_one _ _ _ _ _ N) as (x & Ex & Sx).
        change (nl :: nls) with ([nl] ++ nls). rewrite bus_labels_app, Ex. cbn [app always]. rewrite Sx. split; [auto|]. eapply D; eauto.
    + assert (cl_nodes c1 i = cl_nodes c i) as Ei by (rewrite En; unfold put_node; rewrite (proj2 (Nat.eqb_neq i j)) by auto; reflexivity). rewrite Ei in A, D.
      exists nls. split; [|split].
      * rewrite at_node_other by auto. exact A.
      * intros x I. right. auto.
      * intros Q W H. cbn [calways] in W. rewrite C in W. destruct W as (W0 & W). eapply D; eauto.
Qed.

(** ** Keys: what was accepted, begun, sent, received, with node and root *)

Definition acc_of (e : nevent) : list (nat * nat * pubn) := match e with NEv (EvAccept r f p) => [(r, f, p)] | _ => [] end.
Definition beg_of (e : nevent) : list (nat * pubn) := match e with NEv (EvBegin r p) => [(r, p)] | _ => [] end.
Definition sent_of (e : nevent) : list (nat * role * nat * pubn) := match e with NSent k r root p => [(k, r, root, p)] | _ => [] end.
Definition recv_of (e : nevent) : list (nat * nat * bmsg) := match e with NReceived k _ m f => [(f, k, m)] | _ => [] end.
Definition keys {A} (g : nevent -> list A) (T : list (nat * nevent)) : list (nat * A) := flat_map (fun x => map (pair (fst x)) (g (snd x))) T.

Lemma keys_app {A} (g : nevent -> list A) a b : keys g (a ++ b) = keys g a ++ keys g b.
Proof. apply flat_map_app. Qed.
Lemma keys_same {A} (g : nevent -> list A) i evs : keys g (map (pair i) evs) = map (pair i) (flat_map g evs).
Proof. induction evs; [reflexivity|]. unfold keys in *. cbn. rewrite map_app. congruence. Qed.
Lemma keys_in {A} (g : nevent -> list A) T i a : In (i, a) (keys g T) <-> exists e, In (i, e) T /\ In a (g e).
Proof.
  unfold keys. rewrite in_flat_map. split.
  - intros ((j & e) & I & J). cbn in J. apply in_map_iff in J as (b & E & J). injection E as <- <-. eauto.
  - intros (e & I & J). exists (i, e). split; [exact I|]. cbn. now apply in_map.
Qed.
(** The keys of one node. *)
Lemma keys_filter {A B} (g : nevent -> list A) (f : A -> bool) (h : nevent -> list B) (b : B -> A) i T :
  (forall e, filter f (g e) = map b (h e)) ->
  filter (fun x => Nat.eqb (fst x) i && f (snd x)) (keys g T) = map (fun y => (i, b y)) (flat_map h (at_node i T)).
Proof.
  intros E. induction T as [|(j & e) T IH]; [reflexivity|]. change (keys g ((j, e) :: T)) with (map (pair j) (g e) ++ keys g T).
  change (at_node i ((j, e) :: T)) with ((if Nat.eqb j i then [e] else []) ++ at_node i T). rewrite filter_app', flat_map_app, map_app, IH. f_equal.
  destruct (Nat.eqb_spec j i) as [->|Ne].
  - cbn [flat_map]. rewrite app_nil_r. rewrite <- (map_map b (pair i)), <- E. clear. induction (g e) as [|a l IH]; [reflexivity|]. cbn [map filter fst snd]. rewrite Nat.eqb_refl. cbn [andb]. destruct (f a); cbn [map]; congruence.
  - cbn [flat_map map]. apply Nat.eqb_neq in Ne. induction (g e) as [|a l IH']; [reflexivity|]. cbn [map filter fst snd]. now rewrite Ne.
Qed.

Lemma flat_bus_events {A} (g : event -> list A) (h : nevent -> list A) evs : (forall e, h e = match e with NEv x => g x | _ => [] end) -> flat_map h evs = flat_map g (bus_events evs).
Proof.
  intros E. induction evs as [|e evs IH]; [reflexivity|]. change (e :: evs) with ([e] ++ evs). rewrite bus_events_app, !flat_map_app, IH. f_equal.
  cbn. rewrite E, app_nil_r. destruct e; cbn; rewrite ?app_nil_r; reflexivity.
Qed.

Section Run.
  Variables (n : net) (ls : list clabel) (c : cluster) (T : list (nat * nevent)).
  Hypothesis X : cexec n ls cl_init = Some (c, T).

  Lemma node_run i : exists nls, nexec (nt_links n i) nls init = Some (cl_nodes c i, at_node i T) /\ (forall l, In (NBus l) nls -> In (CBus i l) ls).
  Proof. destruct (cexec_node n i (fun _ => True) _ _ _ _ X) as (nls & A & B & _). eauto. Qed.
  Lemma node_exec i : exists ls', exec ls' init = Some (cl_nodes c i, bus_events (at_node i T)).
  Proof. destruct (node_run i) as (nls & A & _). eexists. eapply nexec_exec; eauto. Qed.

  Lemma begs_nodup : NoDup (keys beg_of T).
  Proof.
    apply nodup_by. intros (i & (r & p)) I. exists (fun x => Nat.eqb (fst x) i && (fun a => Nat.eqb (fst a) r) (snd x)). split; [cbn; now rewrite !Nat.eqb_refl|].
    rewrite (keys_filter beg_of (fun a => Nat.eqb (fst a) r) (fun e => match e with NEv (EvBegin r' p) => if Nat.eqb r' r then [p] else [] | _ => [] end) (pair r)).
    - rewrite (flat_bus_events (fun e => match e with EvBegin r' p => if Nat.eqb r' r then [p] else [] | _ => [] end)) by (intros [[]| |]; reflexivity).
      apply FinFun.Injective_map_NoDup; [intros a b E; now injection E|]. destruct (node_exec i) as (ls' & XE). eapply begun_nodup; eauto.
    - intros [[]| |]; try reflexivity. cbn. match goal with |- context [Nat.eqb ?a r] => destruct (Nat.eqb_spec a r) as [->|]; reflexivity end.
  Qed.

  Definition acc_key (x : nat * (nat * nat * pubn)) : nat * (nat * pubn) := (fst x, (fst (fst (snd x)), snd (snd x))).

  Lemma accs_nodup : NoDup (map acc_key (keys acc_of T)).
  Proof.
    assert (map acc_key (keys acc_of T) = keys (fun e => match e with NEv (EvAccept r _ p) => [(r, p)] | _ => [] end) T) as ->.
    { clear. induction T as [|(i & e) l IH]; [reflexivity|]. unfold keys in *. cbn [flat_map fst snd]. rewrite map_app, IH. f_equal. destruct e as [[]| |]; reflexivity. }
    apply nodup_by. intros (i & (r & p)) I. exists (fun x => Nat.eqb (fst x) i && (fun a => Nat.eqb (fst a) r) (snd x)). split; [cbn; now rewrite !Nat.eqb_refl|].
    rewrite (keys_filter _ (fun a => Nat.eqb (fst a) r) (fun e => match e with NEv (EvAccept r' _ p) => if Nat.eqb r' r then [p] else [] | _ => [] end) (pair r)).
    - rewrite (flat_bus_events (fun e => match e with EvAccept r' _ p => if Nat.eqb r' r then [p] else [] | _ => [] end)) by (intros [[]| |]; reflexivity).
      apply FinFun.Injective_map_NoDup; [intros a b E; now injection E|]. destruct (node_exec i) as (ls' & XE). eapply accepted_nodup; eauto.
    - intros [[]| |]; try reflexivity. cbn. match goal with |- context [Nat.eqb ?a r] => destruct (Nat.eqb_spec a r) as [->|]; reflexivity end.
  Qed.

  Lemma beg_in i r p : In (i, (r, p)) (keys beg_of T) <-> In p (begun r (bus_events (at_node i T))).
  Proof.
    rewrite keys_in. unfold begun. rewrite in_flat_map. split.
    - intros (e & I & J). destruct e as [[]| |]; try contradiction. destruct J as [J|[]]. injection J as -> ->. exists (EvBegin r p). rewrite in_bus_events, at_node_in, Nat.eqb_refl. split; [exact I|now left].
    - intros (e & I & J). destruct e; try contradiction. match type of J with In _ (if Nat.eqb ?a r then _ else _) => destruct (Nat.eqb_spec a r) as [->|]; [|contradiction] end. destruct J as [->|[]]. apply in_bus_events, at_node_in in I. eexists. split; [exact I|now left].
  Qed.
  Lemma acc_in i r p : In (i, (r, p)) (map acc_key (keys acc_of T)) <-> In p (accepted r (bus_events (at_node i T))).
  Proof.
    rewrite in_map_iff. unfold accepted. rewrite in_flat_map. split.
    - intros ((j & ((r' & f) & p')) & E & I). injection E as -> -> ->. apply keys_in in I as (e & I & J). destruct e as [[]| |]; try contradiction. destruct J as [J|[]]. injection J as -> -> ->.
      exists (EvAccept r f p). rewrite in_bus_events, at_node_in, Nat.eqb_refl. split; [exact I|now left].
    - intros (e & I & J). destruct e; try contradiction. match type of J with In _ (if Nat.eqb ?a r then _ else _) => destruct (Nat.eqb_spec a r) as [->|]; [|contradiction] end. destruct J as [->|[]]. apply in_bus_events, at_node_in in I.
      exists (i, ((r, i0), p)). split; [reflexivity|]. apply keys_in. eexists. split; [exact I|now left].
  Qed.

  Lemma begs_accs : subm (keys beg_of T) (map acc_key (keys acc_of T)).
  Proof.
    apply subm_nodup; [apply begs_nodup|]. intros (i & (r & p)) I. apply acc_in. apply beg_in in I. destruct (node_exec i) as (ls' & XE). eapply begun_accepted; eauto.
  Qed.

  (** *** Sending *)

  Definition fan (x : nat * (nat * pubn)) : list (nat * (nat * role * nat * pubn)) :=
    let '(i, (root, p)) := x in
    flat_map (fun y => map (fun r => (i, (fst y, r, root, p))) (on_message (snd y) (snd p))) (indexed (nt_links n i)).
  Definition out_of (x : nat * (nat * role * nat * pubn)) : list item :=
    let '(i, (k, r, _, p)) := x in map (fun w => Arrive (fst w) (snd w) (snd p)) (nt_wires n i k r).

  Lemma fan_forward x : flat_map out_of (fan x) = forward n (fst x) (snd (snd (snd x))).
  Proof.
    destruct x as (i & (root & p)). unfold fan, forward. cbn [fst snd]. induction (indexed (nt_links n i)) as [|y l IH]; [reflexivity|]. cbn [flat_map]. rewrite flat_map_app, IH. f_equal.
    induction (on_message (snd y) (snd p)) as [|r q IH']; [reflexivity|]. cbn [map flat_map]. rewrite IH'. reflexivity.
  Qed.
  Lemma in_indexed {A} (l : list A) k a : In (k, a) (indexed l) <-> nth_error l k = Some a.
  Proof.
    unfold indexed. assert (forall m, In (k, a) (combine (seq m (length l)) l) <-> m <= k /\ nth_error l (k - m) = Some a) as G.
    { induction l as [|b l IH]; cbn [length seq combine In]; intros m.
      - split; [intros []|]. intros (_ & E). destruct (k - m); discriminate.
      - rewrite IH. split.
        + intros [E|(L & E)]; [injection E as -> ->; rewrite Nat.sub_diag; auto|]. split; [lia|]. replace (k - m) with (S (k - S m)) by lia. exact E.
        + intros (L & E). destruct (Nat.eq_dec m k) as [->|]; [left; rewrite Nat.sub_diag in E; injection E as ->; reflexivity|right]. split; [lia|]. replace (k - m) with (S (k - S m)) in E by lia. exact E. }
    rewrite G, Nat.sub_0_r. split; [intros (_ & E); exact E|]. intros E. split; [lia|exact E].
  Qed.
  Lemma fan_in i k r root p i' root' p' : In (i, (k, r, root, p)) (fan (i', (root', p'))) <-> i' = i /\ root' = root /\ p' = p /\ exists lk, nth_error (nt_links n i) k = Some lk /\ In r (on_message lk (snd p)).
  Proof.
    unfold fan. rewrite in_flat_map. split.
    - intros ((k' & lk) & I & J). apply in_map_iff in J as (r' & E & J). cbn [fst snd] in *. injection E as -> -> -> -> ->. apply in_indexed in I. eauto 8.
    - intros (-> & -> & -> & lk & N & J). exists (k, lk). rewrite in_indexed. split; [exact N|]. apply in_map_iff. exists r. auto.
  Qed.
  Lemma on_message_nodup lk m : NoDup (on_message lk m).
  Proof. unfold on_message. destruct (sent_by _ _); [constructor|]. destruct (lk_socket lk ServerPub), (lk_socket lk ClientPub); cbn; repeat constructor; cbn; intuition discriminate. Qed.
  Lemma indexed_fst {A} (l : list A) : map fst (indexed l) = seq 0 (length l).
  Proof. unfold indexed. generalize 0. induction l as [|a l IH]; intros m; cbn; [reflexivity|]. now rewrite IH. Qed.
  Lemma fan_nodup x : NoDup (fan x).
  Proof.
    destruct x as (i & (root & p)). unfold fan. apply nodup_flat_map.
    - apply (NoDup_map_inv fst). rewrite indexed_fst. apply seq_NoDup.
    - intros (k & lk). apply FinFun.Injective_map_NoDup; [intros a b E; now injection E|apply on_message_nodup].
    - intros (k & lk) (k' & lk') z Ix Iy I J. apply in_map_iff in I as (r & <- & _). apply in_map_iff in J as (r' & E & _). cbn [fst] in E. injection E as -> _.
      apply in_indexed in Ix, Iy. congruence.
  Qed.

  Lemma sent_in i k r root p : In (i, (k, r, root, p)) (keys sent_of T) <-> In (NSent k r root p) (at_node i T).
  Proof.
    rewrite keys_in, at_node_in. split.
    - intros (e & I & J). destruct e; try contradiction. destruct J as [J|[]]. injection J as -> -> -> ->. exact I.
    - intros I. eexists. split; [exact I|now left].
  Qed.

  Lemma sent_fan i k r root p : In (i, (k, r, root, p)) (keys sent_of T) -> exists x, In x (keys beg_of T) /\ In (i, (k, r, root, p)) (fan x).
  Proof.
    intros I. apply sent_in in I. destruct (node_run i) as (nls & A & _).
    destruct (nexec_at _ _ _ _ _ _ A I) as (ls1 & l & ls2 & s1 & s2 & e1 & e2 & e3 & _ & X1 & N & I2 & X3 & E).
    destruct (sent_inv _ _ _ _ _ _ _ _ _ N I2) as (s & lk & Iv & Nk & Ir).
    exists (i, (root, p)). rewrite fan_in. split; [|eauto 8]. apply beg_in. rewrite E, bus_events_app, begun_app. apply in_app_iff. left.
    destruct (bus_labels_one _ _ _ _ _ N) as (x & _ & Sx). eapply invoke_begun; [eapply nexec_exec; exact X1|exact Sx|apply in_bus_events; exact Iv].
  Qed.

  Hypothesis OWN : own_callbacks n ls.

  Definition same_way (k : nat) (r : role) (root : nat) (a : nat * role * nat * pubn) : bool :=
    match a with (k', r', root', _) => Nat.eqb k' k && role_eqb r' r && Nat.eqb root' root end.
  Lemma sends_nodup : NoDup (keys sent_of T).
  Proof.
    apply nodup_by. intros (i & (((k & r) & root) & p)) I.
    exists (fun x => Nat.eqb (fst x) i && same_way k r root (snd x)). split.
    { unfold same_way. cbn. rewrite !Nat.eqb_refl. destruct r; reflexivity. }
    rewrite (keys_filter sent_of (same_way k r root) (fun e => match e with NSent k' r' root' p => if Nat.eqb k' k && role_eqb r' r && Nat.eqb root' root then [p] else [] | _ => [] end) (pair (k, r, root))).
    - apply FinFun.Injective_map_NoDup; [intros a b E; now injection E|]. destruct (node_run i) as (nls & A & B).
      apply sent_fan in I as ((i' & (root' & p')) & _ & I). apply fan_in in I as (_ & _ & _ & lk & Nk & _). destruct (OWN _ _ _ Nk) as (s & O).
      eapply (C59_once _ _ _ _ _ _ r root s A Nk). intros s' J. apply O, B, J.
    - intros [| |]; try reflexivity. cbn. destruct (Nat.eqb_spec k0 k) as [->|]; [|reflexivity]. destruct (role_eqb_spec r0 r) as [->|]; [|reflexivity]. destruct (Nat.eqb_spec root0 root) as [->|]; reflexivity.
  Qed.

  Lemma sends_fan : subm (keys sent_of T) (flat_map fan (keys beg_of T)).
  Proof. apply subm_nodup; [apply sends_nodup|]. intros (i & (((k & r) & root) & p)) I. apply in_flat_map. apply sent_fan in I. exact I. Qed.
  Lemma fan_all_nodup : NoDup (flat_map fan (keys beg_of T)).
  Proof.
    apply nodup_flat_map; [apply begs_nodup|apply fan_nodup|]. intros (i & (root & p)) (i' & (root' & p')) (j & (((k & r) & q) & s)) _ _ I J.
    apply fan_in in I as (-> & -> & -> & _). apply fan_in in J as (-> & -> & -> & _). reflexivity.
  Qed.

  Lemma distributed_app a b : distributed (a ++ b) = distributed a ++ distributed b.
  Proof. apply flat_map_app. Qed.
  Lemma fan_all_forward : flat_map out_of (flat_map fan (keys beg_of T)) = flat_map (fun x => forward n (fst x) (snd x)) (distributed T).
  Proof.
    clear. induction T as [|(i & e) l IH]; [reflexivity|]. change (keys beg_of ((i, e) :: l)) with (map (pair i) (beg_of e) ++ keys beg_of l).
    change (distributed ((i, e) :: l)) with (distributed ([(i, e)] ++ l)). rewrite distributed_app, !flat_map_app, IH. f_equal.
    destruct e as [[]| |]; try reflexivity. cbn [beg_of map flat_map distributed app fst snd]. rewrite !app_nil_r. apply fan_forward.
  Qed.

  (** *** On the way *)

  Definition arrival (x : parcel) : item := let '(i, k, _, m) := x in Arrive i k m.
  Definition got_of (x : nat * (nat * nat * bmsg)) : item := let '(i, (_, k, m)) := x in Arrive i k m.

End Run.

Lemma outgoing_items n i evs : map arrival (flat_map (outgoing n i) evs) = flat_map (out_of n) (keys sent_of (map (pair i) evs)).
Proof.
  rewrite keys_same. induction evs as [|e evs IH]; [reflexivity|]. cbn [flat_map]. rewrite !map_app, flat_map_app, IH. f_equal.
  destruct e; try reflexivity. cbn. rewrite map_map, app_nil_r. reflexivity.
Qed.

Lemma observe_recv ks es : flat_map recv_of (observe ks es) = [].
Proof.
  induction es as [|e es IH]; [reflexivity|]. unfold observe in *. cbn [flat_map]. rewrite <- app_comm_cons. cbn [flat_map recv_of app]. rewrite flat_map_app, IH, app_nil_r.
  destruct e; try reflexivity. destruct c; try reflexivity. cbn [transmit]. induction (indexed ks) as [|x l IH']; [reflexivity|]. cbn [flat_map]. rewrite flat_map_app, IH', app_nil_r.
  destruct (Nat.eqb _ _); [|reflexivity]. induction (on_message (snd x) m0); auto.
Qed.
Lemma nstep_recv ks l st st' evs : nstep ks l st = Some (st', evs) ->
  flat_map recv_of evs = match l with NBus _ => [] | NReceive k r m => [(length (s_flights st), k, m)] end.
Proof.
  intros N. destruct l as [x|k r m]; cbn [nstep] in N.
  - destruct (step x st) as [[s e]|]; [|discriminate]. injection N as <- <-. apply observe_recv.
  - destruct (nth_error ks k) as [lk|]; [|discriminate]. destruct (lk_socket lk (sub_socket r)); [|discriminate]. destruct (step _ st) as [[s e]|]; [|discriminate]. injection N as <- <-.
    cbn [flat_map recv_of app]. now rewrite observe_recv.
Qed.

Lemma wire_account n ls : forall c c' T, cexec n ls c = Some (c', T) ->
  Permutation (map arrival (cl_wire c') ++ map got_of (keys recv_of T)) (map arrival (cl_wire c) ++ flat_map (out_of n) (keys sent_of T)).
Proof.
  induction ls as [|l ls IH]; cbn [cexec]; intros c c' T X; [injection X as <- <-; reflexivity|].
  destruct (cstep n l c) as [[c1 e1]|] eqn:C; [|discriminate]. destruct (cexec n ls c1) as [[c2 e2]|] eqn:E; [|discriminate]. injection X as <- <-.
  specialize (IH _ _ _ E). rewrite !keys_app, map_app, flat_map_app.
  assert (Permutation (map arrival (cl_wire c1) ++ map got_of (keys recv_of e1)) (map arrival (cl_wire c) ++ flat_map (out_of n) (keys sent_of e1))) as S.
  { destruct (cstep_inv _ _ _ _ _ C) as (i & nl & st & evs & N & -> & En & K). rewrite (keys_same recv_of), (nstep_recv _ _ _ _ _ N), <- outgoing_items.
    destruct K as [(y & -> & -> & ->)|(p & k & r & m & rest & _ & -> & Tk & ->)].
    - cbn [map]. rewrite app_nil_r, map_app. reflexivity.
    - apply take_perm in Tk. rewrite (Permutation_map arrival Tk), map_app. cbn [map arrival got_of]. rewrite <- app_comm_cons. symmetry. apply Permutation_cons_append. }
  rewrite (Permutation_app_comm (map got_of (keys recv_of e1))), app_assoc, IH, <- app_assoc, (Permutation_app_comm _ (map got_of (keys recv_of e1))), app_assoc, S, <- app_assoc. reflexivity.
Qed.

(** ** What links published *)

Lemma nstep_grow ks l st st' evs : nstep ks l st = Some (st', evs) ->
  length (s_flights st) <= length (s_flights st') /\ forall k r m f, In (NReceived k r m f) evs -> f = length (s_flights st) /\ f < length (s_flights st').
Proof.
  intros N. destruct (bus_labels_one _ _ _ _ _ N) as (x & _ & Sx). split; [eapply flights_grow; eauto|]. intros k r m f I.
  destruct (received_inv _ _ _ _ _ _ _ _ _ N I) as (-> & -> & lk & Nk & Sk). split; [reflexivity|].
  cbn [nstep] in N. rewrite Nk, Sk in N. destruct (step _ st) as [[s1 e1]|] eqn:S; [|discriminate]. injection N as <- _.
  cbn [step] in S. destruct (get_bus st (lk_bus lk)) as [xb|] eqn:Gb; [|discriminate]. destruct (test_bus_fn _ _ _) as [[]]; injection S as <- _; cbn; rewrite app_length; cbn; lia.
Qed.

Lemma recv_range ks ls : forall st st' evs, nexec ks ls st = Some (st', evs) ->
  length (s_flights st) <= length (s_flights st') /\ (forall k r m f, In (NReceived k r m f) evs -> length (s_flights st) <= f < length (s_flights st')) /\
  NoDup (map (fun x => fst (fst x)) (flat_map recv_of evs)).
Proof.
  induction ls as [|l ls IH]; cbn [nexec]; intros st st' evs X; [injection X as <- <-; repeat split; auto; try contradiction; constructor|].
  destruct (nstep ks l st) as [[s1 e1]|] eqn:N; [|discriminate]. destruct (nexec ks ls s1) as [[s2 e2]|] eqn:E; [|discriminate]. injection X as <- <-.
  destruct (IH _ _ _ E) as (A & B & C). destruct (nstep_grow _ _ _ _ _ N) as (A' & B'). split; [lia|]. split.
  - intros k r m f I. apply in_app_iff in I as [I|I]; [destruct (B' _ _ _ _ I); lia|destruct (B _ _ _ _ I); lia].
  - rewrite flat_map_app, map_app, (nstep_recv _ _ _ _ _ N). destruct l as [x|k r m]; [exact C|]. cbn [map app fst]. constructor; [|exact C].
    intros I. apply in_map_iff in I as (((f & k') & m') & Ef & I). cbn in Ef. subst f. apply in_flat_map in I as (e & I & J). destruct e; try contradiction. destruct J as [J|[]]. injection J as -> -> ->.
    destruct (B _ _ _ _ I). assert (In (NReceived k r m (length (s_flights st))) e1) as I1; [|destruct (B' _ _ _ _ I1); lia].
    cbn [nstep] in N. destruct (nth_error ks k) as [lk|]; [|discriminate]. destruct (lk_socket lk (sub_socket r)); [|discriminate]. destruct (step _ st) as [[s3 e3]|]; [|discriminate]. injection N as <- <-. now left.
Qed.

Definition origins (T : list (nat * nevent)) (i f : nat) : list (nat * bmsg) :=
  flat_map (fun x => match x with (j, NReceived k _ m g) => if Nat.eqb j i && Nat.eqb g f then [(k, m)] else [] | _ => [] end) T.
Definition org (T : list (nat * nevent)) (i f : nat) : option (nat * bmsg) := hd_error (origins T i f).

Lemma foreign_org T i f : foreign T i f = match org T i f with Some _ => true | None => false end.
Proof.
  unfold org. induction T as [|(j & e) T IH]; [reflexivity|]. unfold foreign, origins in *. cbn [existsb flat_map]. destruct e; try exact IH.
  destruct (Nat.eqb j i && Nat.eqb i0 f); [reflexivity|exact IH].
Qed.
Lemma org_in T i f k m : org T i f = Some (k, m) -> exists r, In (i, NReceived k r m f) T.
Proof.
  unfold org. intros E. assert (In (k, m) (origins T i f)) as I by (destruct (origins T i f); [discriminate|injection E as ->; now left]).
  unfold origins in I. apply in_flat_map in I as ((j & e) & I & J). destruct e as [| |k' r' m' g]; try contradiction. destruct (Nat.eqb_spec j i) as [->|]; [|contradiction].
  destruct (Nat.eqb_spec g f) as [->|]; [|contradiction]. destruct J as [J|[]]. injection J as -> ->. eauto.
Qed.
Lemma in_org T i f k r m : In (i, NReceived k r m f) T -> org T i f <> None.
Proof.
  intros I. assert (In (k, m) (origins T i f)) as J. { unfold origins. apply in_flat_map. eexists. split; [exact I|]. cbn. rewrite !Nat.eqb_refl. now left. }
  unfold org. destruct (origins T i f); [destruct J|discriminate].
Qed.

Definition taken_of (O : nat -> nat -> option (nat * bmsg)) (x : nat * (nat * nat * pubn)) : list (nat * (nat * nat * bmsg)) :=
  let '(i, (_, f, _)) := x in match O i f with Some (k, m) => [(i, (f, k, m))] | None => [] end.
Definition own_of (O : nat -> nat -> option (nat * bmsg)) (x : nat * (nat * nat * pubn)) : list delivery :=
  let '(i, (_, f, p)) := x in match O i f with Some _ => [] | None => [(i, snd p)] end.

Lemma local_own T : local T = flat_map (own_of (org T)) (keys acc_of T).
Proof.
  unfold local. assert (forall O : nat -> nat -> option (nat * bmsg), (forall i f, foreign T i f = match O i f with Some _ => true | None => false end) -> forall l : list (nat * nevent),
    flat_map (fun x => match x with (i, NEv (EvAccept _ f p)) => if foreign T i f then [] else [(i, snd p)] | _ => [] end) l = flat_map (own_of O) (keys acc_of l)) as G.
  { intros O E l. induction l as [|(i & e) l IH]; [reflexivity|]. change (keys acc_of ((i, e) :: l)) with (map (pair i) (acc_of e) ++ keys acc_of l). rewrite flat_map_app. cbn [flat_map]. rewrite IH. f_equal.
    destruct e as [[]| |]; try reflexivity. cbn. rewrite E, app_nil_r. destruct (O i i0); reflexivity. }
  apply G. apply foreign_org.
Qed.
Lemma distributed_keys T : distributed T = map (fun x => (fst x, snd (snd (snd x)))) (keys beg_of T).
Proof. induction T as [|(i & e) T IH]; [reflexivity|]. unfold distributed, keys in *. cbn [flat_map]. rewrite map_app, IH. f_equal. destruct e as [[]| |]; reflexivity. Qed.
Lemma acc_key_in T i r f p : In (i, (r, f, p)) (keys acc_of T) <-> In (i, NEv (EvAccept r f p)) T.
Proof.
  rewrite keys_in. split; [|intros I; eexists; split; [exact I|now left]]. intros (e & I & J). destruct e as [[]| |]; try contradiction. destruct J as [J|[]]. injection J as -> -> ->. exact I.
Qed.
Lemma recv_key_in T i f k m : In (i, (f, k, m)) (keys recv_of T) <-> exists r, In (i, NReceived k r m f) T.
Proof.
  rewrite keys_in. split; [|intros (r & I); eexists; split; [exact I|now left]]. intros (e & I & J). destruct e; try contradiction. destruct J as [J|[]]. injection J as -> -> ->. eauto.
Qed.

Lemma taken_nodup n ls c T O : cexec n ls cl_init = Some (c, T) -> NoDup (flat_map (taken_of O) (keys acc_of T)).
Proof.
  intros X. apply nodup_by. intros (i & ((f & k) & m)) _. exists (fun x => Nat.eqb (fst x) i && Nat.eqb (fst (fst (snd x))) f). split; [cbn; now rewrite !Nat.eqb_refl|].
  apply nodup_short. destruct (node_exec _ _ _ _ X i) as (ls' & XE). pose proof (accepts_once _ _ _ f XE) as L.
  refine (Nat.le_trans _ _ _ _ L). clear. unfold bus_events, at_node.
  induction T as [|(j & e) T IH]; [cbn; lia|]. change (keys acc_of ((j, e) :: T)) with (map (pair j) (acc_of e) ++ keys acc_of T). rewrite flat_map_app, filter_app', app_length.
  cbn [flat_map fst snd]. rewrite flat_map_app, accepts_of_app, app_length. apply Nat.add_le_mono; [|exact IH].
  destruct e as [[]| |]; cbn [acc_of map flat_map filter length]; try lia. cbn [taken_of]. destruct (O j i0) as [[k1 m1]|]; [|cbn; lia]. cbn [app filter fst snd].
  destruct (Nat.eqb_spec j i) as [->|]; [|cbn; lia]. cbn [andb flat_map accepts_of app]. destruct (Nat.eqb i0 f); cbn; lia.
Qed.

Lemma taken_recv n ls1 c1 T1 ls2 c T2 : cexec n ls1 cl_init = Some (c1, T1) -> cexec n ls2 c1 = Some (c, T2) ->
  subm (flat_map (taken_of (org (T1 ++ T2))) (keys acc_of T1)) (keys recv_of T1).
Proof.
  intros X1 X2. apply subm_nodup; [eapply taken_nodup; eauto|]. intros (i & ((f & k) & m)) I.
  apply in_flat_map in I as ((j & ((r & g) & p)) & I & J). cbn [taken_of] in J. destruct (org (T1 ++ T2) j g) as [[k' m']|] eqn:O; [|destruct J]. destruct J as [J|[]]. injection J as -> -> -> ->.
  apply acc_key_in in I. destruct (org_in _ _ _ _ _ O) as (rl & R). apply recv_key_in. exists rl. apply in_app_iff in R as [R|R]; [exact R|exfalso].
  destruct (node_exec _ _ _ _ X1 i) as (ls' & XE).
  assert (f < length (s_flights (cl_nodes c1 i))) as L1 by (eapply accept_range; [exact XE|apply in_bus_events, at_node_in; exact I]).
  destruct (cexec_node n i (fun _ => True) _ _ _ _ X2) as (nls & A & _). destruct (recv_range _ _ _ _ _ A) as (_ & B & _).
  destruct (B k rl m f) as (L2 & _); [apply at_node_in; exact R|lia].
Qed.

Lemma recv_mark n ls c T i r f p k m : cexec n ls cl_init = Some (c, T) -> In (i, NEv (EvAccept r f p)) T -> org T i f = Some (k, m) ->
  exists lk, nth_error (nt_links n i) k = Some lk /\ snd p = on_receive lk m.
Proof.
  intros X I O. destruct (org_in _ _ _ _ _ O) as (rl & R). destruct (node_run _ _ _ _ X i) as (nls & A & _). apply at_node_in in I, R.
  destruct (nexec_at _ _ _ _ _ _ A R) as (? & l & ? & s1 & s2 & ? & e2 & ? & _ & _ & N & I2 & _). destruct (received_inv _ _ _ _ _ _ _ _ _ N I2) as (_ & _ & lk & Nk & _).
  exists lk. split; [exact Nk|]. destruct p as (q & m1). apply (C59_marked _ _ _ _ _ _ _ _ _ _ _ _ A Nk R I).
Qed.

(** ** Steps *)

Lemma observe_acc ks es : flat_map acc_of (observe ks es) = flat_map (fun e => acc_of (NEv e)) es.
Proof. rewrite (flat_bus_events (fun e => acc_of (NEv e))) by (intros [| |]; reflexivity). now rewrite observe_bus. Qed.

Lemma all_empty {A} (l : list A) : (forall x, ~ In x l) -> l = [].
Proof. destruct l as [|a l]; [reflexivity|]. intros H. destruct (H a). now left. Qed.

Lemma step_kind l st st' es : step l st = Some (st', es) ->
  let a := flat_map (fun e => acc_of (NEv e)) es in let b := flat_map (fun e => beg_of (NEv e)) es in
  (a = [] /\ b = []) \/ (exists x, a = [x] /\ b = []) \/ (exists x, a = [] /\ b = [x]).
Proof.
  intros H. cbn zeta.
  assert ((forall i, l <> LFly i) -> flat_map (fun e => acc_of (NEv e)) es = []) as NA.
  { intros N. apply all_empty. intros ((r & f) & p) I. apply in_flat_map in I as (e & I & J). destruct e; try contradiction. destruct J as [J|[]]. injection J as -> -> ->.
    destruct (accept_inv _ _ _ _ _ _ _ H I) as (E & _). destruct (N _ E). }
  assert ((forall r, ~ runner_label l r) -> flat_map (fun e => beg_of (NEv e)) es = []) as NB.
  { intros N. apply all_empty. intros (r & p) I. apply in_flat_map in I as (e & I & J). destruct e; try contradiction. destruct J as [J|[]]. injection J as -> ->.
    assert (about r (EvBegin r p) = true) as Ab by (simpl; apply Nat.eqb_refl). rewrite (other_events _ _ _ _ _ _ H (N r) I) in Ab. discriminate. }
  assert (forall r, runner_label l r -> (exists x, flat_map (fun e => beg_of (NEv e)) es = [x]) \/ flat_map (fun e => beg_of (NEv e)) es = []) as RB.
  { intros r RL. destruct (run_inv' _ _ _ _ _ H RL) as (x & rn & act & G & RC & _). inversion RC; subst es; try (right; reflexivity); try (left; eexists; reflexivity).
    - right. change (EvReceive r b s m :: map (EvLost r) (m :: rest) ++ [EvStop r (Some e)]) with ([EvReceive r b s m] ++ map (EvLost r) (m :: rest) ++ [EvStop r (Some e)]). rewrite !flat_map_app, flat_lost; auto.
    - right. rewrite flat_map_app, flat_lost; auto. }
  destruct l; try (left; split; [apply NA; discriminate|apply NB; intros r0 K; exact K]; fail).
  all: try (match goal with |- context [NEv] => idtac end;
    match type of RB with forall r, runner_label ?L r -> _ => match L with
      | LFly _ => fail 1
      | _ => destruct (RB _ eq_refl) as [(x & E)|E]; [right; right; exists x|left]; (split; [apply NA; discriminate|exact E]) end end; fail).
  destruct (fly_inv _ _ _ _ H) as [(p & d & xp & y & m & N & Np & F & Gy & Em & [(Fn & -> & ->)|(Fn & -> & ->)])|[(p & d & xp & N & Np & F & -> & ->)|(b & m & y & N & Gy & [(Fn & -> & ->)|[(f & Fn & -> & ->)|[(r0 & z & Fn & Gz & -> & ->)|(r0 & Fn & Gz & -> & ->)]]])]];
    try (left; split; reflexivity). right; left. eexists. split; reflexivity.
Qed.

Lemma nstep_kind ks l st st' evs : nstep ks l st = Some (st', evs) ->
  (flat_map acc_of evs = [] /\ flat_map beg_of evs = []) \/ (exists x, flat_map acc_of evs = [x] /\ flat_map beg_of evs = []) \/ (exists x, flat_map acc_of evs = [] /\ flat_map beg_of evs = [x]).
Proof.
  intros N. destruct (bus_labels_one _ _ _ _ _ N) as (x & _ & Sx). apply step_kind in Sx. cbn zeta in Sx.
  rewrite (flat_bus_events (fun e => acc_of (NEv e)) acc_of) by (intros [| |]; reflexivity). rewrite (flat_bus_events (fun e => beg_of (NEv e)) beg_of) by (intros [| |]; reflexivity). exact Sx.
Qed.

(** ** The messages as NetModel has them *)

Definition as_dist (x : nat * (nat * pubn)) : item := Dist (fst x) (snd (snd (snd x))).

Lemma take_in {A} (x : A) l : In x l -> exists p rest, take p l = Some (x, rest).
Proof.
  induction l as [|y l IH]; intros I; [destruct I|]. destruct I as [->|I]; [exists 0, l; reflexivity|].
  destruct (IH I) as (p & rest & E). exists (S p), (y :: rest). cbn. now rewrite E.
Qed.
Lemma wexec_app n a b s : wexec n (a ++ b) s = match wexec n a s with Some s' => wexec n b s' | None => None end.
Proof. revert s. induction a as [|l a IH]; intros s; [reflexivity|]. cbn. destruct (wstep n l s); auto. Qed.
Lemma published_app a b : published (a ++ b) = published a ++ published b.
Proof. apply flat_map_app. Qed.

Lemma simulation n O ls : forall c T, cexec n ls cl_init = Some (c, T) ->
  (forall i r f p k m, In (i, NEv (EvAccept r f p)) T -> O i f = Some (k, m) -> exists lk, nth_error (nt_links n i) k = Some lk /\ snd p = on_receive lk m) ->
  (forall ls1 ls2 c1 T1, ls = ls1 ++ ls2 -> cexec n ls1 cl_init = Some (c1, T1) ->
     subm (map got_of (flat_map (taken_of O) (keys acc_of T1))) (flat_map (fun x => forward n (fst x) (snd x)) (distributed T1))) ->
  exists ws D Q pend, wexec n ws ([], []) = Some (pend, distributed T) /\ published ws = flat_map (own_of O) (keys acc_of T) /\
    Permutation pend (map as_dist D ++ Q) /\ Permutation (D ++ keys beg_of T) (map acc_key (keys acc_of T)) /\
    Permutation (Q ++ map got_of (flat_map (taken_of O) (keys acc_of T))) (flat_map (fun x => forward n (fst x) (snd x)) (distributed T)).
Proof.
  induction ls as [|l ls IH] using rev_ind; intros c T X M S.
  - injection X as <- <-. exists [], [], [], []. repeat split; reflexivity.
  - pose proof (begs_accs _ _ _ _ X) as SB. assert (subm (map got_of (flat_map (taken_of O) (keys acc_of T))) (flat_map (fun x => forward n (fst x) (snd x)) (distributed T))) as SC by (eapply (S (ls ++ [l]) []); [now rewrite app_nil_r|exact X]).
    rewrite cexec_app in X. destruct (cexec n ls cl_init) as [[c1 T1]|] eqn:X1; [|discriminate]. cbn [cexec] in X.
    destruct (cstep n l c1) as [[c2 e]|] eqn:C; [|discriminate]. rewrite app_nil_r in X. injection X as <- <-.
    destruct (IH _ _ eq_refl) as (ws & D & Q & pend & W & Pb & Pp & Pd & Pq).
    { intros i r f p k m I. apply M with (r := r). apply in_app_iff. auto. }
    { intros ls1 ls2 c3 T3 -> X3. eapply (S ls1 (ls2 ++ [l])); [now rewrite app_assoc|exact X3]. }
    destruct (cstep_inv _ _ _ _ _ C) as (i & nl & st & evs & N & -> & _ & _).
    rewrite distributed_app, !distributed_keys in *. rewrite !keys_app, !keys_same, !map_app, !flat_map_app, !map_app in *.
    destruct (nstep_kind _ _ _ _ _ N) as [(Ea & Eb)|[(((r & f) & p) & Ea & Eb)|((r & p) & Ea & Eb)]]; rewrite Ea, Eb in *; cbn [map flat_map app] in *; rewrite ?app_nil_r in *.
    + exists ws, D, Q, pend. auto.
    + assert (In (i, NEv (EvAccept r f p)) (T1 ++ map (pair i) evs)) as I.
      { apply in_app_iff. right. apply in_map. assert (In (r, f, p) (flat_map acc_of evs)) as J by (rewrite Ea; now left). apply in_flat_map in J as (e & J & K). destruct e as [[]| |]; try contradiction. destruct K as [K|[]]. injection K as -> -> ->. exact J. }
      cbn [taken_of own_of] in *. destruct (O i f) as [[k m]|] eqn:Oi.
      * destruct (M _ _ _ _ _ _ I Oi) as (lk & Nk & Em). cbn [map got_of] in *. destruct (subm_next _ _ _ _ Pq SC) as (Q' & P1 & P2).
        assert (In (Arrive i k m) pend) as J by (eapply Permutation_in; [symmetry; exact Pp|]; apply in_app_iff; right; eapply Permutation_in; [symmetry; exact P1|now left]).
        destruct (take_in _ _ J) as (q & rest & Tq). pose proof (take_perm _ _ _ _ Tq) as Pt.
        exists (ws ++ [WTake q]), (D ++ [(i, (r, p))]), Q', (rest ++ [Dist i (snd p)]). split; [|split; [|split; [|split]]].
        -- rewrite wexec_app, W. cbn [wexec wstep fst snd]. rewrite Tq. cbn [process]. rewrite Nk, Em, app_nil_r. reflexivity.
        -- rewrite published_app, app_nil_r. cbn. rewrite app_nil_r. exact Pb.
        -- rewrite map_app. cbn [map as_dist fst snd]. rewrite <- app_assoc. cbn [app].
           assert (Permutation rest (map as_dist D ++ Q')) as Pr.
           { apply (Permutation_cons_inv (a := Arrive i k m)). rewrite <- Pt, Pp, P1. symmetry. apply Permutation_middle. }
           rewrite Pr. rewrite <- app_assoc. apply Permutation_app_head. symmetry. apply Permutation_cons_append.
        -- cbn [acc_key fst snd]. rewrite <- Pd. rewrite <- !app_assoc. apply Permutation_app_head. apply Permutation_app_comm.
        -- exact P2.
      * exists (ws ++ [WPublish i (snd p)]), (D ++ [(i, (r, p))]), Q, (pend ++ [Dist i (snd p)]). split; [|split; [|split; [|split]]].
        -- rewrite wexec_app, W. reflexivity.
        -- rewrite published_app, Pb. reflexivity.
        -- rewrite Pp, map_app. cbn [map as_dist fst snd]. rewrite <- !app_assoc. apply Permutation_app_head. apply Permutation_app_comm.
        -- cbn [acc_key fst snd]. rewrite <- Pd. rewrite <- !app_assoc. apply Permutation_app_head. apply Permutation_app_comm.
        -- cbn [map]. rewrite app_nil_r. exact Pq.
    + destruct (subm_next _ _ _ _ Pd SB) as (D' & P1 & P2).
      assert (In (Dist i (snd p)) pend) as J by (eapply Permutation_in; [symmetry; exact Pp|]; apply in_app_iff; left; apply in_map_iff; exists (i, (r, p)); split; [reflexivity|]; eapply Permutation_in; [symmetry; exact P1|now left]).
      destruct (take_in _ _ J) as (q & rest & Tq). pose proof (take_perm _ _ _ _ Tq) as Pt.
      exists (ws ++ [WTake q]), D', (Q ++ forward n i (snd p)), (rest ++ forward n i (snd p)). split; [|split; [|split; [|split]]].
      * rewrite wexec_app, W. cbn [wexec wstep fst snd]. rewrite Tq. cbn [process]. reflexivity.
      * rewrite published_app. cbn. rewrite app_nil_r. exact Pb.
      * rewrite app_assoc. apply Permutation_app_tail. apply (Permutation_cons_inv (a := Dist i (snd p))). rewrite <- Pt, Pp, P1. reflexivity.
      * exact P2.
      * cbn [fst snd]. rewrite <- Pq. rewrite <- !app_assoc. apply Permutation_app_head. apply Permutation_app_comm.
Qed.

(** ** Every execution *)

Lemma own_prefix n a b : own_callbacks n (a ++ b) -> own_callbacks n a.
Proof. intros O i k lk N. destruct (O _ _ _ N) as (s & H). exists s. intros s' I. apply H, in_app_iff. auto. Qed.

Lemma got_forward n ls c T : cexec n ls cl_init = Some (c, T) -> own_callbacks n ls ->
  subm (map got_of (keys recv_of T)) (flat_map (fun x => forward n (fst x) (snd x)) (distributed T)).
Proof.
  intros X O. eapply subm_trans; [eapply subm_part; apply (wire_account _ _ _ _ _ X)|]. cbn [cl_init cl_wire map app]. rewrite <- fan_all_forward.
  apply subm_flat_map. eapply sends_fan; eauto.
Qed.

Lemma taken_forward n ls1 c1 T1 ls2 c T2 : cexec n ls1 cl_init = Some (c1, T1) -> cexec n ls2 c1 = Some (c, T2) -> own_callbacks n ls1 ->
  subm (map got_of (flat_map (taken_of (org (T1 ++ T2))) (keys acc_of T1))) (flat_map (fun x => forward n (fst x) (snd x)) (distributed T1)).
Proof. intros X1 X2 O. eapply subm_trans; [apply subm_map; eapply taken_recv; eauto|]. eapply got_forward; eauto. Qed.

Lemma refines n ls c T : cexec n ls cl_init = Some (c, T) -> own_callbacks n ls ->
  exists ws D Q pend, wexec n ws ([], []) = Some (pend, distributed T) /\ published ws = local T /\
    Permutation pend (map as_dist D ++ Q) /\ Permutation (D ++ keys beg_of T) (map acc_key (keys acc_of T)) /\
    Permutation (Q ++ map got_of (flat_map (taken_of (org T)) (keys acc_of T))) (flat_map (fun x => forward n (fst x) (snd x)) (distributed T)).
Proof.
  intros X O. rewrite local_own. apply (simulation n (org T) ls c T X).
  - intros i r f p k m I Oi. eapply recv_mark; eauto.
  - intros ls1 ls2 c1 T1 -> X1. rewrite cexec_app, X1 in X. destruct (cexec n ls2 c1) as [[c2 T2]|] eqn:X2; [|discriminate]. injection X as _ <-.
    eapply taken_forward; eauto. eapply own_prefix; eauto.
Qed.

(** ** Executions that come to rest *)

Lemma fly_lands ls : forall st st' tr b r f m, reach st -> exec ls st = Some (st', tr) ->
  always (fun s => exists x, get_bus s b = Some x /\ b_fn x = Some (ToQueue r)) ls st ->
  nth_error (s_flights st) f = Some (FlyBus b m) -> nth_error (s_flights st') f = Some FlyDone -> exists p, In (EvAccept r f p) tr.
Proof.
  induction ls as [|l ls IH]; cbn [exec]; intros st st' tr b r f m Rc X A N N'; [injection X as <- <-; congruence|].
  destruct (step l st) as [[s1 e1]|] eqn:S; [|discriminate]. destruct (exec ls s1) as [[s2 e2]|] eqn:E; [|discriminate]. injection X as <- <-.
  cbn [always] in A. rewrite S in A. destruct A as ((x & G & F) & A).
  destruct (step_flight _ _ _ _ _ _ S N) as [->|(N1 & _)].
  - destruct (fly_inv _ _ _ _ S) as [(p0 & d & xp & y & m0 & N0 & _)|[(p0 & d & xp & N0 & _)|(b0 & m0 & y & N0 & Gy & K)]]; try congruence.
    rewrite N in N0. injection N0 as <- <-. rewrite G in Gy. injection Gy as <-.
    destruct K as [(Fn & _)|[(g & Fn & _)|[(r0 & z & Fn & Gz & _ & ->)|(r0 & Fn & Gz & _)]]]; try congruence.
    + assert (r0 = r) as -> by congruence. eexists. apply in_app_iff. left. now left.
    + exfalso. destruct (t_target _ (reach_tree _ Rc) _ _ _ G Fn) as (_ & z & Gz' & _). congruence.
  - destruct (IH _ _ _ _ _ _ _ (reach_step _ _ _ _ Rc S) E A N1 N') as (p & I). exists p. apply in_app_iff. auto.
Qed.

Lemma recv_lands ks root k lk r m f nls : forall st st' evs, reach st -> nexec ks nls st = Some (st', evs) -> nth_error ks k = Some lk ->
  always (fun s => exists x, get_bus s (lk_bus lk) = Some x /\ b_fn x = Some (ToQueue root)) (bus_labels ks nls) st ->
  (forall g x, nth_error (s_flights st') g = Some x -> x = FlyDone) ->
  In (NReceived k r m f) evs -> exists p, In (NEv (EvAccept root f p)) evs.
Proof.
  induction nls as [|l nls IH]; cbn [nexec]; intros st st' evs Rc X Nk A Dn I; [injection X as <- <-; destruct I|].
  destruct (nstep ks l st) as [[s1 e1]|] eqn:N; [|discriminate]. destruct (nexec ks nls s1) as [[s2 e2]|] eqn:E; [|discriminate]. injection X as <- <-.
  destruct (bus_labels_one _ _ _ _ _ N) as (x & Ex & Sx). change (l :: nls) with ([l] ++ nls) in A. rewrite bus_labels_app, Ex in A. cbn [app always] in A. rewrite Sx in A. destruct A as (A0 & A).
  assert (reach s1) as Rc1 by (eapply reach_step; eauto).
  apply in_app_iff in I as [I|I].
  - destruct (received_inv _ _ _ _ _ _ _ _ _ N I) as (-> & -> & lk' & Nk' & Sk). assert (lk' = lk) as -> by congruence.
    cbn [nstep] in N. rewrite Nk, Sk in N. destruct (step _ st) as [[s3 e3]|] eqn:S; [|discriminate]. injection N as <- <-.
    destruct A0 as (y & G & F). cbn [step] in S. rewrite G in S. unfold test_bus_fn in S. rewrite G, F in S. injection S as <- <-.
    assert (nth_error (s_flights (set_flights (s_flights st ++ [FlyBus (lk_bus lk) (on_receive lk m)]) st)) (length (s_flights st)) = Some (FlyBus (lk_bus lk) (on_receive lk m))) as Nf.
    { cbn. rewrite nth_error_app2, Nat.sub_diag; auto. }
    destruct (recv_range _ _ _ _ _ E) as (L & _).
    assert (exists z, nth_error (s_flights s2) (length (s_flights st)) = Some z) as (z & Nz).
    { destruct (nth_error (s_flights s2) (length (s_flights st))) eqn:Q; [eauto|]. apply nth_error_None in Q. cbn in L. rewrite app_length in L. cbn in L. lia. }
    pose proof (Dn _ _ Nz) as ->.
    destruct (fly_lands _ _ _ _ _ root _ _ Rc1 (nexec_exec _ _ _ _ _ E) A Nf Nz) as (p & I2). exists p. apply in_app_iff. right. now apply in_bus_events.
  - destruct (IH _ _ _ Rc1 E Nk A Dn I) as (p & J). exists p. apply in_app_iff. auto.
Qed.

Lemma recv_nodup n ls c T : cexec n ls cl_init = Some (c, T) -> NoDup (map (fun x => (fst x, fst (fst (snd x)))) (keys recv_of T)).
Proof.
  intros X.
  assert (map (fun x => (fst x, fst (fst (snd x)))) (keys recv_of T) = keys (fun e => map (fun a => fst (fst a)) (recv_of e)) T) as ->.
  { clear. induction T as [|(i & e) T IH]; [reflexivity|]. unfold keys in *. cbn [flat_map fst snd]. rewrite map_app, IH. f_equal. rewrite !map_map. reflexivity. }
  apply nodup_by. intros (i & f) _. exists (fun x => Nat.eqb (fst x) i && (fun _ => true) (snd x)). split; [cbn; now rewrite Nat.eqb_refl|].
  rewrite (keys_filter (fun e => map (fun a => fst (fst a)) (recv_of e)) (fun _ => true) (fun e => map (fun a => fst (fst a)) (recv_of e)) (fun x => x)).
  - apply FinFun.Injective_map_NoDup; [intros a b E; now injection E|]. destruct (node_run _ _ _ _ X i) as (nls & A & _). destruct (recv_range _ _ _ _ _ A) as (_ & _ & D).
    assert (forall l, flat_map (fun e => map (fun a => fst (fst a)) (recv_of e)) l = map (fun a => fst (fst a)) (flat_map recv_of l)) as ->; [|exact D].
    clear. intros l. induction l as [|e l IH]; [reflexivity|]. cbn [flat_map]. rewrite map_app. congruence.
  - intros e. rewrite map_id. induction (map (fun a => fst (fst a)) (recv_of e)); cbn; congruence.
Qed.

Lemma map_inj_in {A B} (g : A -> B) l x y : NoDup (map g l) -> In x l -> In y l -> g x = g y -> x = y.
Proof.
  induction l as [|z l IH]; cbn; intros D I J E; [destruct I|]. inversion D; subst. destruct I as [->|I], J as [->|J]; auto.
  - exfalso. apply H1. rewrite E. now apply in_map.
  - exfalso. apply H1. rewrite <- E. now apply in_map.
Qed.

Section Rest.
  Variables (n : net) (rt : nat -> nat) (pos : nat -> nat -> nat * nat) (ls0 ls : list clabel) (c0 c : cluster) (T0 T : list (nat * nevent)).
  Hypothesis X0 : cexec n ls0 cl_init = Some (c0, T0).
  Hypothesis X : cexec n ls c0 = Some (c, T).
  Hypothesis OWN : own_callbacks n (ls0 ++ ls).
  Hypothesis QUIET : distributed T0 = [].
  Hypothesis ATT : calways (attached n rt pos) n ls c0.
  Hypothesis ONE : one_root rt (T0 ++ T).
  Hypothesis REST : at_rest c.

  Lemma whole : cexec n (ls0 ++ ls) cl_init = Some (c, T0 ++ T).
  Proof. rewrite cexec_app, X0, X. reflexivity. Qed.

  Lemma acc_completed i r p : In p (accepted r (bus_events (at_node i (T0 ++ T)))) -> In p (completed r (bus_events (at_node i (T0 ++ T)))) /\ In p (begun r (bus_events (at_node i (T0 ++ T)))).
  Proof.
    intros I. destruct (node_exec _ _ _ _ whole i) as (ls' & XE). pose proof (account_all r _ _ _ XE) as AC. pose proof (started_all r _ _ _ XE) as ST. unfold account, started in *.
    destruct (get_bus (cl_nodes c i) r) as [x|] eqn:G; [|destruct AC as (AC & _); rewrite AC in I; destruct I].
    destruct REST as (_ & RS). destruct (RS i) as (_ & RQ). destruct (RQ _ _ G) as (Ec & Ep). destruct AC as (AC & _). rewrite Ec, Ep, !app_nil_r in AC. rewrite AC in I.
    assert (In p (completed r (bus_events (at_node i (T0 ++ T))))) as K; [|split; [exact K|now apply ST]].
    unfold settled in I. apply in_flat_map in I as (e & I & J). unfold completed. apply in_flat_map. exists e. split; [exact I|].
    apply in_bus_events, at_node_in in I. destruct e; try contradiction; auto;
      (match type of J with In _ (if ?b then _ else _) => destruct b; [|contradiction] end; destruct J as [->|[]]; exfalso; destruct (ONE i root p) as (_ & A & B); auto).
  Qed.

  Lemma all_begun : subm (map acc_key (keys acc_of (T0 ++ T))) (keys beg_of (T0 ++ T)).
  Proof.
    apply subm_nodup; [eapply accs_nodup; apply whole|]. intros (i & (r & p)) I. apply acc_in in I. apply beg_in. now apply acc_completed.
  Qed.

  Lemma quiet_begun i r : begun r (bus_events (at_node i T0)) = [].
  Proof.
    apply all_empty. intros p I. apply beg_in in I. rewrite distributed_keys in QUIET. destruct (keys beg_of T0); [destruct I|discriminate].
  Qed.

  Lemma all_sent : subm (flat_map (fan n) (keys beg_of (T0 ++ T))) (keys sent_of (T0 ++ T)).
  Proof.
    apply subm_nodup; [eapply fan_all_nodup; apply whole|]. intros (i & (((k & r) & root) & p)) I. apply in_flat_map in I as ((i' & (root' & p')) & I & J).
    apply fan_in in J as (-> & -> & -> & lk & Nk & Ir). apply beg_in in I. destruct (node_exec _ _ _ _ whole i) as (ls' & XE). apply (begun_accepted _ _ _ _ XE) in I.
    assert (root = rt i) as ->.
    { apply acc_in in I. apply in_map_iff in I as ((j & ((r' & f) & q)) & E & I). injection E as -> -> ->. apply acc_key_in in I. destruct (ONE i root p) as (A & _). eapply A; eauto. }
    destruct (acc_completed _ _ _ I) as (Cp & _).
    destruct (cexec_node n i (fun x => serving (rt i) (fst (pos i k)) (snd (pos i k)) x /\ nth_error (s_subs x) (snd (pos i k)) = Some (mkSub "/**/*" (Some (CbMsg (lk_cb lk))))) _ _ _ _ X) as (nls & A & _ & AL).
    specialize (AL _ ATT (fun c' H => conj (proj1 (H _ _ _ Nk)) (proj1 (proj2 (H _ _ _ Nk))))).
    destruct (node_run _ _ _ _ X0 i) as (nls0 & A0 & _). pose proof (nexec_exec _ _ _ _ _ A0) as XE0. assert (reach (cl_nodes c0 i)) as Rc by (eexists; eexists; exact XE0).
    assert (In (NEv (EvEnd (rt i) p)) (at_node i T)) as Ie.
    { rewrite at_node_app, bus_events_app, completed_app in Cp. apply in_app_iff in Cp as [Cp|Cp].
      - exfalso. pose proof (started_all (rt i) _ _ _ XE0) as ST. unfold started in ST. rewrite quiet_begun in ST. destruct (get_bus (cl_nodes c0 i) (rt i)); [destruct ST as (_ & _ & _ & ST)|destruct ST as (_ & ST); rewrite ST in Cp; destruct Cp]. destruct (ST _ Cp).
      - unfold completed in Cp. apply in_flat_map in Cp as (e & Ie & Je). destruct e; try contradiction. match type of Je with In _ (if Nat.eqb ?a ?b then _ else _) => destruct (Nat.eqb_spec a b) as [->|]; [|contradiction] end. destruct Je as [->|[]]. now apply in_bus_events. }
    apply sent_in. rewrite at_node_app. apply in_app_iff. right.
    eapply (C59_all _ _ _ _ _ _ _ _ _ _ _ _ A0 A Nk AL).
    - assert (attached n rt pos c0) as (_ & _ & x & G & F); [destruct ls; apply ATT|exact Nk|]. destruct (t_target _ (reach_tree _ Rc) _ _ _ G F) as (_ & z & Gz & _).
      exists z. split; [exact Gz|]. pose proof (started_all (rt i) _ _ _ XE0) as ST. unfold started in ST. rewrite Gz, quiet_begun in ST. destruct ST as (_ & _ & ST & _). apply all_empty. intros y Iy. destruct (ST _ Iy).
    - exact Ie.
    - intros Mk. apply markedb_iff in Mk. unfold on_message in Ir. rewrite sent_by_marked, Mk in Ir. destruct Ir.
    - unfold on_message in Ir. destruct (sent_by _ _); [destruct Ir|]. apply in_app_iff in Ir as [Ir|Ir].
      + destruct (lk_socket lk ServerPub) eqn:Q; [|destruct Ir]. destruct Ir as [<-|[]]. exact Q.
      + destruct (lk_socket lk ClientPub) eqn:Q; [|destruct Ir]. destruct Ir as [<-|[]]. exact Q.
  Qed.

  Lemma all_taken : subm (keys recv_of (T0 ++ T)) (flat_map (taken_of (org (T0 ++ T))) (keys acc_of (T0 ++ T))).
  Proof.
    assert (keys recv_of T0 = []) as R0.
    { pose proof (got_forward _ _ _ _ X0 (own_prefix _ _ _ OWN)) as G. rewrite QUIET in G. apply subm_length in G. cbn in G. rewrite map_length in G. destruct (keys recv_of T0); [reflexivity|cbn in G; lia]. }
    pose proof (recv_nodup _ _ _ _ whole) as ND.
    apply subm_nodup; [eapply NoDup_map_inv; exact ND|]. intros (i & ((f & k) & m)) I.
    assert (In (i, (f, k, m)) (keys recv_of T)) as I' by (rewrite keys_app, R0 in I; exact I). apply recv_key_in in I' as (r & I').
    destruct (node_run _ _ _ _ X0 i) as (nls0 & A0 & _). assert (reach (cl_nodes c0 i)) as Rc by (eexists; eexists; eapply nexec_exec; exact A0).
    assert (exists lk, nth_error (nt_links n i) k = Some lk) as (lk & Nk).
    { destruct (cexec_node n i (fun _ => True) _ _ _ _ X) as (nls & A & _). apply at_node_in in I'. destruct (nexec_at _ _ _ _ _ _ A I') as (? & l & ? & s1 & s2 & ? & e2 & ? & _ & _ & N & I2 & _).
      destruct (received_inv _ _ _ _ _ _ _ _ _ N I2) as (_ & _ & lk & Nk & _). eauto. }
    destruct (cexec_node n i (fun s => exists x, get_bus s (lk_bus lk) = Some x /\ b_fn x = Some (ToQueue (rt i))) _ _ _ _ X) as (nls & A & _ & AL).
    specialize (AL _ ATT (fun c' H => proj2 (proj2 (H _ _ _ Nk)))).
    destruct REST as (_ & RS). destruct (RS i) as (RF & _). apply at_node_in in I'.
    destruct (recv_lands _ _ _ _ _ _ _ _ _ _ _ Rc A Nk AL RF I') as (p & Ia). apply at_node_in in Ia, I'.
    apply in_flat_map. exists (i, (rt i, f, p)). split; [apply acc_key_in, in_app_iff; auto|]. cbn [taken_of].
    destruct (org (T0 ++ T) i f) as [[k' m']|] eqn:O; [|exfalso; eapply in_org; [|exact O]; apply in_app_iff; right; exact I'].
    left. apply (map_inj_in _ _ _ _ ND); [|exact I|reflexivity]. apply recv_key_in. eapply org_in; eauto.
  Qed.

  Lemma settles : exists ws, wexec n ws ([], []) = Some ([], distributed (T0 ++ T)) /\ published ws = local (T0 ++ T).
  Proof.
    destruct (refines _ _ _ _ whole OWN) as (ws & D & Q & pend & W & Pb & Pp & Pd & Pq).
    exists ws. split; [|exact Pb]. rewrite W. assert (pend = []) as ->; [|reflexivity].
    assert (length D = 0) as LD. { apply Permutation_length in Pd. rewrite app_length in Pd. pose proof (subm_length _ _ all_begun). lia. }
    assert (length Q = 0) as LQ.
    { apply Permutation_length in Pq. rewrite app_length, map_length in Pq. pose proof (subm_length _ _ all_taken).
      pose proof (subm_length _ _ (subm_flat_map (out_of n) _ _ all_sent)) as L. rewrite fan_all_forward in L.
      pose proof (Permutation_length (wire_account _ _ _ _ _ whole)) as Lw. destruct REST as (RW & _). rewrite RW in Lw. cbn [map app cl_init cl_wire] in Lw. rewrite map_length in Lw. lia. }
    apply Permutation_length in Pp. rewrite app_length, map_length in Pp. destruct pend; [reflexivity|cbn in Pp; lia].
  Qed.
End Rest.

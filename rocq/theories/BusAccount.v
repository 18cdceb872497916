(** Accounting of messages: nothing is lost, invented or reordered between the
    queue, the batch and distribution. *)
From Coq Require Import String Ascii List Arith ZArith Bool Lia Sorted.
From Verif Require Import Prelude OMap DatagramModel DatagramSpec BusModel BusSpec BusProofs BusTree BusLocks BusLocks2 BusLocks3 BusDist.
Import ListNotations.
Open Scope list_scope.

Lemma accepted_app r t1 t2 : accepted r (t1 ++ t2) = accepted r t1 ++ accepted r t2.
Proof. apply flat_map_app. Qed.
Lemma settled_app r t1 t2 : settled r (t1 ++ t2) = settled r t1 ++ settled r t2.
Proof. apply flat_map_app. Qed.
Lemma begun_app r t1 t2 : begun r (t1 ++ t2) = begun r t1 ++ begun r t2.
Proof. apply flat_map_app. Qed.
Lemma discarded_app r t1 t2 : discarded r (t1 ++ t2) = discarded r t1 ++ discarded r t2.
Proof. apply flat_map_app. Qed.
Lemma inbox_app r s t1 t2 : inbox r s (t1 ++ t2) = inbox r s t1 ++ inbox r s t2.
Proof. apply flat_map_app. Qed.
Lemma crashes_app r t1 t2 : crashes r (t1 ++ t2) = crashes r t1 ++ crashes r t2.
Proof. apply flat_map_app. Qed.

Lemma proj_other l st st' evs r :
  step l st = Some (st', evs) -> ~ runner_label l r ->
  settled r evs = [] /\ begun r evs = [] /\ discarded r evs = [] /\ (forall s, inbox r s evs = []) /\ crashes r evs = [] /\ received r evs = [] /\ completed r evs = [].
Proof.
  intros H N. pose proof (fun e => other_events _ _ _ _ _ e H N) as O. clear H N.
  induction evs as [|e evs IH]; [repeat split; auto|].
  destruct IH as (I1 & I2 & I3 & I4 & I5 & I6 & I7); [intros e0 I; apply O; simpl; auto|].
  specialize (O e (or_introl eq_refl)).
  repeat split; try intros s; simpl; rewrite ?I1, ?I2, ?I3, ?I4, ?I5, ?I6, ?I7; destruct e; simpl in *; rewrite ?O; auto.
  destruct e; auto.
Qed.

Lemma flat_lost {A} (f : event -> list A) r ms : (forall m, f (EvLost r m) = []) -> flat_map f (map (EvLost r) ms) = [].
Proof. intros E. induction ms as [|m ms IH]; simpl; rewrite ?E, ?IH; auto. Qed.

(** Only the last step of a publication enqueues. *)
Lemma accept_label l st st' evs r :
  step l st = Some (st', evs) -> (forall i, l <> LFly i) -> accepted r evs = [].
Proof.
  intros H N. destruct l; try (step_cases H; reflexivity).
  - destruct (detach_inv _ _ _ _ H) as (ds & ds' & a & _ & D & _). destruct D; auto. destruct stk; auto.
  - exfalso; eapply N; eauto.
  - destruct (run_inv' _ r0 _ _ _ H eq_refl) as (x & rn & act & _ & RC & _). inversion RC; subst; auto.
    unfold accepted. cbn. rewrite flat_map_app. cbn. rewrite app_nil_r. apply flat_lost. auto.
  - destruct (run_inv' _ r0 _ _ _ H eq_refl) as (x & rn & act & _ & RC & _). inversion RC; subst; auto.
    unfold accepted. cbn. rewrite flat_map_app. cbn. rewrite app_nil_r. apply flat_lost. auto.
Qed.

(** The cases of a publication's step. *)
Lemma fly_inv i st st' evs :
  step (LFly i) st = Some (st', evs) ->
  (exists p d x y m, nth_error (s_flights st) i = Some (FlyPub p d) /\ nth_error (s_pubs st) p = Some x /\ p_fn x = true /\
     get_bus st (p_bus x) = Some y /\ m = mkM (b_name y) (p_topic x) d /\
     ((b_fn y = None /\ st' = set_flights (list_set i FlyDone (s_flights st)) st /\ evs = [EvFlight i (Ok tt)]) \/
      (b_fn y <> None /\ st' = set_flights (list_set i (FlyBus (p_bus x) m) (s_flights st)) st /\ evs = []))) \/
  (exists p d x, nth_error (s_flights st) i = Some (FlyPub p d) /\ nth_error (s_pubs st) p = Some x /\ p_fn x = false /\
     st' = set_flights (list_set i FlyDone (s_flights st)) st /\ evs = [EvFlight i (Throw BadFunctionCall)]) \/
  (exists b m y, nth_error (s_flights st) i = Some (FlyBus b m) /\ get_bus st b = Some y /\
     ((b_fn y = None /\ st' = set_flights (list_set i FlyDone (s_flights st)) st /\ evs = [EvFlight i (Throw BadFunctionCall)]) \/
      (exists f, b_fn y = Some (ToClient f) /\ st' = set_flights (list_set i FlyDone (s_flights st)) st /\ evs = [EvClient f i m; EvFlight i (Ok tt)]) \/
      (exists r z, b_fn y = Some (ToQueue r) /\ get_bus st r = Some z /\
         st' = set_flights (list_set i FlyDone (s_flights st)) (set_bus r (with_queue (b_queue z ++ [(b_count z, m)]) (S (b_count z)) z) st) /\
         evs = [EvAccept r i (b_count z, m); EvFlight i (Ok tt)]) \/
      (exists r, b_fn y = Some (ToQueue r) /\ get_bus st r = None /\ st' = set_flights (list_set i FlyDone (s_flights st)) st /\ evs = [EvFlight i (Ok tt)]))).
Proof.
  simpl. unfold fly_step. destruct (nth_error (s_flights st) i) as [[p d|b m|]|] eqn:N; try discriminate.
  - destruct (nth_error (s_pubs st) p) as [x|] eqn:Np; [|discriminate].
    destruct (p_fn x) eqn:F.
    + destruct (get_bus st (p_bus x)) as [y|] eqn:G; [|discriminate].
      unfold test_bus_fn. rewrite G. intros H. left. exists p, d, x, y, (mkM (b_name y) (p_topic x) d).
      repeat split; auto. destruct (b_fn y); injection H as <- <-; [right|left]; repeat split; auto; discriminate.
    + intros [= <- <-]. right; left. exists p, d, x. auto.
  - destruct (get_bus st b) as [y|] eqn:G; [|discriminate]. intros H. right; right. exists b, m, y. repeat split; auto.
    destruct (b_fn y) as [[r|f]|] eqn:F; simpl in H.
    + destruct (get_bus st r) as [z|] eqn:Gr; injection H as <- <-.
      * right; right; left. exists r, z. auto.
      * right; right; right. exists r. auto.
    + injection H as <- <-. right; left. exists f. auto.
    + injection H as <- <-. left. auto.
Qed.

(** Effect of a publication's step on the queue of [r]. *)
Lemma fly_queue i st st' evs r x :
  step (LFly i) st = Some (st', evs) -> get_bus st r = Some x ->
  exists x', get_bus st' r = Some x' /\ b_runner x' = b_runner x /\
    ((accepted r evs = [] /\ b_queue x' = b_queue x /\ b_count x' = b_count x) \/
     (exists m, accepted r evs = [(b_count x, m)] /\ b_queue x' = b_queue x ++ [(b_count x, m)] /\ b_count x' = S (b_count x))).
Proof.
  intros H G.
  destruct (fly_inv _ _ _ _ H) as [(p & d & xp & y & m & N & Np & F & Gy & Em & [(Fn & -> & ->)|(Fn & -> & ->)])|[(p & d & xp & N & Np & F & -> & ->)|(b & m & y & N & Gy & [(Fn & -> & ->)|[(f & Fn & -> & ->)|[(r0 & z & Fn & Gz & -> & ->)|(r0 & Fn & Gz & -> & ->)]]])]];
    try (exists x; rewrite get_set_flights; repeat split; auto; fail).
  rewrite get_set_flights, get_set. destruct (Nat.eqb_spec r0 r) as [->|Hne].
  - rewrite G in Gz. injection Gz as <-. rewrite G. eexists. split; [reflexivity|]. simpl. rewrite Nat.eqb_refl. split; auto. right. exists m. auto.
  - exists x. repeat split; auto. left. simpl. rewrite (proj2 (Nat.eqb_neq r0 r)); auto.
Qed.

Definition account (r : nat) (st : state) (tr : list event) : Prop :=
  match get_bus st r with
  | Some x => accepted r tr = settled r tr ++ current x ++ pending x /\ map fst (accepted r tr) = seq 0 (b_count x)
  | None => accepted r tr = [] /\ settled r tr = []
  end.

Lemma settled_lost r ms e : settled r (map (EvLost r) ms ++ [EvStop r (Some e)]) = ms.
Proof.
  rewrite settled_app. simpl. rewrite app_nil_r. induction ms as [|m ms IH]; auto.
  simpl. rewrite Nat.eqb_refl. simpl. f_equal; auto.
Qed.

Lemma account_run st r x l rn act evs x' :
  rcase st r x l (b_runner x) rn act evs ->
  b_runner x' = rn -> b_queue x' = match act with ADrain => [] | _ => b_queue x end ->
  current x ++ pending x = settled r evs ++ current x' ++ pending x'.
Proof.
  intros R E1 E2. unfold current, pending, batch. rewrite E1, E2.
  inversion R; subst; try reflexivity.
  - rewrite app_nil_r. reflexivity.
  - simpl. rewrite Nat.eqb_refl. reflexivity.
  - simpl. rewrite Nat.eqb_refl. reflexivity.
  - change (settled r (EvReceive r b s m :: map (EvLost r) (m :: rest) ++ [EvStop r (Some e)])) with (settled r (map (EvLost r) (m :: rest) ++ [EvStop r (Some e)])).
    rewrite settled_lost. simpl. auto.
  - rewrite settled_lost. simpl. auto.
Qed.

Lemma account_step l st st' evs tr r :
  account r st tr -> step l st = Some (st', evs) -> account r st' (tr ++ evs).
Proof.
  unfold account. intros A H. rewrite accepted_app, settled_app.
  destruct (get_bus st r) as [x|] eqn:G.
  - destruct A as [A1 A2]. destruct (runner_label_dec l r) as [RL|RL].
    + destruct (run_inv' _ _ _ _ _ H RL) as (x0 & rn & act & G0 & RC & E). rewrite G in G0. injection G0 as <-.
      rewrite (accept_label _ _ _ _ _ H) by (intros i ->; exact RL).
      rewrite E, run_view, G. simpl. rewrite Nat.eqb_refl. rewrite app_nil_r. split; [|exact A2].
      rewrite A1. rewrite <- app_assoc. f_equal.
      apply (account_run _ _ _ _ _ _ _ _ RC); simpl; auto. 
    + destruct (proj_other _ _ _ _ _ H RL) as (Es & _). rewrite Es, app_nil_r.
      assert ((exists i, l = LFly i) \/ (forall i, l <> LFly i)) as [(i & ->)|NF].
      { destruct l; try (right; discriminate). left; eauto. }
      * destruct (fly_queue _ _ _ _ _ _ H G) as (x' & G' & Er & [(Ea & Eq & Ec)|(m & Ea & Eq & Ec)]); rewrite G', Ea; unfold current, pending, batch in *; rewrite Er, Eq, Ec.
        -- rewrite app_nil_r. auto.
        -- split.
           ++ rewrite A1. rewrite <- !app_assoc. reflexivity.
           ++ rewrite seq_S, <- A2, map_app. reflexivity.
      * rewrite (accept_label _ _ _ _ _ H NF), app_nil_r.
        destruct (step_delta _ _ _ _ _ _ H G) as (x' & G' & D). rewrite G'.
        assert (b_queue x' = b_queue x /\ b_count x' = b_count x) as [Eq Ec].
        { destruct (d_queue _ _ _ _ _ _ D) as [E|[E|(i & E)]]; auto; [subst l; exfalso; apply RL; reflexivity|destruct (NF _ E)]. }
        assert (current x' = current x /\ batch x' = batch x) as [Ecu Eb].
        { unfold current, batch. destruct (d_runner _ _ _ _ _ _ D) as [->|[E|(_ & _ & -> & ->)]]; auto. contradiction. }
        unfold pending in *. rewrite Ecu, Eb, Eq, Ec. auto.
  - destruct A as [A1 A2]. rewrite A1, A2. simpl.
    assert (settled r evs = []) as Es.
    { destruct (runner_label_dec l r) as [RL|RL].
      - destruct (run_inv' _ _ _ _ _ H RL) as (x0 & rn & act & G0 & _). congruence.
      - now destruct (proj_other _ _ _ _ _ H RL). }
    assert (accepted r evs = []) as Ea.
    { assert ((exists i, l = LFly i) \/ (forall i, l <> LFly i)) as [(i & ->)|NF].
      { destruct l; try (right; discriminate). left; eauto. }
      - destruct (fly_inv _ _ _ _ H) as [(p & d & xp & y & m & N & Np & F & Gy & Em & [(Fn & -> & ->)|(Fn & -> & ->)])|[(p & d & xp & N & Np & F & -> & ->)|(b & m & y & N & Gy & [(Fn & -> & ->)|[(f & Fn & -> & ->)|[(r0 & z & Fn & Gz & -> & ->)|(r0 & Fn & Gz & -> & ->)]]])]]; auto.
        simpl. destruct (Nat.eqb_spec r0 r); auto. subst. congruence.
      - apply (accept_label _ _ _ _ _ H NF). }
    rewrite Ea, Es. destruct (get_bus st' r) as [x'|] eqn:G'; auto.
    destruct (step_new _ _ _ _ _ _ H G G') as (_ & _ & [(n & _ & _ & ->)|[(n & g & _ & _ & ->)|(b0 & xb & n & t & _ & _ & _ & _ & _ & ->)]]); auto.
Qed.

Lemma account_all r ls st tr : exec ls init = Some (st, tr) -> account r st tr.
Proof.
  revert ls st tr. apply (exec_trace_ind init (fun st _ tr => account r st tr)).
  - unfold account. destruct r; simpl; auto.
  - intros ls l st st' tr evs _ A H. eapply account_step; eauto.
Qed.

(** Numbers identify publications. *)
Lemma seq_map_fst_inj (l : list pubn) n a b :
  map fst l = seq 0 n -> In a l -> In b l -> fst a = fst b -> a = b.
Proof.
  intros E Ia Ib F. assert (NoDup (map fst l)) as ND by (rewrite E; apply seq_NoDup).
  clear E. induction l as [|c l IH]; [contradiction|].
  simpl in ND. inversion ND as [|? ? N1 N2]; subst. destruct Ia as [<-|Ia], Ib as [<-|Ib]; auto.
  - exfalso. apply N1. rewrite F. now apply in_map.
  - exfalso. apply N1. rewrite <- F. now apply in_map.
Qed.

Lemma seq_sorted n m : StronglySorted lt (seq n m).
Proof.
  revert n; induction m as [|m IH]; intros n; simpl; constructor; auto.
  apply Forall_forall. intros x I. apply in_seq in I. lia.
Qed.

Lemma sorted_app_lt (l1 l2 : list nat) a b :
  StronglySorted lt (l1 ++ l2) -> In a l1 -> In b l2 -> a < b.
Proof.
  induction l1 as [|c l1 IH]; simpl; intros S Ia Ib; [contradiction|].
  inversion S as [|? ? S' F]; subst. destruct Ia as [<-|Ia]; auto.
  rewrite Forall_forall in F. apply F. apply in_app_iff; auto.
Qed.

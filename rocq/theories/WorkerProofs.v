(** Invariants of worker threads. *)
From Coq Require Import String List Arith Bool Lia.
From Verif Require Import Prelude OMap DatagramModel DatagramSpec BusModel BusSpec BusProofs BusTree BusLocks BusLocks2 BusLocks3
  BusDist BusAccount BusOnce BusFlight BusDetach BusProgress WorkerModel WorkerSpec.
Import ListNotations.
Open Scope list_scope.
Open Scope nat_scope.

(** ** The bus *)

Lemma step_detaches l st st' evs : step l st = Some (st', evs) ->
  s_detaches st' = s_detaches st \/ (exists b, l = LDetach b) \/ (exists i, l = LDetachStep i).
Proof.
  intros H. destruct l; try (right; left; eexists; reflexivity); try (right; right; eexists; reflexivity); left.
  all: step_cases H; simpl; acc; simpl; auto.
Qed.

Lemma step_reset l st st' evs p : step l st = Some (st', evs) -> ~ reset p st -> reset p st' -> exists b, l = LDelPub b p.
Proof.
  intros H N (y' & N' & F). destruct (nth_error (s_pubs st) p) as [y|] eqn:Ny.
  - destruct (step_pub _ _ _ _ _ _ H Ny) as (y2 & N2 & _ & _ & [E|(E & _)]); auto. exfalso. apply N. exists y. split; auto. congruence.
  - exfalso. apply nth_error_None in Ny.
    assert (s_pubs st' = s_pubs st \/ (exists z, s_pubs st' = s_pubs st ++ [z] /\ p_fn z = true) \/ length (s_pubs st') = length (s_pubs st)) as [E|[(z & E & Fz)|E]].
    { clear - H. destruct l; step_cases H; simpl; acc; simpl; auto; right; left; eexists; split; reflexivity. }
    + rewrite E in N'. pose proof (nth_error_Some_lt _ _ _ N'). lia.
    + rewrite E in N'. destruct (Nat.eq_dec p (length (s_pubs st))) as [->|Ne].
      * rewrite nth_error_app2, Nat.sub_diag in N' by lia. injection N' as <-. congruence.
      * pose proof (nth_error_Some_lt _ _ _ N') as L. rewrite app_length in L. simpl in L. lia.
    + pose proof (nth_error_Some_lt _ _ _ N') as L. lia.
Qed.

Lemma step_detached l st st' evs b : step l st = Some (st', evs) -> ~ detached b st -> detached b st' ->
  l = LDetach b \/ exists i, l = LDetachStep i.
Proof.
  intros H N (x' & G' & F). destruct (get_bus st b) as [x|] eqn:G.
  - destruct (step_delta _ _ _ _ _ _ H G) as (x2 & G2 & D). assert (x2 = x') as -> by congruence.
    destruct (d_fn _ _ _ _ _ _ D) as [E|(_ & E)]; auto. exfalso. apply N. exists x. split; auto. congruence.
  - exfalso. destruct (step_new _ _ _ _ _ _ H G G') as (_ & _ & [(n & _ & _ & ->)|[(n & g & _ & _ & ->)|(b0 & xb & n & t & _ & _ & _ & _ & _ & ->)]]); discriminate.
Qed.

Lemma publish_begin h d l st st' evs : publication h d = Some l -> step l st = Some (st', evs) ->
  (forall i, l <> LFly i) /\
  ((returned (length (s_flights st)) evs = [Ok tt]) \/
   (returned (length (s_flights st)) evs = [] /\
    ((exists p d', h = ByPub p /\ d = PayD d' /\ nth_error (s_flights st') (length (s_flights st)) = Some (FlyPub p d')) \/
     (exists b m, h = ByBus b /\ d = PayM m /\ nth_error (s_flights st') (length (s_flights st)) = Some (FlyBus b m))))).
Proof.
  intros P H. destruct h as [p|b], d as [d|m]; try discriminate; injection P as <-; (split; [discriminate|]).
  - cbn [step] in H. unfold begin_publish in H. destruct (nth_error (s_pubs st) p) as [x|]; [|discriminate].
    destruct (p_fn x); injection H as <- <-.
    + right. split; [reflexivity|]. left. exists p, d. repeat split. simpl. apply nth_snoc_new.
    + left. simpl. now rewrite Nat.eqb_refl.
  - cbn [step] in H. destruct (get_bus st b) as [x|] eqn:G; [|discriminate]. unfold test_bus_fn in H. rewrite G in H.
    destruct (b_fn x); injection H as <- <-.
    + right. split; [reflexivity|]. right. exists b, m. repeat split. simpl. apply nth_snoc_new.
    + left. simpl. now rewrite Nat.eqb_refl.
Qed.

Lemma fly_returns i st st' evs : step (LFly i) st = Some (st', evs) ->
  (returned i evs = [] /\ exists p d x m, nth_error (s_flights st) i = Some (FlyPub p d) /\ nth_error (s_pubs st) p = Some x /\
     nth_error (s_flights st') i = Some (FlyBus (p_bus x) m)) \/
  (returned i evs = [Ok tt] /\ nth_error (s_flights st') i = Some FlyDone /\
     ((exists p d, nth_error (s_flights st) i = Some (FlyPub p d) /\ ~ reset p st) \/
      (exists b m, nth_error (s_flights st) i = Some (FlyBus b m) /\ ~ detached b st))) \/
  (returned i evs = [Throw BadFunctionCall] /\ nth_error (s_flights st') i = Some FlyDone /\
     ((exists p d, nth_error (s_flights st) i = Some (FlyPub p d) /\ reset p st) \/
      (exists b m, nth_error (s_flights st) i = Some (FlyBus b m) /\ detached b st))).
Proof.
  intros H.
  assert (forall f (st0 : state) fl, nth_error (s_flights st) i = Some f -> nth_error (list_set i fl (s_flights st)) i = Some fl) as LS
    by (intros f st0 fl N; apply list_set_eq; eapply nth_error_Some_lt; eauto).
  assert (forall a (x y : bool), x = true -> y = false -> a = x -> a <> y) as TF by (intros; congruence).
  destruct (fly_inv _ _ _ _ H) as [(p & d & x & y & m & N & Np & F & G & Em & [(Fn & -> & ->)|(Fn & -> & ->)])|[(p & d & x & N & Np & F & -> & ->)|(b & m & y & N & G & C)]].
  - right; left. simpl. rewrite Nat.eqb_refl. repeat split; eauto. left. exists p, d. split; auto. intros (z & Nz & Fz). congruence.
  - left. simpl. repeat split. exists p, d, x, m. repeat split; eauto.
  - right; right. simpl. rewrite Nat.eqb_refl. repeat split; eauto. left. exists p, d. split; auto. exists x; auto.
  - destruct C as [(Fn & -> & ->)|[(g & Fn & -> & ->)|[(r & z & Fn & Gz & -> & ->)|(r & Fn & Gz & -> & ->)]]]; simpl; rewrite Nat.eqb_refl.
    + right; right. repeat split; eauto. right. exists b, m. split; auto. exists y; auto.
    + right; left. repeat split; eauto. right. exists b, m. split; auto. intros (z & Gz & Fz). congruence.
    + right; left. repeat split; eauto. right. exists b, m. split; auto. intros (z' & Gz' & Fz). congruence.
    + right; left. repeat split; eauto. right. exists b, m. split; auto. intros (z & Gz' & Fz). congruence.
Qed.

(** ** The world *)

(** The flight a worker is inside. *)
Definition airborne (st : state) (h : how) (i : nat) : Prop :=
  (exists p d, nth_error (s_flights st) i = Some (FlyPub p d) /\ h = ByPub p) \/ (exists b m, nth_error (s_flights st) i = Some (FlyBus b m)).

Definition opok (o : op) : Prop := plain o \/ (exists i, o = ODetaching i) \/ (exists w, o = OJoin w).

Record winv (s : world) : Prop := mkWinv {
  v_reach : reach (wd_bus s);
  v_in : wd_dead s = false -> forall w x i n, nth_error (wd_workers s) w = Some x -> wk_pos x = Inside i n -> airborne (wd_bus s) (wk_how x) i;
  v_one : forall w x w' x' i n n', nth_error (wd_workers s) w = Some x -> nth_error (wd_workers s) w' = Some x' ->
    wk_pos x = Inside i n -> wk_pos x' = Inside i n' -> w = w';
  v_lt : forall w x i n, nth_error (wd_workers s) w = Some x -> wk_pos x = Inside i n -> i < length (s_flights (wd_bus s));
  v_ctl : Forall opok (wd_ctl s);
  v_run : forall w x, nth_error (wd_workers s) w = Some x -> wk_run x = false -> wk_pos x = Over \/ exists k, wd_ctl s = OJoin w :: k }.

Lemma begun_winv s : begun s -> winv s.
Proof.
  intros (R & U & P & D & W). rewrite Forall_forall in W.
  assert (forall w x, nth_error (wd_workers s) w = Some x -> wk_run x = true /\ wk_pos x = AtTest) as A by (intros; apply W; eapply nth_error_In; eauto).
  constructor; auto.
  - intros _ w x i n N Q. destruct (A _ _ N). congruence.
  - intros w x w' x' i n n' N _ Q _. destruct (A _ _ N). congruence.
  - intros w x i n N Q. destruct (A _ _ N). congruence.
  - eapply Forall_impl; [|exact P]. intros o Po. now left.
  - intros w x N Q. destruct (A _ _ N). congruence.
Qed.

Lemma airborne_step l st st' evs h i : step l st = Some (st', evs) -> l <> LFly i -> airborne st h i -> airborne st' h i.
Proof.
  intros H N [(p & d & F & E)|(b & m & F)]; destruct (step_flight _ _ _ _ _ _ H F) as [->|(F' & _)]; try contradiction; [left|right]; eauto.
Qed.

(** Steps of the bus that leave the workers alone. *)
Lemma winv_bus s l st' evs k :
  winv s -> step l (wd_bus s) = Some (st', evs) ->
  (forall i w x n, l = LFly i -> nth_error (wd_workers s) w = Some x -> wk_pos x <> Inside i n) ->
  Forall opok k -> (forall w k', wd_ctl s = OJoin w :: k' -> k = wd_ctl s) ->
  winv (mkWorld st' (wd_workers s) k (wd_dead s)).
Proof.
  intros V H NF Fk Jn. constructor; simpl.
  - eapply reach_step; [apply V|eauto].
  - intros D w x i n N P. eapply airborne_step; eauto; [|eapply v_in; eauto]. intros ->. eapply NF; eauto.
  - apply (v_one _ V).
  - intros w x i n N P. pose proof (v_lt _ V _ _ _ _ N P). pose proof (step_len _ _ _ _ H). lia.
  - exact Fk.
  - intros w x N R. destruct (v_run _ V _ _ N R) as [E|(k' & E)]; auto. right. exists k'. erewrite Jn; eauto.
Qed.

Lemma nth_list_set {A} w (x y : A) l w' z : nth_error (list_set w x l) w' = Some z -> nth_error l w = Some y ->
  (w' = w /\ z = x) \/ (w' <> w /\ nth_error l w' = Some z).
Proof.
  intros N Ny. destruct (Nat.eq_dec w' w) as [->|Ne].
  - rewrite list_set_eq in N by (eapply nth_error_Some_lt; eauto). injection N as <-. auto.
  - rewrite list_set_ne in N by auto. auto.
Qed.

(** A worker moves without getting inside a publication; the bus may change. *)
Lemma winv_move s w x p :
  winv s -> nth_error (wd_workers s) w = Some x -> (forall i n, p <> Inside i n) -> (wk_pos x = Over -> p = Over) ->
  winv (set_worker w (goes p x) s).
Proof.
  intros V N NI OO. constructor; simpl.
  - apply V.
  - intros D w' x' i n N' P. destruct (nth_list_set _ _ _ _ _ _ N' N) as [(-> & ->)|(Ne & N2)]; [exfalso; eapply NI; eauto|]. eapply v_in; eauto.
  - intros w1 x1 w2 x2 i n n' N1 N2 P1 P2.
    destruct (nth_list_set _ _ _ _ _ _ N1 N) as [(-> & ->)|(Ne1 & M1)]; [exfalso; eapply NI; eauto|].
    destruct (nth_list_set _ _ _ _ _ _ N2 N) as [(-> & ->)|(Ne2 & M2)]; [exfalso; eapply NI; eauto|]. eapply (v_one _ V); eauto.
  - intros w' x' i n N' P. destruct (nth_list_set _ _ _ _ _ _ N' N) as [(-> & ->)|(Ne & N2)]; [exfalso; eapply NI; eauto|]. eapply v_lt; eauto.
  - apply V.
  - intros w' x' N' R. destruct (nth_list_set _ _ _ _ _ _ N' N) as [(-> & ->)|(Ne & N2)]; [|eapply v_run; eauto].
    simpl in R |- *. destruct (v_run _ V _ _ N R) as [E|E]; auto.
Qed.

Lemma winv_step l s s' : winv s -> wstep l s = Some s' -> winv s'.
Proof.
  intros V H. unfold wstep in H. destruct (wd_dead s) eqn:Dd; [discriminate|]. destruct l as [w o|w| |l].
  - unfold work in H. destruct (nth_error (wd_workers s) w) as [x|] eqn:N; [|discriminate].
    assert (forall p, (forall i n, p <> Inside i n) -> wk_pos x <> Over -> winv (set_worker w (goes p x) s)) as Mv.
    { intros p NI NO. apply winv_move; auto. intros; contradiction. }
    destruct (wk_pos x) as [|[|n]| |] eqn:P; destruct o as [d|]; try discriminate.
    + injection H as <-. apply Mv; [|discriminate]. destruct (wk_run x); discriminate.
    + injection H as <-. apply Mv; discriminate.
    + destruct (publication (wk_how x) d) as [l|] eqn:Pu; [|discriminate].
      destruct (step l (wd_bus s)) as [[st' evs]|] eqn:E; [|discriminate]. injection H as <-.
      destruct (publish_begin _ _ _ _ _ _ Pu E) as (NF & Q).
      assert (winv (set_wbus st' s)) as V1. { apply (winv_bus s l st' evs (wd_ctl s) V E); auto; [|apply V]. intros i w0 x0 n0 ->. now destruct (NF i). }
      destruct Q as [Q|(Q & F)]; rewrite Q.
      * apply winv_move; auto; [discriminate|congruence].
      * set (i0 := length (s_flights (wd_bus s))) in *.
        assert (forall w' x' n', nth_error (wd_workers s) w' = Some x' -> wk_pos x' <> Inside i0 n') as Fr.
        { intros w' x' n' N' P'. pose proof (v_lt _ V _ _ _ _ N' P'). unfold i0 in *. lia. }
        assert (i0 < length (s_flights st')) as Lt by (destruct F as [(p & d' & _ & _ & F)|(b & m & _ & _ & F)]; eapply nth_error_Some_lt; eauto).
        constructor; simpl.
        -- apply V1.
        -- intros _ w' x' i n' N' P'. destruct (nth_list_set _ _ _ _ _ _ N' N) as [(-> & ->)|(Ne & N2)].
           ++ simpl in P'. injection P' as <- <-. simpl. destruct F as [(p & d' & Eh & _ & F)|(b & m & Eh & _ & F)]; [left|right]; eauto.
           ++ apply (v_in _ V1 Dd _ _ _ _ N2 P').
        -- intros w1 x1 w2 x2 i n1 n2 N1 N2 P1 P2.
           destruct (nth_list_set _ _ _ _ _ _ N1 N) as [(-> & ->)|(Ne1 & M1)], (nth_list_set _ _ _ _ _ _ N2 N) as [(-> & ->)|(Ne2 & M2)]; auto.
           ++ simpl in P1. injection P1 as <- <-. exfalso. eapply Fr; eauto.
           ++ simpl in P2. injection P2 as <- <-. exfalso. eapply Fr; eauto.
           ++ eapply (v_one _ V); eauto.
        -- intros w' x' i n' N' P'. destruct (nth_list_set _ _ _ _ _ _ N' N) as [(-> & ->)|(Ne & N2)].
           ++ simpl in P'. injection P' as <- <-. exact Lt.
           ++ apply (v_lt _ V1 _ _ _ _ N2 P').
        -- apply V.
        -- intros w' x' N' R. destruct (nth_list_set _ _ _ _ _ _ N' N) as [(-> & ->)|(Ne & N2)]; [|eapply (v_run _ V); eauto].
           simpl in R |- *. destruct (v_run _ V _ _ N R) as [E'|E']; auto. congruence.
    + injection H as <-. apply Mv; discriminate.
  - unfold fly in H. destruct (nth_error (wd_workers s) w) as [x|] eqn:N; [|discriminate].
    destruct (wk_pos x) as [| |i n|] eqn:P; try discriminate. destruct (step (LFly i) (wd_bus s)) as [[st' evs]|] eqn:E; [|discriminate].
    assert (forall w' x' j n', nth_error (wd_workers s) w' = Some x' -> wk_pos x' = Inside j n' -> w' <> w -> airborne st' (wk_how x') j) as Ot.
    { intros w' x' j n' N' P' Ne. eapply airborne_step; eauto; [|eapply v_in; eauto]. intros [= ->]. apply Ne. eapply (v_one _ V); eauto. }
    assert (forall w' x' j n', nth_error (wd_workers s) w' = Some x' -> wk_pos x' = Inside j n' -> j < length (s_flights st')) as Ln.
    { intros w' x' j n' N' P'. pose proof (v_lt _ V _ _ _ _ N' P'). pose proof (step_len _ _ _ _ E). lia. }
    assert (reach st') as Rc by (eapply reach_step; [apply V|eauto]).
    destruct (fly_returns _ _ _ _ E) as [(Q & p & d & y & m & F & Np & F')|[(Q & F' & _)|(Q & F' & _)]]; rewrite Q in H.
    + injection H as <-. constructor; simpl; auto; try apply V.
      intros _ w' x' j n' N' P'. destruct (Nat.eq_dec w' w) as [->|Ne]; [|eapply Ot; eauto].
      assert (x' = x) as -> by congruence. rewrite P in P'. injection P' as <- <-. right. eauto.
    + injection H as <-. constructor; simpl; auto.
      * intros _ w' x' j n' N' P'. destruct (nth_list_set _ _ _ _ _ _ N' N) as [(-> & ->)|(Ne & N2)]; [discriminate|]. eapply Ot; eauto.
      * intros w1 x1 w2 x2 j n1 n2 N1 N2 P1 P2.
        destruct (nth_list_set _ _ _ _ _ _ N1 N) as [(-> & ->)|(Ne1 & M1)]; [discriminate|].
        destruct (nth_list_set _ _ _ _ _ _ N2 N) as [(-> & ->)|(Ne2 & M2)]; [discriminate|]. eapply (v_one _ V); eauto.
      * intros w' x' j n' N' P'. destruct (nth_list_set _ _ _ _ _ _ N' N) as [(-> & ->)|(Ne & N2)]; [discriminate|]. eapply Ln; eauto.
      * apply V.
      * intros w' x' N' R. destruct (nth_list_set _ _ _ _ _ _ N' N) as [(-> & ->)|(Ne & N2)]; [|eapply (v_run _ V); eauto].
        simpl in R |- *. destruct (v_run _ V _ _ N R) as [E'|E']; auto. congruence.
    + injection H as <-. constructor; simpl; auto; try apply V. discriminate.
  - unfold ctl in H. pose proof (v_ctl _ V) as Fk. destruct (wd_ctl s) as [|o k] eqn:Ek; [discriminate|].
    inversion Fk as [|? ? Fo Fk']; subst.
    destruct o as [b|i|w|w|l].
    + destruct (step (LDetach b) (wd_bus s)) as [[st' evs]|] eqn:E; [|discriminate]. injection H as <-.
      apply (winv_bus s _ st' evs _ V E); try discriminate.
      * constructor; auto. right; left; eauto.
      * intros w k' Q. congruence.
    + assert (forall st' evs, step (LDetachStep i) (wd_bus s) = Some (st', evs) -> winv (set_wbus st' s)) as A.
      { intros st' evs E. apply (winv_bus s _ st' evs _ V E); try discriminate; auto. rewrite Ek. auto. }
      assert (winv (set_ctl k s)) as B.
      { constructor; simpl; try apply V; auto. intros w x N R. destruct (v_run _ V _ _ N R) as [Q|(k' & Q)]; auto. congruence. }
      destruct (nth_error (s_detaches (wd_bus s)) i) as [[|f ds]|].
      * injection H as <-. exact B.
      * destruct (step (LDetachStep i) (wd_bus s)) as [[st' evs]|] eqn:E; [|discriminate]. injection H as <-. eauto.
      * destruct (step (LDetachStep i) (wd_bus s)) as [[st' evs]|] eqn:E; [|discriminate]. injection H as <-. eauto.
    + destruct (nth_error (wd_workers s) w) as [x|] eqn:N; [|discriminate]. destruct (wk_run x) eqn:R; injection H as <-.
      * constructor; simpl.
        -- apply V.
        -- intros D w' x' i n N' P'. destruct (nth_list_set _ _ _ _ _ _ N' N) as [(-> & ->)|(Ne & N2)]; simpl in *; [eapply (v_in _ V D w x); eauto|eapply v_in; eauto].
        -- intros w1 x1 w2 x2 i n1 n2 N1 N2 P1 P2.
           destruct (nth_list_set _ _ _ _ _ _ N1 N) as [(-> & ->)|(Ne1 & M1)], (nth_list_set _ _ _ _ _ _ N2 N) as [(-> & ->)|(Ne2 & M2)]; simpl in *; auto.
           ++ apply (v_one _ V w x w2 x2 i n1 n2); auto.
           ++ apply (v_one _ V w1 x1 w x i n1 n2); auto.
           ++ apply (v_one _ V w1 x1 w2 x2 i n1 n2); auto.
        -- intros w' x' i n N' P'. destruct (nth_list_set _ _ _ _ _ _ N' N) as [(-> & ->)|(Ne & N2)]; simpl in *; [eapply (v_lt _ V w x); eauto|eapply v_lt; eauto].
        -- constructor; auto. right; right; eauto.
        -- intros w' x' N' R'. destruct (nth_list_set _ _ _ _ _ _ N' N) as [(-> & ->)|(Ne & N2)]; [right; eauto|].
           destruct (v_run _ V _ _ N2 R') as [Q|(k' & Q)]; auto. congruence.
      * constructor; simpl; try apply V; auto. intros w' x' N' R'. destruct (v_run _ V _ _ N' R') as [Q|(k' & Q)]; auto. congruence.
    + destruct (nth_error (wd_workers s) w) as [x|] eqn:N; [|discriminate]. destruct (wk_pos x) eqn:P; try discriminate. injection H as <-.
      constructor; simpl; try apply V; auto. intros w' x' N' R'. destruct (v_run _ V _ _ N' R') as [Q|(k' & Q)]; auto.
      rewrite Ek in Q. injection Q as <- <-. left. congruence.
    + destruct (step l (wd_bus s)) as [[st' evs]|] eqn:E; [|discriminate]. injection H as <-.
      apply (winv_bus s _ st' evs _ V E); auto.
      * intros i w x n ->. destruct Fo as [[(? & ? & Q)|(? & ? & Q)]|[(? & Q)|(? & Q)]]; discriminate.
      * intros w k' Q. congruence.
  - unfold other in H.
    assert ((forall i, l = LFly i -> existsb (flown_by i) (wd_workers s) = false) /\ exists st' evs, step l (wd_bus s) = Some (st', evs) /\ s' = set_wbus st' s) as (NF & st' & evs & E & ->).
    { destruct l; try (split; [discriminate|]; destruct (step _ (wd_bus s)) as [[st' evs]|] eqn:E; [|discriminate]; injection H as <-; eauto; fail).
      destruct (existsb (flown_by i) (wd_workers s)) eqn:Ex; [discriminate|]. split; [intros j [= <-]; auto|].
      destruct (step _ (wd_bus s)) as [[st' evs]|] eqn:E; [|discriminate]. injection H as <-; eauto. }
    apply (winv_bus s l st' evs _ V E); auto; [|apply V].
    intros i w x n El N P. specialize (NF i El). assert (existsb (flown_by i) (wd_workers s) = true); [|congruence].
    apply existsb_exists. exists x. split; [eapply nth_error_In; eauto|]. unfold flown_by. rewrite P. apply Nat.eqb_refl.
Qed.

Lemma wexec_app ls1 ls2 s s' : wexec (ls1 ++ ls2) s = Some s' <-> exists s1, wexec ls1 s = Some s1 /\ wexec ls2 s1 = Some s'.
Proof.
  revert s. induction ls1 as [|l ls1 IH]; intros s; simpl.
  - split; [eauto|]. intros (s1 & E & H). now injection E as <-.
  - destruct (wstep l s) as [s1|]; [apply IH|]. split; [discriminate|]. now intros (? & ? & _).
Qed.

Lemma winv_exec ls : forall s s', winv s -> wexec ls s = Some s' -> winv s'.
Proof.
  induction ls as [|l ls IH]; intros s s' V X; simpl in X; [now injection X as <-|].
  destruct (wstep l s) as [s1|] eqn:H; [|discriminate]. apply (IH s1 s'); auto. eapply winv_step; eauto.
Qed.

(** ** Workers that are stopped in time *)

(** What must not have happened while the worker can still publish: [full] says whether detaching counts. *)
Definition harmful (full : bool) (h : how) (l : label) : Prop :=
  match l, h with
  | LDelPub _ p, ByPub q => p = q
  | LDetach _, _ => full = true
  | _, _ => False
  end.
Definition usable (full : bool) (h : how) (st : state) : Prop :=
  (forall p, h = ByPub p -> ~ reset p st) /\
  (full = true -> (forall b, ~ detached b st) /\ forall i ds, nth_error (s_detaches st) i = Some ds -> ds = []).

Lemma usable_step full h l st st' evs : usable full h st -> step l st = Some (st', evs) -> ~ harmful full h l -> usable full h st'.
Proof.
  intros (A & B) H N. split.
  - intros p -> R. destruct (step_reset _ _ _ _ p H (A p eq_refl) R) as (b & ->). now apply N.
  - intros F. destruct (B F) as (B1 & B2). destruct (step_detaches _ _ _ _ H) as [E|[(b & ->)|(i & ->)]].
    + split; [|rewrite E; auto]. intros b D. destruct (step_detached _ _ _ _ b H (B1 b) D) as [->|(i & ->)]; [now apply N|].
      cbn [step] in H. unfold detach_step in H. destruct (nth_error (s_detaches st) i) as [ds|] eqn:Nd; [|discriminate].
      rewrite (B2 _ _ Nd) in H. discriminate.
    + exfalso. now apply N.
    + cbn [step] in H. unfold detach_step in H. destruct (nth_error (s_detaches st) i) as [ds|] eqn:Nd; [|discriminate].
      rewrite (B2 _ _ Nd) in H. discriminate.
Qed.

Definition guards (full : bool) (h : how) (o : op) : Prop := if full then cuts h o else deletes h o.

(** The worker is over, or everything it needs is there and it will be stopped before that changes. *)
Definition shielded (full : bool) (w : nat) (h : how) (s : world) : Prop :=
  exists x, nth_error (wd_workers s) w = Some x /\ wk_how x = h /\
    (wk_pos x = Over \/
     usable full h (wd_bus s) /\ (forall a o c, wd_ctl s = a ++ o :: c -> guards full h o -> In (OStop w) a \/ In (OJoin w) a)).

Lemma keeps_worker w s x p : nth_error (wd_workers s) w = Some x -> wk_pos x <> Over ->
  forall w' x', nth_error (wd_workers s) w' = Some x' ->
  exists x2, nth_error (list_set w (goes p x) (wd_workers s)) w' = Some x2 /\ wk_how x2 = wk_how x' /\ (wk_pos x' = Over -> wk_pos x2 = Over).
Proof.
  intros N NO w' x' N'. destruct (Nat.eq_dec w' w) as [->|Ne].
  - rewrite list_set_eq by (eapply nth_error_Some_lt; eauto). eexists. split; [reflexivity|]. simpl. assert (x' = x) as -> by congruence. split; auto. intros; contradiction.
  - rewrite list_set_ne by auto. eauto.
Qed.

Lemma shielded_bus full w h s st' evs l k ws :
  shielded full w h s -> step l (wd_bus s) = Some (st', evs) -> ~ harmful full h l ->
  (forall w' x', nth_error (wd_workers s) w' = Some x' -> exists x2, nth_error ws w' = Some x2 /\ wk_how x2 = wk_how x' /\ (wk_pos x' = Over -> wk_pos x2 = Over)) ->
  (exists a, Forall (fun o => o <> OStop w /\ o <> OJoin w) a /\ wd_ctl s = a ++ k) ->
  forall d, shielded full w h (mkWorld st' ws k d).
Proof.
  intros (x & N & Eh & Q) H Nh Wk (a0 & Fa & Ek) d. destruct (Wk _ _ N) as (x2 & N2 & Eh2 & O2). exists x2. simpl. split; auto. split; [congruence|].
  destruct Q as [Q|(U & G)]; auto. right. split; [eapply usable_step; eauto|].
  intros a o c -> Go. specialize (G (a0 ++ a) o c). rewrite <- app_assoc in G. specialize (G Ek Go). rewrite Forall_forall in Fa.
  destruct G as [G|G]; apply in_app_iff in G as [G|G]; auto; exfalso; [now apply (proj1 (Fa _ G))|now apply (proj2 (Fa _ G))].
Qed.

Lemma publication_safe h d l full h' : publication h d = Some l -> ~ harmful full h' l.
Proof. destruct h, d; intros [= <-] Q; simpl in Q; destruct h'; contradiction. Qed.

Lemma shielded_step full w h l s s' : winv s -> shielded full w h s -> calm_other l -> wstep l s = Some s' -> shielded full w h s'.
Proof.
  intros V Sh C H. pose proof H as Hs. unfold wstep in H. destruct (wd_dead s) eqn:Dd; [discriminate|].
  assert (forall w' x', nth_error (wd_workers s) w' = Some x' -> exists x2, nth_error (wd_workers s) w' = Some x2 /\ wk_how x2 = wk_how x' /\ (wk_pos x' = Over -> wk_pos x2 = Over)) as Same by eauto.
  assert (exists a, Forall (fun o => o <> OStop w /\ o <> OJoin w) a /\ wd_ctl s = a ++ wd_ctl s) as SameC by (exists []; auto).
  assert (forall w0 x0 p0, nth_error (wd_workers s) w0 = Some x0 -> wk_pos x0 <> Over -> shielded full w h (set_worker w0 (goes p0 x0) s)) as Mv.
  { intros w0 x0 p0 N0 NO. destruct Sh as (x & N & Eh & Q). destruct (keeps_worker w0 s x0 p0 N0 NO _ _ N) as (x2 & N2 & Eh2 & O2).
    exists x2. simpl. split; auto. split; [congruence|]. destruct Q as [Q|Q]; auto. }
  destruct l as [w0 o|w0| |l].
  - unfold work in H. destruct (nth_error (wd_workers s) w0) as [x0|] eqn:N0; [|discriminate].
    destruct (wk_pos x0) as [|[|n]| |] eqn:P; destruct o as [d|]; try discriminate; try (injection H as <-; apply Mv; auto; congruence).
    destruct (publication (wk_how x0) d) as [l|] eqn:Pu; [|discriminate]. destruct (step l (wd_bus s)) as [[st' evs]|] eqn:E; [|discriminate]. injection H as <-.
    apply (shielded_bus full w h s st' evs l); auto; [eapply publication_safe; eauto|]. apply (keeps_worker w0 s x0 _ N0). congruence.
  - unfold fly in H. destruct (nth_error (wd_workers s) w0) as [x0|] eqn:N0; [|discriminate].
    destruct (wk_pos x0) as [| |i n|] eqn:P; try discriminate. destruct (step (LFly i) (wd_bus s)) as [[st' evs]|] eqn:E; [|discriminate].
    destruct (returned i evs) as [|[]]; injection H as <-; apply (shielded_bus full w h s st' evs (LFly i)); auto; try (intros Q; simpl in Q; destruct h; contradiction).
    apply (keeps_worker w0 s x0 _ N0). congruence.
  - unfold ctl in H. destruct (wd_ctl s) as [|o k] eqn:Ek; [discriminate|].
    assert (forall o', o' = o -> guards full h o' -> exists x, nth_error (wd_workers s) w = Some x /\ wk_how x = h /\ wk_pos x = Over) as Now.
    { intros o' -> G. destruct Sh as (x & N & Eh & [Q|(_ & Q)]); eauto. destruct (Q [] o k Ek G) as [[]|[]]. }
    assert (forall st' ws d, (exists x, nth_error (wd_workers s) w = Some x /\ wk_how x = h /\ wk_pos x = Over) ->
      (forall w' x', nth_error (wd_workers s) w' = Some x' -> exists x2, nth_error ws w' = Some x2 /\ wk_how x2 = wk_how x' /\ (wk_pos x' = Over -> wk_pos x2 = Over)) ->
      forall k', shielded full w h (mkWorld st' ws k' d)) as Done.
    { intros st' ws d (x & N & Eh & Q) Wk k'. destruct (Wk _ _ N) as (x2 & N2 & Eh2 & O2). exists x2. simpl. split; auto. split; [congruence|auto]. }
    destruct o as [b|i|w0|w0|l].
    + destruct (step (LDetach b) (wd_bus s)) as [[st' evs]|] eqn:E; [|discriminate]. injection H as <-.
      destruct full.
      * apply Done; auto. apply (Now (ODetach b) eq_refl). exact I.
      * destruct Sh as (x & N & Eh & Q). exists x. simpl. split; auto. split; auto. destruct Q as [Q|(U & G)]; auto. right. split.
        -- eapply usable_step; eauto. destruct h; simpl; discriminate.
        -- intros a o c Q Go. destruct a as [|o1 a]; simpl in Q; [injection Q as <- <-; destruct h; contradiction|]. injection Q as <- ->.
           destruct (G (ODetach b :: a) o c Ek Go) as [[Z|Z]|[Z|Z]]; try discriminate; simpl; auto.
    + assert (forall st' evs, step (LDetachStep i) (wd_bus s) = Some (st', evs) -> shielded full w h (set_wbus st' s)) as A.
      { intros st' evs E. apply (shielded_bus full w h s st' evs (LDetachStep i)); auto; try (rewrite Ek; exact SameC). }
      assert (shielded full w h (set_ctl k s)) as B.
      { destruct Sh as (x & N & Eh & Q). exists x. simpl. split; auto. split; auto. destruct Q as [Q|(U & G)]; auto. right. split; auto.
        intros a o c Q Go. destruct (G (ODetaching i :: a) o c) as [[Z|Z]|[Z|Z]]; auto; try discriminate. simpl. now rewrite <- Q. }
      destruct (nth_error (s_detaches (wd_bus s)) i) as [[|f ds]|].
      * injection H as <-. exact B.
      * destruct (step (LDetachStep i) (wd_bus s)) as [[st' evs]|] eqn:E; [|discriminate]. injection H as <-. eauto.
      * destruct (step (LDetachStep i) (wd_bus s)) as [[st' evs]|] eqn:E; [|discriminate]. injection H as <-. eauto.
    + destruct (nth_error (wd_workers s) w0) as [x0|] eqn:N0; [|discriminate]. destruct (wk_run x0) eqn:R; injection H as <-.
      * destruct Sh as (x & N & Eh & Q).
        assert (exists x2, nth_error (list_set w0 (mkWorker (wk_how x0) (wk_round x0) false (wk_pos x0)) (wd_workers s)) w = Some x2 /\ wk_how x2 = h /\ wk_pos x2 = wk_pos x) as (x2 & N2 & Eh2 & P2).
        { destruct (Nat.eq_dec w w0) as [->|Ne].
          - rewrite list_set_eq by (eapply nth_error_Some_lt; eauto). eexists. split; [reflexivity|]. simpl. assert (x0 = x) as -> by congruence. auto.
          - rewrite list_set_ne by auto. eauto. }
        exists x2. simpl. split; auto. split; auto. rewrite P2. destruct Q as [Q|(U & G)]; auto. right. split; auto.
        intros a o c Q Go. destruct a as [|o1 a]; simpl in Q; [injection Q as <- <-; destruct full, h; contradiction|]. injection Q as <- ->.
        destruct (G (OStop w0 :: a) o c Ek Go) as [[Z|Z]|[Z|Z]]; try discriminate; simpl; auto. injection Z as ->. auto.
      * destruct Sh as (x & N & Eh & Q). exists x. simpl. split; auto. split; auto.
        destruct (Nat.eq_dec w w0) as [->|Ne].
        -- assert (x0 = x) as -> by congruence. destruct (v_run _ V _ _ N R) as [O|(k' & O)]; auto. congruence.
        -- destruct Q as [Q|(U & G)]; auto. right. split; auto. intros a o c Q Go.
           destruct (G (OStop w0 :: a) o c) as [[Z|Z]|[Z|Z]]; auto; try discriminate; [simpl; now rewrite <- Q|]. injection Z as Z. congruence.
    + destruct (nth_error (wd_workers s) w0) as [x0|] eqn:N0; [|discriminate]. destruct (wk_pos x0) eqn:P; try discriminate. injection H as <-.
      destruct Sh as (x & N & Eh & Q). exists x. simpl. split; auto. split; auto.
      destruct (Nat.eq_dec w w0) as [->|Ne]; [left; congruence|].
      destruct Q as [Q|(U & G)]; auto. right. split; auto. intros a o c Q Go.
      destruct (G (OJoin w0 :: a) o c) as [[Z|Z]|[Z|Z]]; auto; try discriminate; [simpl; now rewrite <- Q|]. injection Z as Z. congruence.
    + destruct (step l (wd_bus s)) as [[st' evs]|] eqn:E; [|discriminate]. injection H as <-.
      assert (guards full h (OCall l) \/ ~ harmful full h l) as [Gd|Nh].
      { pose proof (v_ctl _ V) as F. rewrite Ek in F. inversion F as [|? ? F1 _]; subst.
        destruct F1 as [[(b0 & s0 & ->)|(b0 & p0 & ->)]|[(? & Q)|(? & Q)]]; try discriminate.
        - right. intros Q. simpl in Q. destruct h; contradiction.
        - destruct h as [q|b1]; [|right; intros Q; contradiction]. destruct (Nat.eq_dec p0 q) as [->|Ne]; [left; destruct full; reflexivity|right; intros Q; contradiction]. }
      * apply Done; auto. apply (Now (OCall l) eq_refl). exact Gd.
      * apply (shielded_bus full w h s st' evs l); auto. rewrite Ek. exists [OCall l]. split; auto. repeat constructor; discriminate.
  - unfold other in H.
    assert (exists st' evs, step l (wd_bus s) = Some (st', evs) /\ s' = set_wbus st' s) as (st' & evs & E & ->).
    { destruct l; try (destruct (step _ (wd_bus s)) as [[st' evs]|] eqn:E; [|discriminate]; injection H as <-; eauto; fail).
      destruct (existsb (flown_by i) (wd_workers s)); [discriminate|]. destruct (step _ (wd_bus s)) as [[st' evs]|] eqn:E; [|discriminate]. injection H as <-; eauto. }
    apply (shielded_bus full w h s st' evs l); auto. intros Q. destruct l; simpl in C, Q; try contradiction; destruct h; contradiction.
Qed.

Lemma shielded_exec full w h ls : forall s s', winv s -> shielded full w h s -> Forall calm_other ls -> wexec ls s = Some s' -> shielded full w h s'.
Proof.
  induction ls as [|l ls IH]; intros s s' V Sh C X; simpl in X; [now injection X as <-|].
  destruct (wstep l s) as [s1|] eqn:H; [|discriminate]. inversion C; subst. apply (IH s1); auto; [eapply winv_step; eauto|eapply shielded_step; eauto].
Qed.

Lemma begun_shielded full s w x : begun s -> nth_error (wd_workers s) w = Some x -> stopped_before w (guards full (wk_how x)) (wd_ctl s) ->
  shielded full w (wk_how x) s.
Proof.
  intros (_ & (U1 & U2 & U3) & _) N B. exists x. split; auto. split; auto. right. split.
  - split; [intros p _; apply U2|]. intros _. auto.
  - intros a o c E G. left. exact (B a o c E G).
Qed.

(** ** The end *)

Lemma dies_inv l s s' : wstep l s = Some s' -> wd_dead s' = true ->
  exists w x i n, l = WFly w /\ nth_error (wd_workers s) w = Some x /\ wk_pos x = Inside i n /\
    ((exists p d, nth_error (s_flights (wd_bus s)) i = Some (FlyPub p d) /\ reset p (wd_bus s)) \/
     (exists b m, nth_error (s_flights (wd_bus s)) i = Some (FlyBus b m) /\ detached b (wd_bus s))).
Proof.
  intros H D. unfold wstep in H. destruct (wd_dead s) eqn:Dd; [discriminate|]. destruct l as [w o|w| |l].
  - exfalso. unfold work in H. destruct (nth_error (wd_workers s) w) as [x|] eqn:N; [|discriminate].
    destruct (wk_pos x) as [|[|n]| |]; destruct o as [d|]; try discriminate; try (injection H as <-; simpl in D; congruence).
    destruct (publication (wk_how x) d) as [l|]; [|discriminate]. destruct (step l (wd_bus s)) as [[st' evs]|]; [|discriminate]. injection H as <-. simpl in D. congruence.
  - unfold fly in H. destruct (nth_error (wd_workers s) w) as [x|] eqn:N; [|discriminate].
    destruct (wk_pos x) as [| |i n|] eqn:P; try discriminate. destruct (step (LFly i) (wd_bus s)) as [[st' evs]|] eqn:E; [|discriminate].
    exists w, x, i, n. split; auto. split; auto. split; auto.
    destruct (fly_returns _ _ _ _ E) as [(Q & _)|[(Q & _)|(Q & _ & R)]]; rewrite Q in H; injection H as <-; simpl in D; try congruence; auto.
  - exfalso. unfold ctl in H. destruct (wd_ctl s) as [|[b|i|w|w|l] k]; [discriminate| | | | |].
    + destruct (step _ _) as [[st' evs]|]; [|discriminate]. injection H as <-. simpl in D. congruence.
    + destruct (nth_error _ i) as [[|f ds]|]; [injection H as <-; simpl in D; congruence| |]; (destruct (step _ _) as [[st' evs]|]; [|discriminate]; injection H as <-; simpl in D; congruence).
    + destruct (nth_error _ w) as [x|]; [|discriminate]. destruct (wk_run x); injection H as <-; simpl in D; congruence.
    + destruct (nth_error _ w) as [x|]; [|discriminate]. destruct (wk_pos x); try discriminate. injection H as <-; simpl in D; congruence.
    + destruct (step _ _) as [[st' evs]|]; [|discriminate]. injection H as <-. simpl in D. congruence.
  - exfalso. unfold other in H. destruct l; try (destruct (step _ _) as [[st' evs]|]; [|discriminate]; injection H as <-; simpl in D; congruence).
    destruct (existsb _ _); [discriminate|]. destruct (step _ _) as [[st' evs]|]; [|discriminate]; injection H as <-; simpl in D; congruence.
Qed.

(** ** The program only detaches *)

Definition undistributed (st : state) : Prop := forall r b t, ~ in_stack st r (FKids b t).

Lemma free_undistributed st : reach st -> (forall b x, get_bus st b = Some x -> b_klock x = false) -> undistributed st.
Proof.
  intros Rc Fr r b t (x & G & I). destruct (stack_frame _ _ _ _ (k_stack _ (reach_lock _ Rc) _ _ G) I) as (y & pre & Gy & L & _).
  rewrite (Fr _ _ Gy) in L. discriminate.
Qed.

Definition alone (i : nat) (st : state) : Prop := forall j ds, j <> i -> nth_error (s_detaches st) j = Some ds -> ds = [].

Lemma detach_goes_on st i f ds : reach st -> undistributed st -> alone i st -> nth_error (s_detaches st) i = Some (f :: ds) ->
  enabled (LDetachStep i) st.
Proof.
  intros Rc Un Al N. pose proof (reach_tree _ Rc) as T. pose proof (reach_lock _ Rc) as K. pose proof (k_dstack _ K _ _ N) as D.
  unfold enabled. cbn [step]. unfold detach_step. rewrite N. destruct f as [c|c [|k ks]]; eauto.
  destruct (dstack_frame _ _ (DLock c) D (or_introl eq_refl)) as (y & Gy). rewrite Gy. destruct (b_klock y) eqn:L; eauto.
  exfalso. destruct (k_k _ K _ _ Gy L) as [(r & t & I)|(j & t & I)]; [now apply (Un r c t)|].
  destruct I as (ds' & Nj & I). destruct (Nat.eq_dec j i) as [->|Ne].
  - rewrite N in Nj. injection Nj as <-. destruct I as [I|I]; [discriminate|]. destruct (dstack_above _ _ _ _ T D I) as [_ Lt]. simpl in Lt. lia.
  - rewrite (Al _ _ Ne Nj) in I. contradiction.
Qed.

Lemma detach_step_keeps i st st' evs : step (LDetachStep i) st = Some (st', evs) -> undistributed st -> alone i st -> undistributed st' /\ alone i st'.
Proof.
  intros H Un Al. destruct (detach_inv _ _ _ _ H) as (ds & ds' & a & N & C & E). split.
  - intros r b t (x & G & I). rewrite E, detach_view in G. destruct (get_bus st r) as [x0|] eqn:G0; [|discriminate].
    apply (Un r b t). exists x0. split; auto. simpl in G. injection G as <-. exact I.
  - intros j dj Ne Nj. destruct (detach_rest i ds' a st) as (_ & Ed & _). rewrite E, Ed, list_set_ne in Nj by auto. eapply Al; eauto.
Qed.

Lemma detach_finishes n : forall s i k ds, reach (wd_bus s) -> wd_dead s = false -> wd_ctl s = ODetaching i :: k ->
  dtotal (wd_bus s) (s_detaches (wd_bus s)) n -> nth_error (s_detaches (wd_bus s)) i = Some ds -> undistributed (wd_bus s) -> alone i (wd_bus s) ->
  exists m s' tr, wexec (repeat WCtl m) s = Some s' /\ exec (repeat (LDetachStep i) m) (wd_bus s) = Some (wd_bus s', tr) /\
    wd_workers s' = wd_workers s /\ wd_dead s' = false /\ nth_error (s_detaches (wd_bus s')) i = Some [].
Proof.
  induction n as [n IH] using lt_wf_ind. intros s i k ds Rc Dd Ek Dt N Un Al. destruct ds as [|f ds].
  - exists 0, s, []. auto.
  - destruct (detach_goes_on _ _ _ _ Rc Un Al N) as (st1 & e1 & H). destruct (detach_cost _ _ _ _ _ H Dt) as (n' & D' & En).
    destruct (detach_step_keeps _ _ _ _ H Un Al) as (Un1 & Al1).
    assert (exists ds1, nth_error (s_detaches st1) i = Some ds1) as (ds1 & N1).
    { destruct (detach_inv _ _ _ _ H) as (d0 & d1 & a & N0 & C & E). destruct (detach_rest i d1 a (wd_bus s)) as (_ & Ed & _).
      rewrite E, Ed, list_set_eq by (eapply nth_error_Some_lt; eauto). eauto. }
    destruct (IH n' ltac:(lia) (set_wbus st1 s) i k ds1) as (m & s' & tr & X & X' & Ew & Ed & Nd); simpl; auto.
    { eapply reach_step; eauto. }
    exists (S m), s', (e1 ++ tr). cbn [repeat wexec exec]. rewrite H. simpl in X'. rewrite X'. split; [|auto].
    unfold wstep at 1. unfold ctl. rewrite Dd, Ek, N, H. exact X.
Qed.

Lemma flight_exec ls : forall st st' tr i f, exec ls st = Some (st', tr) -> Forall (fun l => l <> LFly i) ls ->
  nth_error (s_flights st) i = Some f -> nth_error (s_flights st') i = Some f.
Proof.
  induction ls as [|l ls IH]; intros st st' tr i f X F N.
  - simpl in X. now injection X as <- <-.
  - apply exec_cons_inv in X. destruct X as (st1 & e1 & e2 & H1 & H2 & ->). inversion F; subst.
    destruct (step_flight _ _ _ _ _ _ H1 N) as [->|(N' & _)]; [congruence|]. eapply IH; eauto.
Qed.

(** A worker inside a publication that has reached bus [b]; the ending thread is about to detach a bus above it. *)
Lemma caught s r k w x i n b m : reach (wd_bus s) -> wd_dead s = false -> wd_ctl s = ODetach r :: k ->
  (forall c y, get_bus (wd_bus s) c = Some y -> b_klock y = false) -> (forall j ds, nth_error (s_detaches (wd_bus s)) j = Some ds -> ds = []) ->
  nth_error (wd_workers s) w = Some x -> wk_pos x = Inside i n -> nth_error (s_flights (wd_bus s)) i = Some (FlyBus b m) ->
  below (wd_bus s) r b -> (exists y, get_bus (wd_bus s) r = Some y) ->
  exists c s', wexec (repeat WCtl c ++ [WFly w]) s = Some s' /\ wd_dead s' = true.
Proof.
  intros Rc Dd Ek Fr Em N P Fl B (y & Gr).
  assert (exists st1 e1, step (LDetach r) (wd_bus s) = Some (st1, e1)) as (st1 & e1 & H) by (cbn [step]; rewrite Gr; eauto).
  assert (reach st1) as R1 by (eapply reach_step; eauto).
  set (j := length (s_detaches (wd_bus s))). set (s1 := set_ctl (ODetaching j :: k) (set_wbus st1 s)).
  destruct (reach_dtotal _ R1) as (t & Dt).
  assert (s_detaches st1 = s_detaches (wd_bus s) ++ [[DLock r]]) as Ed by (cbn [step] in H; rewrite Gr in H; injection H as <- <-; reflexivity).
  assert (undistributed st1) as Un.
  { intros r0 b0 t0 (x0 & G0 & I0). cbn [step] in H. rewrite Gr in H. injection H as <- <-.
    assert (exists x1, get_bus (wd_bus s) r0 = Some x1 /\ b_runner x1 = b_runner x0) as (x1 & G1 & E1).
    { unfold get_bus in *. simpl in G0. destruct (Nat.eq_dec r0 r) as [->|Ne].
      - rewrite list_set_eq in G0 by (eapply nth_error_Some_lt; eauto). injection G0 as <-. eauto.
      - rewrite list_set_ne in G0 by auto. eauto. }
    apply (free_undistributed _ Rc Fr r0 b0 t0). exists x1. split; auto. now rewrite E1. }
  assert (alone j st1) as Al.
  { intros j' ds Ne Nj. rewrite Ed in Nj. destruct (lt_dec j' j) as [L|L]; [rewrite nth_error_app1 in Nj by auto; eauto|].
    pose proof (nth_error_Some_lt _ _ _ Nj) as L'. rewrite app_length in L'. simpl in L'. unfold j in *. lia. }
  destruct (detach_finishes t s1 j k [DLock r]) as (c & s2 & tr & X & X' & Ew & D2 & Nd); auto; simpl.
  { rewrite Ed. apply nth_snoc_new. }
  assert (detached b (wd_bus s2)) as Db.
  { destruct (cutting_exec _ _ _ _ [] _ _ R1 (cutting_start _ _ _ _ H) X') as (ds & N2 & Dr & A). assert (ds = []) as -> by (unfold j in Nd; congruence).
    destruct (Nat.eq_dec b r) as [->|Ne]; auto.
    assert (forall ls st0 st' tr0, exec ls st0 = Some (st', tr0) -> below st0 r b -> below st' r b) as Bl.
    { induction ls as [|l0 ls0 IH0]; intros st0 st' tr0 X0 B0; [simpl in X0; now injection X0 as <- <-|].
      apply exec_cons_inv in X0. destruct X0 as (st3 & e3 & e4 & H3 & H4 & _). eapply IH0; eauto. eapply step_below_mono; eauto. }
    destruct (A b) as [(Q & _)|(f & [] & _)]; auto. eapply Bl; eauto. eapply step_below_mono; eauto. }
  assert (nth_error (s_flights (wd_bus s2)) i = Some (FlyBus b m)) as Fl2.
  { eapply flight_exec; [exact X'| |].
    - apply Forall_forall. intros l I. apply repeat_spec in I. subst l. discriminate.
    - simpl. destruct (step_flight _ _ _ _ _ _ H Fl) as [Q|(Q & _)]; [discriminate|exact Q]. }
  assert (reach (wd_bus s2)) as R2 by (eapply reach_exec; [|exact X']; exact R1).
  destruct Db as (y2 & G2 & F2).
  assert (exists s3, wstep (WFly w) s2 = Some s3 /\ wd_dead s3 = true) as (s3 & H3 & D3).
  { unfold wstep, fly. rewrite D2, Ew. cbn [s1 set_ctl set_wbus wd_workers]. rewrite N, P. cbn [step]. unfold fly_step. rewrite Fl2, G2, F2. simpl. rewrite Nat.eqb_refl.
    eexists. split; reflexivity. }
  exists (S c), s3. split; auto. cbn [repeat app wexec]. unfold wstep at 1. rewrite Dd. unfold ctl. rewrite Ek, H. fold j. fold s1.
  apply wexec_app. exists s2. split; auto. cbn [wexec]. now rewrite H3.
Qed.

Lemma wexec_dead ls s : wd_dead s = true -> wexec ls s = Some s -> ls = [].
Proof. destruct ls as [|l ls]; auto. simpl. unfold wstep. intros ->. discriminate. Qed.

(** ** Steps that do not involve the ending thread *)

Lemma wstep_noctl l s s' k : l <> WCtl -> wstep l s = Some s' -> wstep l (set_ctl k s) = Some (set_ctl k s').
Proof.
  intros Nl H. unfold wstep in *. cbn [set_ctl wd_bus wd_workers wd_dead]. destruct (wd_dead s); [discriminate|]. destruct l as [w o|w| |l].
  - unfold work in *. cbn [set_ctl wd_bus wd_workers wd_dead]. destruct (nth_error (wd_workers s) w) as [x|]; [|discriminate].
    destruct (wk_pos x) as [|[|n]| |]; destruct o as [d|]; try discriminate; try (injection H as <-; reflexivity).
    destruct (publication (wk_how x) d) as [l|]; [|discriminate]. destruct (step l (wd_bus s)) as [[st' evs]|]; [|discriminate]. injection H as <-. reflexivity.
  - unfold fly in *. cbn [set_ctl wd_bus wd_workers wd_dead]. destruct (nth_error (wd_workers s) w) as [x|]; [|discriminate].
    destruct (wk_pos x); try discriminate. destruct (step _ (wd_bus s)) as [[st' evs]|]; [|discriminate].
    destruct (returned i evs) as [|[]]; injection H as <-; reflexivity.
  - congruence.
  - unfold other in *. cbn [set_ctl wd_bus wd_workers wd_dead]. destruct l; try (destruct (step _ (wd_bus s)) as [[st' evs]|]; [|discriminate]; injection H as <-; reflexivity).
    destruct (existsb _ _); [discriminate|]. destruct (step _ (wd_bus s)) as [[st' evs]|]; [|discriminate]; injection H as <-; reflexivity.
Qed.

Lemma wexec_noctl ls : forall s s' k, Forall (fun l => l <> WCtl) ls -> wexec ls s = Some s' -> wexec ls (set_ctl k s) = Some (set_ctl k s').
Proof.
  induction ls as [|l ls IH]; intros s s' k F X; simpl in *; [now injection X as <-|].
  destruct (wstep l s) as [s1|] eqn:H; [|discriminate]. inversion F; subst. rewrite (wstep_noctl l s s1 k); auto.
Qed.

(** ** A worker that has been told to stop *)

Definition bounded (x : worker) : Prop :=
  match wk_pos x with Body n => n <= wk_round x | Inside _ n => n < wk_round x | _ => True end.

(** How many steps it can still make. *)
Definition left (x : worker) (st : state) : nat :=
  match wk_pos x with
  | AtTest => 1
  | Body n => 3 * n + 2
  | Inside i n => 3 * n + match nth_error (s_flights st) i with Some (FlyPub _ _) => 4 | _ => 3 end
  | Over => 0
  end.

Lemma bounded_step l s s' : wstep l s = Some s' -> Forall bounded (wd_workers s) -> Forall bounded (wd_workers s').
Proof.
  intros H F. rewrite Forall_forall in F.
  assert (forall w x x', nth_error (wd_workers s) w = Some x -> bounded x' -> Forall bounded (list_set w x' (wd_workers s))) as Set_.
  { intros w x x' N B. apply Forall_forall. intros z I. apply In_nth_error in I. destruct I as (j & Nj). destruct (Nat.eq_dec j w) as [->|Ne].
    - rewrite list_set_eq in Nj by (eapply nth_error_Some_lt; eauto). injection Nj as <-. exact B.
    - rewrite list_set_ne in Nj by auto. apply F. eapply nth_error_In; eauto. }
  assert (Forall bounded (wd_workers s)) as F' by now apply Forall_forall.
  unfold wstep in H. destruct (wd_dead s); [discriminate|]. destruct l as [w o|w| |l].
  - unfold work in H. destruct (nth_error (wd_workers s) w) as [x|] eqn:N; [|discriminate]. pose proof (F x (nth_error_In _ _ N)) as Bx. unfold bounded in Bx.
    destruct (wk_pos x) as [|[|n]| |] eqn:P; destruct o as [d|]; try discriminate.
    + injection H as <-. simpl. apply (Set_ w x); auto. unfold bounded. simpl. destruct (wk_run x); auto.
    + injection H as <-. simpl. apply (Set_ w x); auto. exact I.
    + destruct (publication (wk_how x) d) as [l|]; [|discriminate]. destruct (step l (wd_bus s)) as [[st' evs]|]; [|discriminate]. injection H as <-. simpl.
      apply (Set_ w x); auto. unfold bounded. simpl. destruct (returned _ evs); simpl; lia.
    + injection H as <-. simpl. apply (Set_ w x); auto. unfold bounded. simpl. lia.
  - unfold fly in H. destruct (nth_error (wd_workers s) w) as [x|] eqn:N; [|discriminate]. pose proof (F x (nth_error_In _ _ N)) as Bx. unfold bounded in Bx.
    destruct (wk_pos x) eqn:P; try discriminate. destruct (step _ (wd_bus s)) as [[st' evs]|]; [|discriminate].
    destruct (returned i evs) as [|[]]; injection H as <-; simpl; auto. apply (Set_ w x); auto. unfold bounded. simpl. lia.
  - unfold ctl in H. destruct (wd_ctl s) as [|[b|i|w|w|l] k]; [discriminate| | | | |].
    + destruct (step _ _) as [[st' evs]|]; [|discriminate]. injection H as <-. exact F'.
    + destruct (nth_error _ i) as [[|f ds]|]; [injection H as <-; exact F'| |]; (destruct (step _ _) as [[st' evs]|]; [|discriminate]; injection H as <-; exact F').
    + destruct (nth_error _ w) as [x|] eqn:N; [|discriminate]. pose proof (F x (nth_error_In _ _ N)) as Bx.
      destruct (wk_run x); injection H as <-; simpl; auto. apply (Set_ w x); auto.
    + destruct (nth_error _ w) as [x|]; [|discriminate]. destruct (wk_pos x); try discriminate. injection H as <-. exact F'.
    + destruct (step _ _) as [[st' evs]|]; [|discriminate]. injection H as <-. exact F'.
  - unfold other in H. destruct l; try (destruct (step _ _) as [[st' evs]|]; [|discriminate]; injection H as <-; exact F').
    destruct (existsb _ _); [discriminate|]. destruct (step _ _) as [[st' evs]|]; [|discriminate]; injection H as <-; exact F'.
Qed.

Lemma bounded_exec ls : forall s s', wexec ls s = Some s' -> Forall bounded (wd_workers s) -> Forall bounded (wd_workers s').
Proof.
  induction ls as [|l ls IH]; intros s s' X F; simpl in X; [now injection X as <-|].
  destruct (wstep l s) as [s1|] eqn:H; [|discriminate]. eapply IH; eauto. eapply bounded_step; eauto.
Qed.

Lemma left_bound x st : bounded x -> left x st <= 3 * wk_round x + 2.
Proof.
  unfold bounded, left. destruct (wk_pos x); try lia. destruct (nth_error (s_flights st) i) as [[]|]; lia.
Qed.

(** A step of another worker or thread changes neither the worker nor its flight. *)
Lemma left_same x st st' l evs s w : winv s -> wd_bus s = st -> nth_error (wd_workers s) w = Some x -> wd_dead s = false ->
  (forall i n, wk_pos x = Inside i n -> l <> LFly i) -> step l st = Some (st', evs) -> left x st' = left x st.
Proof.
  intros V E N D NF H. unfold left. destruct (wk_pos x) as [| |i n|] eqn:P; auto.
  destruct (v_in _ V D _ _ _ _ N P) as [(p & d & F & _)|(b & m & F)]; rewrite E in F; rewrite F;
    (destruct (step_flight _ _ _ _ _ _ H F) as [->|(F' & _)]; [exfalso; eapply NF; eauto|now rewrite F']).
Qed.

Lemma left_step l s s' w x : winv s -> wstep l s = Some s' -> nth_error (wd_workers s) w = Some x -> wk_run x = false ->
  wd_dead s' = true \/
  exists x', nth_error (wd_workers s') w = Some x' /\ wk_run x' = false /\ wk_round x' = wk_round x /\
    left x' (wd_bus s') + (if owned w l then 1 else 0) <= left x (wd_bus s).
Proof.
  intros V H N R. pose proof H as H0. unfold wstep in H. destruct (wd_dead s) eqn:Dd; [discriminate|]. destruct l as [w0 o|w0| |l].
  - unfold work in H. destruct (nth_error (wd_workers s) w0) as [x0|] eqn:N0; [|discriminate]. right. simpl owned.
    destruct (Nat.eqb w0 w) eqn:Ew.
    + apply Nat.eqb_eq in Ew. subst w0. assert (x0 = x) as -> by congruence.
      assert (w < length (wd_workers s)) as Lw by (eapply nth_error_Some_lt; eauto).
      destruct (wk_pos x) as [|[|n]| |] eqn:P; destruct o as [d|]; try discriminate.
      * injection H as <-. simpl. rewrite list_set_eq by auto. eexists. split; [reflexivity|]. simpl. repeat split; auto. unfold left. simpl. rewrite R, P. lia.
      * injection H as <-. simpl. rewrite list_set_eq by auto. eexists. split; [reflexivity|]. simpl. repeat split; auto. unfold left. simpl. rewrite P. lia.
      * destruct (publication (wk_how x) d) as [l|] eqn:Pu; [|discriminate]. destruct (step l (wd_bus s)) as [[st' evs]|] eqn:E; [|discriminate]. injection H as <-.
        simpl. rewrite list_set_eq by auto. eexists. split; [reflexivity|]. simpl. repeat split; auto. unfold left. simpl. rewrite P.
        destruct (returned _ evs); simpl; [|lia]. destruct (nth_error (s_flights st') (length (s_flights (wd_bus s)))) as [[]|]; lia.
      * injection H as <-. simpl. rewrite list_set_eq by auto. eexists. split; [reflexivity|]. simpl. repeat split; auto. unfold left. simpl. rewrite P. lia.
    + apply Nat.eqb_neq in Ew.
      destruct (wk_pos x0) as [|[|n]| |] eqn:P; destruct o as [d|]; try discriminate;
        try (injection H as <-; simpl; rewrite list_set_ne by auto; exists x; repeat split; auto; lia).
      destruct (publication (wk_how x0) d) as [l|] eqn:Pu; [|discriminate]. destruct (step l (wd_bus s)) as [[st' evs]|] eqn:E; [|discriminate]. injection H as <-.
      simpl. rewrite list_set_ne by auto. exists x. repeat split; auto.
      rewrite (left_same x (wd_bus s) st' l evs s w); auto; [lia|]. intros i n0 _. destruct (publish_begin _ _ _ _ _ _ Pu E) as (Q & _). apply Q.
  - unfold fly in H. destruct (nth_error (wd_workers s) w0) as [x0|] eqn:N0; [|discriminate].
    destruct (wk_pos x0) as [| |i n|] eqn:P; try discriminate. destruct (step (LFly i) (wd_bus s)) as [[st' evs]|] eqn:E; [|discriminate]. simpl owned.
    destruct (Nat.eqb w0 w) eqn:Ew.
    + apply Nat.eqb_eq in Ew. subst w0. assert (x0 = x) as -> by congruence.
      destruct (fly_returns _ _ _ _ E) as [(Q & p & d & y & m & Fl & _ & Fl')|[(Q & Fl' & _)|(Q & _)]]; rewrite Q in H; injection H as <-.
      * right. simpl. exists x. repeat split; auto. unfold left. rewrite P, Fl, Fl'. lia.
      * right. simpl. rewrite list_set_eq by (eapply nth_error_Some_lt; eauto). eexists. split; [reflexivity|]. simpl. repeat split; auto.
        unfold left. simpl. rewrite P. destruct (nth_error (s_flights (wd_bus s)) i) as [[]|]; lia.
      * now left.
    + apply Nat.eqb_neq in Ew.
      assert (left x st' = left x (wd_bus s)) as EL.
      { apply (left_same x (wd_bus s) st' (LFly i) evs s w); auto. intros i' n' P' Q. injection Q as <-. apply Ew. eapply (v_one _ V); eauto. }
      destruct (returned i evs) as [|[]]; injection H as <-; [right|right|now left|now left|now left].
      * simpl. exists x. repeat split; auto. lia.
      * simpl. rewrite list_set_ne by auto. exists x. repeat split; auto. lia.
  - right. unfold ctl in H. simpl owned.
    assert (forall l st' evs, (forall i, l <> LFly i) -> step l (wd_bus s) = Some (st', evs) -> left x st' = left x (wd_bus s)) as EL.
    { intros l st' evs NF E. apply (left_same x (wd_bus s) st' l evs s w); auto. }
    destruct (wd_ctl s) as [|[b|i|w0|w0|l] k] eqn:Ek; [discriminate| | | | |].
    + destruct (step (LDetach b) (wd_bus s)) as [[st' evs]|] eqn:E; [|discriminate]. injection H as <-. simpl. exists x. repeat split; auto.
      rewrite (EL (LDetach b) st' evs); auto; [lia|discriminate].
    + assert (forall st' evs, step (LDetachStep i) (wd_bus s) = Some (st', evs) -> exists x', nth_error (wd_workers (set_wbus st' s)) w = Some x' /\ wk_run x' = false /\ wk_round x' = wk_round x /\ left x' (wd_bus (set_wbus st' s)) + 0 <= left x (wd_bus s)) as Q.
      { intros st' evs E. simpl. exists x. repeat split; auto. rewrite (EL (LDetachStep i) st' evs); auto; [lia|discriminate]. }
      destruct (nth_error (s_detaches (wd_bus s)) i) as [[|f ds]|].
      * injection H as <-. simpl. exists x. repeat split; auto. lia.
      * destruct (step (LDetachStep i) (wd_bus s)) as [[st' evs]|] eqn:E; [|discriminate]. injection H as <-. eauto.
      * destruct (step (LDetachStep i) (wd_bus s)) as [[st' evs]|] eqn:E; [|discriminate]. injection H as <-. eauto.
    + destruct (nth_error (wd_workers s) w0) as [x0|] eqn:N0; [|discriminate]. destruct (wk_run x0) eqn:R0; injection H as <-; simpl.
      * rewrite list_set_ne by congruence. exists x. repeat split; auto. lia.
      * exists x. repeat split; auto. lia.
    + destruct (nth_error (wd_workers s) w0) as [x0|] eqn:N0; [|discriminate]. destruct (wk_pos x0); try discriminate. injection H as <-. simpl. exists x. repeat split; auto. lia.
    + destruct (step l (wd_bus s)) as [[st' evs]|] eqn:E; [|discriminate]. injection H as <-. simpl. exists x. repeat split; auto.
      pose proof (v_ctl _ V) as F. rewrite Ek in F. inversion F as [|? ? F1 _]; subst.
      destruct F1 as [[(b0 & s0 & ->)|(b0 & p0 & ->)]|[(? & Q)|(? & Q)]]; try discriminate; match type of E with step ?l _ = _ => rewrite (EL l st' evs); [lia|discriminate|exact E] end.
  - right. unfold other in H. simpl owned.
    assert (exists st' evs, step l (wd_bus s) = Some (st', evs) /\ s' = set_wbus st' s /\ forall i n, wk_pos x = Inside i n -> l <> LFly i) as (st' & evs & E & -> & NF).
    { destruct l; try (destruct (step _ (wd_bus s)) as [[st' evs]|] eqn:E; [|discriminate]; injection H as <-; repeat eexists; eauto; discriminate).
      destruct (existsb (flown_by i) (wd_workers s)) eqn:Ex; [discriminate|]. destruct (step _ (wd_bus s)) as [[st' evs]|] eqn:E; [|discriminate]. injection H as <-.
      repeat eexists; eauto. intros i' n' P Q. injection Q as <-.
      assert (existsb (flown_by i) (wd_workers s) = true) as Z; [|congruence]. apply existsb_exists. exists x. split; [eapply nth_error_In; eauto|].
      unfold flown_by. rewrite P. apply Nat.eqb_refl. }
    exists x. repeat split; auto. simpl. rewrite (left_same x (wd_bus s) st' l evs s w); auto. lia.
Qed.

Lemma left_exec ls : forall s s' w x, winv s -> wexec ls s = Some s' -> nth_error (wd_workers s) w = Some x -> wk_run x = false -> own w ls <= left x (wd_bus s).
Proof.
  induction ls as [|l ls IH]; intros s s' w x V X N R; [unfold own; simpl; lia|].
  cbn [wexec] in X. destruct (wstep l s) as [s1|] eqn:H; [|discriminate]. unfold own. cbn [filter].
  destruct (left_step _ _ _ _ _ V H N R) as [D|(x1 & N1 & R1 & _ & L)].
  - destruct ls as [|l1 ls]; [|cbn [wexec] in X; unfold wstep in X; rewrite D in X; discriminate]. destruct (owned w l) eqn:Ow; simpl; [|lia].
    destruct (dies_inv _ _ _ H D) as (w' & x' & i & n & -> & N' & P & _). simpl in Ow. apply Nat.eqb_eq in Ow. subst w'. assert (x' = x) as -> by congruence.
    unfold left. rewrite P. destruct (nth_error (s_flights (wd_bus s)) i) as [[]|]; lia.
  - specialize (IH s1 s' w x1 (winv_step _ _ _ V H) X N1 R1). unfold own in IH.
    destruct (owned w l); simpl; lia.
Qed.

(** ** Programs that stop in time *)

Lemma stopped_app w P k1 k2 : stopped_before w P k1 -> stopped_before w P k2 \/ In (OStop w) k1 -> stopped_before w P (k1 ++ k2).
Proof.
  intros S1 S2 a o c E Po. apply app_eq_app in E. destruct E as (k & [(E1 & E2)|(E1 & E2)]).
  - destruct k as [|o' k]; simpl in E2.
    + rewrite app_nil_r in E1. subst a. destruct S2 as [S2|S2]; auto. destruct (S2 [] o c (eq_sym E2) Po).
    + injection E2 as <- ->. exact (S1 _ _ _ E1 Po).
  - subst a. apply in_app_iff. destruct S2 as [S2|S2]; auto. right. exact (S2 _ _ _ E2 Po).
Qed.

Lemma stopped_none w (P : op -> Prop) k : (forall o, In o k -> ~ P o) -> stopped_before w P k.
Proof. intros F a o c -> Po. exfalso. apply (F o); auto. apply in_elt. Qed.

Lemma stopped_unload w p t : (forall b, In (LDelPub b p) (snd t) -> In w (fst t)) ->
  stopped_before w (deletes (ByPub p)) (unload_template t).
Proof.
  intros Ow. apply stopped_app.
  - apply stopped_none. intros o I. apply in_map_iff in I. destruct I as (z & <- & _). auto.
  - destruct (in_dec Nat.eq_dec w (fst t)) as [I|NI]; [right; now apply in_map|left].
    apply stopped_none. intros o I Q. apply in_map_iff in I. destruct I as (l & <- & I). destruct l; try contradiction. simpl in Q. subst p0. eauto.
Qed.

Lemma stopped_unloads w p ts : (forall t b, In t ts -> In (LDelPub b p) (snd t) -> In w (fst t)) ->
  stopped_before w (deletes (ByPub p)) (unload_templates ts).
Proof.
  induction ts as [|t ts IH]; intros Ow; [intros a o c E; destruct a; discriminate|]. unfold unload_templates. cbn [flat_map]. apply stopped_app.
  - apply stopped_unload. intros b. apply Ow. now left.
  - left. apply IH. intros t' b I. apply Ow. now right.
Qed.

Lemma in_unload w t ts : In t ts -> In w (fst t) -> In (OStop w) (unload_templates ts).
Proof. intros I J. apply in_flat_map. exists t. split; auto. apply in_app_iff. left. now apply in_map. Qed.

Lemma deletes_bus b o : ~ deletes (ByBus b) o.
Proof. destruct o as [| | | |[]]; intros []. Qed.

Lemma whose l s s' : wstep l s = Some s' -> forall w x', nth_error (wd_workers s') w = Some x' -> exists x, nth_error (wd_workers s) w = Some x /\ wk_how x = wk_how x'.
Proof.
  intros H w x0 N0. unfold wstep in H. destruct (wd_dead s); [discriminate|].
  assert (forall w' x' y', nth_error (wd_workers s) w' = Some x' -> wk_how y' = wk_how x' -> nth_error (list_set w' y' (wd_workers s)) w = Some x0 ->
    exists x1, nth_error (wd_workers s) w = Some x1 /\ wk_how x1 = wk_how x0) as Q.
  { intros w' x' y' N' E' Nx. destruct (Nat.eq_dec w w') as [->|Ne].
    - rewrite list_set_eq in Nx by (eapply nth_error_Some_lt; eauto). injection Nx as <-. exists x'. split; auto.
    - rewrite list_set_ne in Nx by auto. eauto. }
  destruct l as [w' o|w'| |l]; [unfold work in H|unfold fly in H|unfold ctl in H|unfold other in H];
    repeat match goal with
    | H : Some _ = Some _ |- _ => injection H as <-; cbn [set_worker set_wbus set_ctl die wd_workers] in N0; first [solve [eauto]|eapply Q; [eassumption| |exact N0]; reflexivity]
    | H : None = Some _ |- _ => discriminate H
    | H : match ?t with _ => _ end = Some _ |- _ => destruct t eqn:?
    end.
Qed.

Lemma whose_exec ls : forall s s', wexec ls s = Some s' -> forall w x', nth_error (wd_workers s') w = Some x' -> exists x, nth_error (wd_workers s) w = Some x /\ wk_how x = wk_how x'.
Proof.
  induction ls as [|l ls IH]; intros s s' X w x' N; simpl in X; [injection X as <-; eauto|]. destruct (wstep l s) as [s1|] eqn:H; [|discriminate].
  destruct (IH _ _ X _ _ N) as (x1 & N1 & E1). destruct (whose _ _ _ H _ _ N1) as (x & N0 & E0). exists x. split; auto. congruence.
Qed.

(** ** What the ending thread is at *)

Definition stopping (w : nat) (ws : list worker) : Prop := exists x, nth_error ws w = Some x /\ wk_run x = false.
Definition at_head (s : world) : Prop :=
  match wd_ctl s with
  | [] => True
  | o :: k => Forall plain k /\ (plain o \/ (exists i, o = ODetaching i) \/ exists w, o = OJoin w /\ stopping w (wd_workers s))
  end.

Lemma stopping_step l s s' w : wstep l s = Some s' -> stopping w (wd_workers s) -> stopping w (wd_workers s').
Proof.
  intros H (x & N & R). unfold wstep in H. destruct (wd_dead s); [discriminate|].
  assert (forall w' x' y', nth_error (wd_workers s) w' = Some x' -> (wk_run x' = false -> wk_run y' = false) -> stopping w (list_set w' y' (wd_workers s))) as Q.
  { intros w' x' y' N' E'. destruct (Nat.eq_dec w w') as [->|Ne].
    - exists y'. rewrite list_set_eq by (eapply nth_error_Some_lt; eauto). split; auto. apply E'. congruence.
    - exists x. rewrite list_set_ne by auto. auto. }
  assert (stopping w (wd_workers s)) as Q0 by (exists x; auto).
  destruct l as [w' o|w'| |l]; [unfold work in H|unfold fly in H|unfold ctl in H|unfold other in H];
    repeat match goal with
    | H : Some _ = Some _ |- _ => injection H as <-; cbn [set_worker set_wbus set_ctl die wd_workers]; first [exact Q0|eapply Q; [eassumption|]; intros; cbn; congruence]
    | H : None = Some _ |- _ => discriminate H
    | H : match ?t with _ => _ end = Some _ |- _ => destruct t eqn:?
    end.
Qed.

Lemma head_tail o k s : wd_ctl s = o :: k -> at_head s -> forall st ws d, at_head (mkWorld st ws k d).
Proof.
  unfold at_head. intros -> (F & _) st ws d. simpl. destruct k as [|o' k]; auto. inversion F; auto.
Qed.

Lemma at_head_step l s s' : wstep l s = Some s' -> at_head s -> at_head s'.
Proof.
  intros H A. assert (wd_ctl s' = wd_ctl s -> at_head s') as Keep.
  { intros E. unfold at_head in *. rewrite E. destruct (wd_ctl s) as [|o k]; auto. destruct A as (F & [P|[I|(w & Eo & S)]]); split; auto.
    right; right. exists w. split; auto. eapply stopping_step; eauto. }
  pose proof H as H0. unfold wstep in H. destruct (wd_dead s); [discriminate|]. destruct l as [w' o|w'| |l].
  1,2,4: apply Keep; unfold work, fly, other in H;
    repeat match goal with
    | H : Some _ = Some _ |- _ => injection H as <-; reflexivity
    | H : None = Some _ |- _ => discriminate H
    | H : match ?t with _ => _ end = Some _ |- _ => destruct t
    end.
  unfold ctl in H. destruct (wd_ctl s) as [|[b|i|w|w|l] k] eqn:Ek; [discriminate| | | | |].
  - destruct (step _ _) as [[st' evs]|]; [|discriminate]. injection H as <-. unfold at_head in *. rewrite Ek in A. simpl. destruct A as (F & _). split; eauto.
  - assert (at_head (set_ctl k s)) as Q by (eapply head_tail; eauto).
    destruct (nth_error _ i) as [[|f ds]|]; [injection H as <-; exact Q| |]; (destruct (step _ _) as [[st' evs]|]; [|discriminate]; injection H as <-; apply Keep; auto).
  - destruct (nth_error (wd_workers s) w) as [x|] eqn:N; [|discriminate]. destruct (wk_run x); injection H as <-; [|eapply head_tail; eauto].
    unfold at_head in *. rewrite Ek in A. simpl. destruct A as (F & _). split; auto. right; right. exists w. split; auto.
    eexists. rewrite list_set_eq by (eapply nth_error_Some_lt; eauto). split; reflexivity.
  - destruct (nth_error _ w) as [x|]; [|discriminate]. destruct (wk_pos x); try discriminate. injection H as <-. eapply head_tail; eauto.
  - destruct (step _ _) as [[st' evs]|]; [|discriminate]. injection H as <-. eapply head_tail; eauto.
Qed.

Lemma at_head_exec ls : forall s s', wexec ls s = Some s' -> at_head s -> at_head s'.
Proof.
  induction ls as [|l ls IH]; intros s s' X A; simpl in X; [now injection X as <-|]. destruct (wstep l s) as [s1|] eqn:H; [|discriminate].
  eapply IH; eauto. eapply at_head_step; eauto.
Qed.

Lemma begun_at_head s : begun s -> at_head s.
Proof. intros (_ & _ & F & _). unfold at_head. destruct (wd_ctl s); auto. inversion F; auto. Qed.

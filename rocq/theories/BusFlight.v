(** Publications: each hands its message over at most once, to the function of its bus. *)
From Coq Require Import String Ascii List Arith ZArith Bool Lia Sorted.
From Verif Require Import Prelude OMap DatagramModel DatagramSpec BusModel BusSpec BusProofs BusTree BusLocks BusLocks2 BusLocks3 BusDist BusAccount BusOnce.
Import ListNotations.
Open Scope list_scope.

Lemma handed_app i t1 t2 : handed i (t1 ++ t2) = handed i t1 ++ handed i t2.
Proof. apply flat_map_app. Qed.
Lemma returned_app i t1 t2 : returned i (t1 ++ t2) = returned i t1 ++ returned i t2.
Proof. apply flat_map_app. Qed.

Lemma nth_snoc_old {A} (l : list A) x i y : nth_error l i = Some y -> nth_error (l ++ [x]) i = Some y.
Proof. intros E. rewrite nth_error_app1; auto. apply nth_error_Some. congruence. Qed.
Lemma nth_snoc_new {A} (l : list A) x : nth_error (l ++ [x]) (length l) = Some x.
Proof. rewrite nth_error_app2, Nat.sub_diag; auto. Qed.

Lemma run_quiet_events st r x l old rn act evs i :
  rcase st r x l old rn act evs -> handed i evs = [] /\ returned i evs = [].
Proof.
  intros R. inversion R; subst; auto; unfold handed, returned; simpl; rewrite ?flat_map_app; simpl; rewrite !flat_lost; auto.
Qed.

(** A publication moves only by its own steps. *)
Lemma step_flight l st st' evs i f :
  step l st = Some (st', evs) -> nth_error (s_flights st) i = Some f ->
  l = LFly i \/ (nth_error (s_flights st') i = Some f /\ handed i evs = [] /\ returned i evs = []).
Proof.
  intros H N. pose proof (nth_error_Some_lt _ _ _ N) as L.
  assert (length (s_flights st) =? i = false) as Ei by (apply Nat.eqb_neq; lia).
  destruct l;
    try (right; step_cases H; simpl; acc; simpl; rewrite ?Ei; repeat split; auto using nth_snoc_old; fail).
  - (* detach *) right. destruct (detach_inv _ _ _ _ H) as (ds & ds' & a & _ & D & E).
    destruct (detach_rest i0 ds' a st) as (_ & _ & F). rewrite E, F. split; auto. destruct D; auto. destruct stk; auto.
  - (* fly *) destruct (Nat.eq_dec i0 i) as [->|Ne]; auto. right.
    assert (i0 =? i = false) as Ei0 by now apply Nat.eqb_neq.
    destruct (fly_inv _ _ _ _ H) as [(p & d & xp & y & m & N0 & Np & F & Gy & Em & [(Fn & -> & ->)|(Fn & -> & ->)])|[(p & d & xp & N0 & Np & F & -> & ->)|(b & m & y & N0 & Gy & [(Fn & -> & ->)|[(g & Fn & -> & ->)|[(r0 & z & Fn & Gz & -> & ->)|(r0 & Fn & Gz & -> & ->)]]])]];
      simpl; rewrite ?Ei0, ?list_set_ne by auto; auto.
  - right. destruct (run_inv' _ _ _ _ _ H eq_refl) as (x & rn & act & G & RC & E). destruct (run_quiet_events _ _ _ _ _ _ _ _ i RC) as [? ?].
    destruct (run_rest r rn act (LRun r) (b_runner x) st) as (_ & _ & F). rewrite E, F. auto.
  - right. destruct (run_inv' _ _ _ _ _ H eq_refl) as (x & rn & act & G & RC & E). destruct (run_quiet_events _ _ _ _ _ _ _ _ i RC) as [? ?].
    destruct (run_rest r rn act (LThrow r e) (b_runner x) st) as (_ & _ & F). rewrite E, F. auto.
Qed.

(** Publishers keep topic and bus; Reset is permanent. *)
Lemma step_pub l st st' evs p y :
  step l st = Some (st', evs) -> nth_error (s_pubs st) p = Some y ->
  exists y', nth_error (s_pubs st') p = Some y' /\ p_topic y' = p_topic y /\ p_bus y' = p_bus y /\
    (p_fn y' = p_fn y \/ (exists b, l = LDelPub b p) /\ p_fn y' = false).
Proof.
  intros H N.
  destruct l; try (step_cases H; simpl; acc; simpl; exists y; repeat split; auto using nth_snoc_old; fail).
  - (* DelPub *) step_cases H. simpl. acc. destruct (Nat.eq_dec p0 p) as [->|Ne].
    + rewrite N in *. match goal with E : Some _ = Some _ |- _ => injection E as <- end.
      exists (mkPub (p_topic y) (p_bus y) false). rewrite list_set_eq by (eapply nth_error_Some_lt; eauto).
      repeat split; auto. right. eauto.
    + exists y. rewrite list_set_ne by auto. auto.
Qed.

Lemma fn_none_step l st st' evs b x : step l st = Some (st', evs) -> get_bus st b = Some x -> b_fn x = None ->
  exists x', get_bus st' b = Some x' /\ b_fn x' = None.
Proof.
  intros H G F. destruct (step_delta _ _ _ _ _ _ H G) as (x' & G' & D). exists x'. split; auto.
  destruct (d_fn _ _ _ _ _ _ D) as [E|[E _]]; congruence.
Qed.

(** The publisher was reset; the bus was detached. *)
Definition reset (p : nat) (st : state) : Prop := exists y, nth_error (s_pubs st) p = Some y /\ p_fn y = false.
Definition detached (b : nat) (st : state) : Prop := exists x, get_bus st b = Some x /\ b_fn x = None.

Lemma reset_step l st st' evs p : step l st = Some (st', evs) -> reset p st -> reset p st'.
Proof.
  intros H (y & N & F). destruct (step_pub _ _ _ _ _ _ H N) as (y' & N' & _ & _ & [E|[_ E]]); exists y'; split; congruence.
Qed.
Lemma detached_step l st st' evs b : step l st = Some (st', evs) -> detached b st -> detached b st'.
Proof. intros H (x & G & F). eapply fn_none_step; eauto. Qed.

(** Progress of publication [i], begun through publisher [p] with datagram [d]. *)
Definition flying (i p b : nat) (t : target) (m : bmsg) (st : state) (tr : list event) : Prop :=
  (exists y, nth_error (s_pubs st) p = Some y /\ p_bus y = b /\ p_topic y = bm_topic m) /\
  (exists x, get_bus st b = Some x /\ b_name x = bm_sender m /\ (b_fn x = Some t \/ b_fn x = None)) /\
  ((nth_error (s_flights st) i = Some (FlyPub p (bm_data m)) /\ handed i tr = [] /\ returned i tr = []) \/
   (nth_error (s_flights st) i = Some (FlyBus b m) /\ handed i tr = [] /\ returned i tr = []) \/
   (nth_error (s_flights st) i = Some FlyDone /\
     ((handed i tr = [(t, m)] /\ returned i tr = [Ok tt]) \/
      (handed i tr = [] /\ detached b st /\ (returned i tr = [Ok tt] \/ returned i tr = [Throw BadFunctionCall])) \/
      (handed i tr = [] /\ reset p st /\ returned i tr = [Throw BadFunctionCall])))).

Lemma flying_step l st st' evs tr i p b t m :
  tree_inv st -> flying i p b t m st tr -> step l st = Some (st', evs) -> flying i p b t m st' (tr ++ evs).
Proof.
  intros T ((y & Np & Eb & Et) & (x & G & En & Ef) & Q) H.
  assert (exists y', nth_error (s_pubs st') p = Some y' /\ p_bus y' = b /\ p_topic y' = bm_topic m) as P1.
  { destruct (step_pub _ _ _ _ _ _ H Np) as (y' & N' & E1 & E2 & _). exists y'. repeat split; congruence. }
  assert (exists x', get_bus st' b = Some x' /\ b_name x' = bm_sender m /\ (b_fn x' = Some t \/ b_fn x' = None)) as P2.
  { destruct (step_delta _ _ _ _ _ _ H G) as (x' & G' & D). exists x'. repeat split; auto.
    - rewrite (d_name _ _ _ _ _ _ D); auto.
    - destruct (d_fn _ _ _ _ _ _ D) as [->|[-> _]]; auto. }
  split; [exact P1|]. split; [exact P2|]. rewrite handed_app, returned_app.
  destruct Q as [(N & Hd & Rt)|[(N & Hd & Rt)|(N & Q)]].
  - destruct (step_flight _ _ _ _ _ _ H N) as [->|(N' & E1 & E2)]; [|left; rewrite Hd, Rt, E1, E2; auto].
    rewrite Hd, Rt. simpl. pose proof (nth_error_Some_lt _ _ _ N) as L.
    destruct (fly_inv _ _ _ _ H) as [(p0 & d & xp & y0 & m0 & N0 & Np0 & F & Gy & Em & [(Fn & -> & ->)|(Fn & -> & ->)])|[(p0 & d & xp & N0 & Np0 & F & -> & ->)|(b0 & m0 & y0 & N0 & _)]]; [| | |congruence];
      rewrite N in N0; injection N0 as <- <-; rewrite Np in Np0; injection Np0 as <-; simpl; rewrite list_set_eq by auto; rewrite ?Nat.eqb_refl.
    + right; right. split; auto. right; left. rewrite Eb in Gy. split; auto. split; auto. exists y0; auto.
    + right; left. rewrite Eb in Gy. rewrite G in Gy. injection Gy as <-. rewrite Em, Eb, Et, En. destruct m; auto.
    + right; right. split; auto. right; right. split; auto. split; auto. exists y; auto.
  - destruct (step_flight _ _ _ _ _ _ H N) as [->|(N' & E1 & E2)]; [|right; left; rewrite Hd, Rt, E1, E2; auto].
    rewrite Hd, Rt. simpl. pose proof (nth_error_Some_lt _ _ _ N) as L.
    destruct (fly_inv _ _ _ _ H) as [(p0 & d & xp & y0 & m0 & N0 & _)|[(p0 & d & xp & N0 & _)|(b0 & m0 & y0 & N0 & Gy & C)]]; [congruence|congruence|].
    rewrite N in N0; injection N0 as <- <-. rewrite G in Gy. injection Gy as <-. right; right.
    destruct C as [(Fn & -> & ->)|[(g & Fn & -> & ->)|[(r0 & z & Fn & Gz & -> & ->)|(r0 & Fn & Gz & -> & ->)]]];
      simpl; rewrite list_set_eq by auto; rewrite ?Nat.eqb_refl; (split; [reflexivity|]).
    + right; left. split; auto. split; auto. exists x; auto.
    + left. split; auto. simpl. destruct Ef as [Ef|Ef]; congruence.
    + left. split; auto. simpl. destruct Ef as [Ef|Ef]; congruence.
    + exfalso. destruct (t_target _ T _ _ _ G Fn) as (_ & z & Gz' & _). congruence.
  - right; right. destruct (step_flight _ _ _ _ _ _ H N) as [->|(N' & E1 & E2)].
    + exfalso. destruct (fly_inv _ _ _ _ H) as [(p0 & d & xp & y0 & m0 & N0 & _)|[(p0 & d & xp & N0 & _)|(b0 & m0 & y0 & N0 & _)]]; congruence.
    + rewrite E1, E2, !app_nil_r. split; auto. destruct Q as [Q|[(Q1 & Q2 & Q3)|(Q1 & Q2 & Q3)]]; auto.
      * right; left. eauto using detached_step.
      * right; right. eauto using reset_step.
Qed.

Lemma flying_exec ls st st' tr0 tr i p b t m :
  reach st -> flying i p b t m st tr0 -> exec ls st = Some (st', tr) -> flying i p b t m st' (tr0 ++ tr).
Proof.
  revert st tr0 tr. induction ls as [|l ls IH]; intros st tr0 tr Rc F H; simpl in H.
  - injection H as <- <-. now rewrite app_nil_r.
  - destruct (step l st) as [[st1 e1]|] eqn:E; [|discriminate]. destruct (exec ls st1) as [[st2 e2]|] eqn:E2; [|discriminate].
    injection H as <- <-. rewrite app_assoc. apply (IH st1); eauto using reach_step. eapply flying_step; eauto using reach_tree.
Qed.

(** Indices stay in range. *)
Record range_inv (st : state) : Prop := mkRange {
  g_pub : forall p y, nth_error (s_pubs st) p = Some y -> exists x, get_bus st (p_bus y) = Some x;
  g_fly : forall i p d, nth_error (s_flights st) i = Some (FlyPub p d) -> exists y, nth_error (s_pubs st) p = Some y;
  g_bus : forall i b m, nth_error (s_flights st) i = Some (FlyBus b m) -> exists x, get_bus st b = Some x;
  g_prov : forall p y, nth_error (s_provs st) p = Some y ->
     (exists q, nth_error (s_subs st) (pr_sub y) = Some q) /\ (exists q, nth_error (s_pubs st) (pr_pub y) = Some q);
  g_cons : forall c y, nth_error (s_conss st) c = Some y ->
     (exists q, nth_error (s_subs st) (co_sub y) = Some q) /\ (exists q, nth_error (s_pubs st) (co_pub y) = Some q) }.

Lemma nth_snoc_inv {A} (l : list A) x i y : nth_error (l ++ [x]) i = Some y -> nth_error l i = Some y \/ (i = length l /\ y = x).
Proof.
  intros E. destruct (lt_dec i (length l)) as [L|L].
  - rewrite nth_error_app1 in E; auto.
  - rewrite nth_error_app2 in E by lia. destruct (i - length l) as [|k] eqn:D; simpl in E.
    + right. split; [lia|congruence].
    + destruct k; discriminate.
Qed.

Lemma pub_back l st st' evs p y' :
  step l st = Some (st', evs) -> nth_error (s_pubs st') p = Some y' ->
  (exists y, nth_error (s_pubs st) p = Some y /\ p_bus y' = p_bus y) \/ exists x, get_bus st (p_bus y') = Some x.
Proof.
  intros H N.
  assert (s_pubs st' = s_pubs st \/ (exists b t x, get_bus st b = Some x /\ s_pubs st' = s_pubs st ++ [mkPub t b true]) \/
          (exists q y, nth_error (s_pubs st) q = Some y /\ s_pubs st' = list_set q (mkPub (p_topic y) (p_bus y) false) (s_pubs st))) as [E|[(b & t & x & G & E)|(q & y & Nq & E)]].
  { clear N. destruct l; try (step_cases H; simpl; acc; simpl; auto; fail).
    - step_cases H. right; left. simpl. acc. simpl. eauto.
    - step_cases H. right; right. simpl. acc. simpl. eauto.
    - step_cases H. right; left. simpl. acc. simpl. eauto.
    - step_cases H. right; left. simpl. acc. simpl. eauto. }
  - rewrite E in N. left. eauto.
  - rewrite E in N. apply nth_snoc_inv in N. destruct N as [N|[_ ->]]; [left; eauto|right; simpl; eauto].
  - rewrite E, list_set_nth in N. left. destruct (q =? p) eqn:Eq; [|eauto].
    apply Nat.eqb_eq in Eq. subst. rewrite Nq in N. injection N as <-. exists y. auto.
Qed.

Lemma fly_back l st st' evs i f :
  step l st = Some (st', evs) -> nth_error (s_flights st') i = Some f ->
  nth_error (s_flights st) i = Some f \/
  match f with
  | FlyPub p _ => exists y, nth_error (s_pubs st) p = Some y
  | FlyBus b _ => exists x, get_bus st b = Some x
  | FlyDone => True
  end.
Proof.
  intros H N.
  assert (s_flights st' = s_flights st \/ (exists g, s_flights st' = s_flights st ++ [g] /\ match g with
      | FlyPub p _ => exists y, nth_error (s_pubs st) p = Some y | FlyBus b _ => exists x, get_bus st b = Some x | FlyDone => True end) \/
     (exists j g, s_flights st' = list_set j g (s_flights st) /\ match g with
      | FlyPub p _ => exists y, nth_error (s_pubs st) p = Some y | FlyBus b _ => exists x, get_bus st b = Some x | FlyDone => True end)) as [E|[(g & E & C)|(j & g & E & C)]].
  { clear N. destruct l; try (step_cases H; simpl; acc; simpl; auto; fail);
      try (step_cases H; simpl in *; (first [left; reflexivity | right; left; eexists; (split; [reflexivity|]); simpl; eauto; fail])).
    1: { right; left. simpl in H. unfold test_bus_fn in H. destruct (get_bus st b) as [x|] eqn:G; [|discriminate].
      destruct (b_fn x); injection H as <- <-; simpl; eexists; (split; [reflexivity|]); simpl; eauto. }
    right; right. destruct (fly_inv _ _ _ _ H) as [(p & d & xp & y & m & N0 & Np & F & Gy & Em & [(Fn & -> & ->)|(Fn & -> & ->)])|[(p & d & xp & N0 & Np & F & -> & ->)|(b & m & y & N0 & Gy & [(Fn & -> & ->)|[(g & Fn & -> & ->)|[(r0 & z & Fn & Gz & -> & ->)|(r0 & Fn & Gz & -> & ->)]]])]];
      simpl; do 2 eexists; (split; [reflexivity|]); simpl; eauto. }
  - rewrite E in N. auto.
  - rewrite E in N. apply nth_snoc_inv in N. destruct N as [N|[_ ->]]; auto.
  - rewrite E, list_set_nth in N. destruct (j =? i); auto. right. destruct (nth_error (s_flights st) i); [injection N as <-; exact C|discriminate].
Qed.

Lemma prov_back l st st' evs p y' :
  step l st = Some (st', evs) -> nth_error (s_provs st') p = Some y' ->
  (exists y, nth_error (s_provs st) p = Some y /\ pr_sub y' = pr_sub y /\ pr_pub y' = pr_pub y) \/
  ((exists q, nth_error (s_subs st') (pr_sub y') = Some q) /\ (exists q, nth_error (s_pubs st') (pr_pub y') = Some q)).
Proof.
  intros H N. destruct l; try (left; step_cases H; simpl in N; revert N; acc; simpl; eauto; fail).
  - step_cases H. simpl in *. revert N. acc. simpl. intros N. apply nth_snoc_inv in N. destruct N as [N|[-> ->]]; [left; eauto|].
    right. simpl. rewrite !nth_snoc_new. eauto.
  - step_cases H. simpl in *. left. rewrite list_set_nth in N. destruct (Nat.eqb_spec p0 p) as [->|]; [|eauto].
    rewrite E in N. injection N as <-. eauto.
Qed.

Lemma cons_back l st st' evs p y' :
  step l st = Some (st', evs) -> nth_error (s_conss st') p = Some y' ->
  (exists y, nth_error (s_conss st) p = Some y /\ co_sub y' = co_sub y /\ co_pub y' = co_pub y) \/
  ((exists q, nth_error (s_subs st') (co_sub y') = Some q) /\ (exists q, nth_error (s_pubs st') (co_pub y') = Some q)).
Proof.
  intros H N. destruct l; try (left; step_cases H; simpl in N; revert N; acc; simpl; eauto; fail).
  - step_cases H. simpl in *. revert N. acc. simpl. intros N. apply nth_snoc_inv in N. destruct N as [N|[-> ->]]; [left; eauto|].
    right. simpl. rewrite !nth_snoc_new. eauto.
  - left. simpl in H. destruct (nth_error (s_conss st) c) as [x|] eqn:E; [|discriminate]. destruct u as [v|].
    + destruct (begin_publish (co_pub x) _ _) as [[st2 e2]|] eqn:B; [|discriminate]. injection H as <- <-.
      apply begin_publish_inv in B. destruct B as (q & _ & [(_ & -> & _)|(_ & -> & _)]); simpl in N; rewrite list_set_nth in N;
        (destruct (Nat.eqb_spec c p) as [->|]; [rewrite E in N; injection N as <-|]; eauto).
    + injection H as <- <-. eauto.
  - left. simpl in H. unfold return_step in H. destruct (get_bus st r) as [x|] eqn:G; [|discriminate].
    destruct (b_runner x) as [| | | |m stk [c|] rest]; try discriminate. injection H as <- <-.
    unfold after_call in N. destruct c; rewrite ?conss_upd in N; eauto.
    destruct (nth_error (s_conss st) c) as [q|] eqn:E; simpl in N; rewrite ?conss_upd in N; eauto.
    rewrite list_set_nth in N. destruct (Nat.eqb_spec c p) as [->|]; [rewrite E in N; injection N as <-|]; eauto.
Qed.

Lemma range_step l st st' evs : range_inv st -> step l st = Some (st', evs) -> range_inv st'.
Proof.
  intros [A B C D E] H. constructor.
  - intros p y' N. destruct (pub_back _ _ _ _ _ _ H N) as [(y & N0 & Eb)|(x & G)].
    + destruct (A _ _ N0) as (x & G). rewrite Eb. eapply step_get; eauto.
    + eapply step_get; eauto.
  - intros i p d N. destruct (fly_back _ _ _ _ _ _ H N) as [N0|(y & Ny)].
    + destruct (B _ _ _ N0) as (y & Ny). destruct (step_pub _ _ _ _ _ _ H Ny) as (y' & ? & _). eauto.
    + destruct (step_pub _ _ _ _ _ _ H Ny) as (y' & ? & _). eauto.
  - intros i b m N. destruct (fly_back _ _ _ _ _ _ H N) as [N0|(y & Ny)].
    + destruct (C _ _ _ N0) as (y & Ny). eapply step_get; eauto.
    + eapply step_get; eauto.
  - intros p y' N. destruct (prov_back _ _ _ _ _ _ H N) as [(y & N0 & -> & ->)|Q]; auto.
    destruct (D _ _ N0) as [(q & Q1) (q' & Q2)]. split.
    + destruct (step_sub _ _ _ _ _ _ H Q1) as (? & ? & _). eauto.
    + destruct (step_pub _ _ _ _ _ _ H Q2) as (? & ? & _). eauto.
  - intros p y' N. destruct (cons_back _ _ _ _ _ _ H N) as [(y & N0 & -> & ->)|Q]; auto.
    destruct (E _ _ N0) as [(q & Q1) (q' & Q2)]. split.
    + destruct (step_sub _ _ _ _ _ _ H Q1) as (? & ? & _). eauto.
    + destruct (step_pub _ _ _ _ _ _ H Q2) as (? & ? & _). eauto.
Qed.

Lemma reach_range st : reach st -> range_inv st.
Proof.
  apply reach_ind.
  - constructor; intros [|?]; simpl; discriminate.
  - intros l s s' evs _ R H. eapply range_step; eauto.
Qed.

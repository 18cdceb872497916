(** Claim C85: the plugins' worker threads and the end of the program. *)
From Coq Require Import String List Arith Bool Lia.
From Verif Require Import Prelude OMap DatagramModel DatagramSpec BusModel BusSpec BusProofs BusTree BusLocks BusLocks2 BusLocks3
  BusDist BusAccount BusOnce BusFlight BusDetach BusProgress BusLockProps WorkerModel WorkerSpec WorkerProofs.
Import ListNotations.
Open Scope list_scope.
Open Scope nat_scope.

(** The program dies exactly when a worker goes on inside a publication whose function has been taken away: its publisher has
    been deleted before the function was called, or the bus it has got to has been detached. *)
Theorem C85_dies : forall l s s', wstep l s = Some s' ->
  (wd_dead s' = true <->
   exists w x i n, l = WFly w /\ nth_error (wd_workers s) w = Some x /\ wk_pos x = Inside i n /\
     ((exists p d, nth_error (s_flights (wd_bus s)) i = Some (FlyPub p d) /\ reset p (wd_bus s)) \/
      (exists b m, nth_error (s_flights (wd_bus s)) i = Some (FlyBus b m) /\ detached b (wd_bus s)))).
Proof.
  intros l s s' H. split; [now apply dies_inv|]. intros (w & x & i & n & -> & N & P & Q).
  unfold wstep in H. destruct (wd_dead s); [discriminate|]. unfold fly in H. rewrite N, P in H.
  destruct (step (LFly i) (wd_bus s)) as [[st' evs]|] eqn:E; [|discriminate].
  destruct (fly_returns _ _ _ _ E) as [(R & p & d & y & m & F & _ & _)|[(R & _ & C)|(R & _)]]; rewrite R in H; injection H as <-; auto.
  - exfalso. destruct Q as [(p' & d' & F' & (z & Nz & Z))|(b' & m' & F' & _)]; [|congruence]. assert (p' = p) as -> by congruence.
    destruct (fly_inv _ _ _ _ E) as [(p0 & d0 & x0 & y0 & m0 & N0 & Np & Fp & _)|[(p0 & d0 & x0 & N0 & Np & Fp & _ & ->)|(b0 & m0 & y0 & N0 & _)]]; try congruence.
    simpl in R. rewrite Nat.eqb_refl in R. discriminate.
  - exfalso. destruct Q as [(p' & d' & F' & Z)|(b' & m' & F' & Z)], C as [(p1 & d1 & F1 & C)|(b1 & m1 & F1 & C)]; congruence.
Qed.
Print Assumptions C85_dies.

(** If the ending thread stops every worker before it detaches a bus and before it deletes the worker's publisher, the program
    does not die, whatever the threads do and in whatever order. *)
Theorem C85_safe : forall s ls s', begun s -> Forall calm_other ls ->
  (forall w x, nth_error (wd_workers s) w = Some x -> stopped_before w (cuts (wk_how x)) (wd_ctl s)) ->
  wexec ls s = Some s' -> wd_dead s' = false.
Proof.
  intros s ls s' B C St X. destruct (wd_dead s') eqn:D; auto. exfalso.
  destruct ls as [|l0 ls0]; [simpl in X; injection X as <-; destruct B as (_ & _ & _ & Q & _); congruence|].
  destruct (@exists_last _ (l0 :: ls0)) as (ls & l & E); [discriminate|]. rewrite E in X, C. apply wexec_app in X. destruct X as (s1 & X & H).
  simpl in H. destruct (wstep l s1) as [s2|] eqn:H1; [|discriminate]. injection H as ->.
  apply Forall_app in C. destruct C as (C & _).
  destruct (dies_inv _ _ _ H1 D) as (w & x & i & n & -> & N & P & Q).
  destruct (whose_exec _ _ _ X _ _ N) as (x0 & N0 & _).
  pose proof (begun_shielded true s w x0 B N0 (St _ _ N0)) as Sh.
  destruct (shielded_exec true w (wk_how x0) ls s s1 (begun_winv _ B) Sh C X) as (x' & N' & Eh & [O|((U1 & U2) & _)]); [congruence|].
  assert (x' = x) as -> by congruence. destruct (U2 eq_refl) as (U3 & _).
  pose proof (winv_exec _ _ _ (begun_winv _ B) X) as V.
  assert (wd_dead s1 = false) as D1 by (unfold wstep in H1; destruct (wd_dead s1); congruence).
  destruct Q as [(p & d & F & R)|(b & m & F & R)]; [|now apply (U3 b)].
  destruct (v_in _ V D1 _ _ _ _ N P) as [(p' & d' & F' & E')|(b' & m' & F')]; [|congruence].
  assert (p' = p) as -> by congruence. apply (U1 p); [congruence|exact R].
Qed.
Print Assumptions C85_safe.

(** In particular while the ending thread has not begun. *)
Theorem C85_before : forall s ls s', begun s -> Forall calm_other ls -> Forall (fun l => l <> WCtl) ls ->
  wexec ls s = Some s' -> wd_dead s' = false.
Proof.
  intros s ls s' B C NC X. apply (wexec_noctl _ _ _ [] NC) in X. apply C85_safe in X; auto.
  - destruct B as (B1 & B2 & B3 & B4 & B5). repeat split; simpl; auto; apply B2.
  - intros w x _ a o c E. destruct a; discriminate.
Qed.
Print Assumptions C85_before.

(** The order of LampPost::Teardown: the root bus is detached first, and each plugin's own publishers are deleted with its
    template. Whatever the program dies of is then a bus detached under a publication. *)
Theorem C85_cause : forall s ls s1 l s2 r ts, begun s -> Forall calm_other ls -> wd_ctl s = teardown r ts ->
  (forall t b p w x, In t ts -> In (LDelPub b p) (snd t) -> nth_error (wd_workers s) w = Some x -> wk_how x = ByPub p -> In w (fst t)) ->
  wexec ls s = Some s1 -> wstep l s1 = Some s2 -> wd_dead s2 = true ->
  exists w x i n b m, l = WFly w /\ nth_error (wd_workers s1) w = Some x /\ wk_pos x = Inside i n /\
    nth_error (s_flights (wd_bus s1)) i = Some (FlyBus b m) /\ detached b (wd_bus s1).
Proof.
  intros s ls s1 l s2 r ts B C Ek Own X H D. destruct (dies_inv _ _ _ H D) as (w & x & i & n & -> & N & P & [(p & d & F & R)|(b & m & F & R)]).
  - exfalso. pose proof (winv_exec _ _ _ (begun_winv _ B) X) as V.
    assert (wd_dead s1 = false) as D1 by (unfold wstep in H; destruct (wd_dead s1); congruence).
    destruct (v_in _ V D1 _ _ _ _ N P) as [(p' & d' & F' & E')|(b' & m' & F')]; [|congruence]. assert (p' = p) as -> by congruence.
    destruct (whose_exec _ _ _ X _ _ N) as (x0 & N0 & E0).
    assert (stopped_before w (deletes (wk_how x0)) (wd_ctl s)) as St.
    { rewrite Ek, E0, E'. apply (stopped_app w _ [ODetach r]); [apply stopped_none; intros o [<-|[]] []|left].
      apply stopped_unloads. intros t b It Id. eapply Own; eauto. congruence. }
    pose proof (begun_shielded false s w x0 B N0 St) as Sh.
    destruct (shielded_exec false w (wk_how x0) ls s s1 (begun_winv _ B) Sh C X) as (x' & N' & Eh & [O|((U1 & _) & _)]); [congruence|].
    apply (U1 p); [congruence|exact R].
  - exists w, x, i, n, b, m. auto.
Qed.
Print Assumptions C85_cause.

(** With the two lines of Teardown swapped (templates unloaded first, then the root bus detached), and every worker's plugin
    unloaded, the program does not die. *)
Theorem C85_swapped : forall s ls s' r ts, begun s -> Forall calm_other ls -> wd_ctl s = unload_templates ts ++ [ODetach r] ->
  (forall w x, nth_error (wd_workers s) w = Some x -> exists t, In t ts /\ In w (fst t)) ->
  (forall t b p w x, In t ts -> In (LDelPub b p) (snd t) -> nth_error (wd_workers s) w = Some x -> wk_how x = ByPub p -> In w (fst t)) ->
  wexec ls s = Some s' -> wd_dead s' = false.
Proof.
  intros s ls s' r ts B C Ek All Own X. eapply C85_safe; eauto. intros w x N. rewrite Ek. destruct (All _ _ N) as (t & It & Iw). apply stopped_app.
  - assert (stopped_before w (deletes (wk_how x)) (unload_templates ts)) as St.
    { destruct (wk_how x) as [p|b] eqn:E; [|apply stopped_none; intros o _; apply deletes_bus]. apply stopped_unloads. intros t' b It' Id. eapply Own; eauto. }
    intros a o c E Cu. apply (St a o c E). destruct o as [b| | | |l]; simpl in Cu; auto; try (destruct (wk_how x); contradiction).
    exfalso. assert (In (ODetach b) (unload_templates ts)) as I by (rewrite E; apply in_elt). apply in_flat_map in I. destruct I as (t' & _ & I).
    apply in_app_iff in I. destruct I as [I|I]; apply in_map_iff in I; destruct I as (z & Z & _); discriminate.
  - right. eapply in_unload; eauto.
Qed.
Print Assumptions C85_swapped.

(** In the order of the code the program can die: if at the start of Teardown some worker runs that publishes on the root bus or a bus
    below it, and no thread holds the lock of a bus's children, there is an execution of that worker and the ending thread
    alone in which it does. *)
Theorem C85_kills : forall s r ts w x b, reach (wd_bus s) -> wd_dead s = false -> wd_ctl s = teardown r ts ->
  nth_error (wd_workers s) w = Some x -> wk_pos x = AtTest -> wk_run x = true -> 0 < wk_round x ->
  publishes_on x b (wd_bus s) -> below (wd_bus s) r b -> (exists y, get_bus (wd_bus s) b = Some y) -> ~ detached b (wd_bus s) ->
  (forall c y, get_bus (wd_bus s) c = Some y -> b_klock y = false) -> (forall j ds, nth_error (s_detaches (wd_bus s)) j = Some ds -> ds = []) ->
  exists ls s', wexec ls s = Some s' /\ wd_dead s' = true /\ Forall (fun l => owned w l = true \/ l = WCtl) ls.
Proof.
  intros s r ts w x b Rc Dd Ek N P Rn Rd Pub B (y & Gb) ND Fr Em.
  assert (exists yr, get_bus (wd_bus s) r = Some yr) as (yr & Gr).
  { destruct (get_bus (wd_bus s) r) eqn:Gr; eauto. exfalso. unfold get_bus in *. apply nth_error_None in Gr.
    pose proof (below_le _ _ _ (reach_tree _ Rc) B). pose proof (nth_error_Some_lt _ _ _ Gb). lia. }
  assert (b_fn y <> None) as Fn by (intros Q; apply ND; exists y; auto).
  destruct (wk_round x) as [|n] eqn:Er; [lia|]. clear Rd.
  assert (w < length (wd_workers s)) as Lw by (eapply nth_error_Some_lt; eauto).
  set (i := length (s_flights (wd_bus s))).
  (* up to a publication that has got to the bus *)
  assert (exists ls s1 x1 m, wexec ls s = Some s1 /\ Forall (fun l => owned w l = true) ls /\ nth_error (wd_workers s1) w = Some x1 /\ wk_pos x1 = Inside i n /\
    (exists fl, wd_bus s1 = set_flights fl (wd_bus s) /\ nth_error fl i = Some (FlyBus b m)) /\ wd_ctl s1 = wd_ctl s /\ wd_dead s1 = false /\ reach (wd_bus s1))
    as (ls & s1 & x1 & m & X & Fo & N1 & P1 & (fl & Eb & Fl) & Ec & D1 & R1).
  { set (x1 := goes (Body (S n)) x). set (s1 := set_worker w x1 s).
    assert (wstep (WWork w None) s = Some s1) as H1 by (unfold wstep, work; rewrite Dd, N, P, Rn, Er; reflexivity).
    assert (nth_error (wd_workers s1) w = Some x1) as N1 by (simpl; now rewrite list_set_eq).
    unfold publishes_on in Pub. destruct (wk_how x) as [p|b'] eqn:Eh.
    - destruct Pub as (z & Np & Ezb & Fz).
      set (s2 := set_worker w (goes (Inside i n) x1) (set_wbus (set_flights (s_flights (wd_bus s) ++ [FlyPub p Emp]) (wd_bus s)) s1)).
      assert (wstep (WWork w (Some (PayD Emp))) s1 = Some s2) as H2.
      { unfold wstep, work. cbn [s1 set_worker wd_dead]. rewrite Dd. fold s1. rewrite N1. cbn [x1 goes wk_pos wk_how]. rewrite Eh. cbn [publication step].
        change (wd_bus s1) with (wd_bus s). unfold begin_publish. rewrite Np, Fz. reflexivity. }
      assert (nth_error (wd_workers s2) w = Some (goes (Inside i n) x1)) as N2 by (simpl; rewrite list_set_eq; auto; now rewrite list_set_length).
      set (m := mkM (b_name y) (p_topic z) Emp).
      set (s3 := set_wbus (set_flights (list_set i (FlyBus b m) (s_flights (wd_bus s) ++ [FlyPub p Emp])) (wd_bus s)) s2).
      assert (step (LFly i) (wd_bus s2) = Some (wd_bus s3, [])) as Hf.
      { cbn [step]. unfold fly_step. change (s_flights (wd_bus s2)) with (s_flights (wd_bus s) ++ [FlyPub p Emp]). unfold i. rewrite nth_snoc_new.
        change (s_pubs (wd_bus s2)) with (s_pubs (wd_bus s)). rewrite Np, Fz, Ezb. change (get_bus (wd_bus s2) b) with (get_bus (wd_bus s) b). rewrite Gb.
        unfold test_bus_fn. change (get_bus (wd_bus s2) b) with (get_bus (wd_bus s) b). rewrite Gb. destruct (b_fn y); [|congruence]. reflexivity. }
      assert (wstep (WFly w) s2 = Some s3) as H3.
      { unfold wstep, fly. cbn [s2 s1 set_worker set_wbus wd_dead]. rewrite Dd. fold s1. fold s2. rewrite N2. cbn [goes wk_pos]. rewrite Hf. reflexivity. }
      exists [WWork w None; WWork w (Some (PayD Emp)); WFly w], s3, (goes (Inside i n) x1), m.
      split; [cbn [wexec]; now rewrite H1, H2, H3|]. split; [repeat constructor; simpl; apply Nat.eqb_refl|]. split; [exact N2|]. split; [reflexivity|].
      split; [eexists; split; [reflexivity|]; apply list_set_eq; rewrite app_length; simpl; unfold i; lia|]. split; [reflexivity|]. split; [exact Dd|].
      assert (reach (wd_bus s2)) as R2.
      { apply (reach_step (wd_bus s) (LPublish p Emp) _ []); auto. cbn [step]. unfold begin_publish. rewrite Np, Fz. reflexivity. }
      exact (reach_step _ _ _ _ R2 Hf).
    - subst b'. set (m := mkM EmptyString EmptyString Emp).
      set (s2 := set_worker w (goes (Inside i n) x1) (set_wbus (set_flights (s_flights (wd_bus s) ++ [FlyBus b m]) (wd_bus s)) s1)).
      assert (step (LPublishMsg b m) (wd_bus s) = Some (set_flights (s_flights (wd_bus s) ++ [FlyBus b m]) (wd_bus s), [])) as Hp.
      { cbn [step]. rewrite Gb. unfold test_bus_fn. rewrite Gb. destruct (b_fn y); [|congruence]. reflexivity. }
      assert (wstep (WWork w (Some (PayM m))) s1 = Some s2) as H2.
      { unfold wstep, work. cbn [s1 set_worker wd_dead]. rewrite Dd. fold s1. rewrite N1. cbn [x1 goes wk_pos wk_how]. rewrite Eh. cbn [publication].
        change (wd_bus s1) with (wd_bus s). rewrite Hp. reflexivity. }
      exists [WWork w None; WWork w (Some (PayM m))], s2, (goes (Inside i n) x1), m.
      split; [cbn [wexec]; now rewrite H1, H2|]. split; [repeat constructor; simpl; apply Nat.eqb_refl|].
      split; [simpl; rewrite list_set_eq; auto; now rewrite list_set_length|]. split; [reflexivity|].
      split; [eexists; split; [reflexivity|]; apply nth_snoc_new|]. split; [reflexivity|]. split; [exact Dd|].
      apply (reach_step (wd_bus s) (LPublishMsg b m) _ []); auto. }
  destruct (caught s1 r (unload_templates ts) w x1 i n b m) as (c & s' & X' & D'); auto; try (rewrite Eb; simpl; auto; fail).
  - now rewrite Ec, Ek.
  - rewrite Eb. clear - B. induction B as [|c d B IH K]; [constructor|]. econstructor 2; [exact IH|exact K].
  - rewrite Eb. exists yr. exact Gr.
  - exists (ls ++ repeat WCtl c ++ [WFly w]), s'. split; [apply wexec_app; eauto|]. split; auto.
    apply Forall_app. split; [eapply Forall_impl; [|exact Fo]; intros; now left|]. apply Forall_app. split.
    + apply Forall_forall. intros l I. right. eapply repeat_spec; eauto.
    + constructor; auto. left. simpl. apply Nat.eqb_refl.
Qed.
Print Assumptions C85_kills.

(** When the ending thread waits for a worker to return, the worker, if it is not over, can go on, and it goes on only
    so many times, whatever the others do: joining it ends, unless the program dies. *)
Theorem C85_join : forall s0 ls0 s w k, begun s0 -> wexec ls0 s0 = Some s -> wd_dead s = false -> wd_ctl s = OJoin w :: k ->
  exists x, nth_error (wd_workers s) w = Some x /\
    (wk_pos x <> Over -> exists l s1, owned w l = true /\ wstep l s = Some s1) /\
    (wk_pos x = Over -> wstep WCtl s = Some (set_ctl k s)) /\
    forall ls s', wexec ls s = Some s' -> own w ls <= 3 * wk_round x + 2.
Proof.
  intros s0 ls0 s w k B X D Ek. pose proof (winv_exec _ _ _ (begun_winv _ B) X) as V.
  assert (Forall bounded (wd_workers s)) as Bd.
  { eapply bounded_exec; eauto. destruct B as (_ & _ & _ & _ & F). eapply Forall_impl; [|exact F]. intros x (_ & P). unfold bounded. now rewrite P. }
  assert (exists x, nth_error (wd_workers s) w = Some x /\ wk_run x = false) as (x & N & R).
  { pose proof (at_head_exec _ _ _ X (begun_at_head _ B)) as A. unfold at_head in A. rewrite Ek in A.
    destruct A as (_ & [[]|[(i & Q)|(w' & Q & S)]]); [discriminate|]. injection Q as ->. exact S. }
  exists x. split; auto. split; [|split].
  - intros NO. destruct (wk_pos x) as [|n|i n|] eqn:P; [| | |congruence].
    + exists (WWork w None). unfold wstep, work. rewrite D, N, P. eexists. split; [simpl; apply Nat.eqb_refl|reflexivity].
    + exists (WWork w None). unfold wstep, work. rewrite D, N, P. destruct n; eexists; (split; [simpl; apply Nat.eqb_refl|reflexivity]).
    + exists (WFly w). unfold wstep, fly. rewrite D, N, P. destruct (C31_may _ (v_reach _ V)) as (_ & _ & Q & _).
      destruct (Q i (v_lt _ V _ _ _ _ N P)) as [F|(st' & evs & E)].
      * exfalso. destruct (v_in _ V D _ _ _ _ N P) as [(p & d & F' & _)|(b & m & F')]; congruence.
      * rewrite E. destruct (returned i evs) as [|[]]; eexists; (split; [simpl; apply Nat.eqb_refl|reflexivity]).
  - intros P. unfold wstep, ctl. rewrite D, Ek, N, P. reflexivity.
  - intros ls s' X'. pose proof (left_exec _ _ _ _ _ V X' N R). rewrite Forall_forall in Bd.
    pose proof (left_bound x (wd_bus s) (Bd _ (nth_error_In _ _ N))). lia.
Qed.
Print Assumptions C85_join.

(** The other threads are free: whatever can happen on the buses can happen beside the workers, except that a worker's publication
    is carried on by the worker. *)
Theorem C85_others : forall s l, wd_dead s = false ->
  ((exists st' evs, step l (wd_bus s) = Some (st', evs)) /\ ~ (exists i w x n, l = LFly i /\ nth_error (wd_workers s) w = Some x /\ wk_pos x = Inside i n) <->
   exists s', wstep (WOther l) s = Some s').
Proof.
  intros s l D. unfold wstep. rewrite D.
  assert (forall i, existsb (flown_by i) (wd_workers s) = true <-> exists w x n, nth_error (wd_workers s) w = Some x /\ wk_pos x = Inside i n) as F.
  { intros i. rewrite existsb_exists. split.
    - intros (x & I & Q). apply In_nth_error in I as (w & N). unfold flown_by in Q. destruct (wk_pos x) eqn:P; try discriminate. apply Nat.eqb_eq in Q as ->. eauto.
    - intros (w & x & n & N & P). exists x. split; [eapply nth_error_In; eauto|]. unfold flown_by. rewrite P. apply Nat.eqb_refl. }
  unfold other. destruct (step l (wd_bus s)) as [[st' evs]|].
  - destruct l; try (split; [intros _; eauto|intros _; split; [eauto|intros (? & ? & ? & ? & X & _); discriminate X]]).
    destruct (existsb (flown_by _) (wd_workers s)) eqn:Ex.
    + apply F in Ex as (w & x & n & N & P). split; [|intros (? & X); discriminate X]. intros (_ & Q). destruct Q. eauto 8.
    + split; [intros _; eauto|intros _; split; [eauto|]]. intros (j & w & x & n & X & N & P). injection X as ->.
      assert (existsb (flown_by j) (wd_workers s) = true); [apply F; eauto|congruence].
  - split; [intros ((? & ? & X) & _); discriminate X|]. intros (s' & X). destruct l; try discriminate X. destruct (existsb _ _); discriminate X.
Qed.
Print Assumptions C85_others.

(** ** Cases *)

(** A root bus with a child; a plugin that publishes through a publisher of the child, and a link plugin on the root bus. *)
Definition ex_buses : list label := [LNewRoot "r"; LChild 0 "a"; LPub 1 "t"; LSub 0 "/**/*" None].
Definition ex_state : state := match exec ex_buses init with Some (st, _) => st | None => init end.
Definition ex_plugins : list (list nat * list label) := [([0], [LDelPub 1 0]); ([1], [LDelSub 0 0])].
Definition ex_world (k : list op) : world := mkWorld ex_state [mkWorker (ByPub 0) 1 true AtTest; mkWorker (ByBus 0) 2 true AtTest] k false.

Lemma ex_reach : reach ex_state.
Proof. exists ex_buses. eexists. vm_compute. reflexivity. Qed.

Lemma ex_untouched : untouched ex_state.
Proof.
  split; [|split].
  - intros b (x & G & F). destruct b as [|[|[|b]]]; vm_compute in G; try discriminate; injection G as <-; discriminate.
  - intros p (x & G & F). destruct p as [|[|p]]; vm_compute in G; try discriminate; injection G as <-; discriminate.
  - intros i ds N. destruct i; vm_compute in N; discriminate.
Qed.

Lemma ex_begun k : Forall plain k -> begun (ex_world k).
Proof. intros F. split; [apply ex_reach|]. split; [apply ex_untouched|]. split; [exact F|]. split; [reflexivity|]. repeat constructor. Qed.

Lemma ex_owned t b p w x : In t ex_plugins -> In (LDelPub b p) (snd t) -> nth_error (wd_workers (ex_world [])) w = Some x -> wk_how x = ByPub p -> In w (fst t).
Proof.
  intros [<-|[<-|[]]] [Q|[]] N H; try discriminate. destruct w as [|[|[|w]]]; simpl in N; try discriminate; injection N as <-; simpl in H; try discriminate. now left.
Qed.

(** Teardown of this program meets the hypotheses of C85_cause and, for both workers, of C85_kills; it dies in one execution
    and ends in another. *)
Example C85_case : let s := ex_world (teardown 0 ex_plugins) in
  begun s /\
  (exists ls s', wexec ls s = Some s' /\ wd_dead s' = true /\ Forall (fun l => owned 0 l = true \/ l = WCtl) ls) /\
  (exists ls s', wexec ls s = Some s' /\ wd_dead s' = true /\ Forall (fun l => owned 1 l = true \/ l = WCtl) ls) /\
  (exists s', wexec (repeat WCtl 8 ++ [WWork 0 None] ++ repeat WCtl 3 ++ [WWork 1 None] ++ repeat WCtl 2) s = Some s' /\ wd_dead s' = false /\ wd_ctl s' = []).
Proof.
  intros s. assert (forall c y, get_bus (wd_bus s) c = Some y -> b_klock y = false) as Fr.
  { intros [|[|[|c]]] y G; vm_compute in G; try discriminate; now injection G as <-. }
  assert (forall j ds, nth_error (s_detaches (wd_bus s)) j = Some ds -> ds = []) as Em by (intros j ds; destruct j; vm_compute; discriminate).
  split; [|split; [|split]].
  - apply ex_begun. simpl. repeat (apply Forall_cons || apply Forall_nil); simpl; eauto 6.
  - apply (C85_kills s 0 ex_plugins 0 (mkWorker (ByPub 0) 1 true AtTest) 1); auto; try apply ex_reach; try (vm_compute; reflexivity).
    + eexists. split; [vm_compute; reflexivity|]. split; reflexivity.
    + apply (below_kid _ _ 0); [constructor|]. eexists. split; [vm_compute; reflexivity|]. vm_compute. auto.
    + eexists. vm_compute. reflexivity.
    + apply ex_untouched.
  - apply (C85_kills s 0 ex_plugins 1 (mkWorker (ByBus 0) 2 true AtTest) 0); auto; try apply ex_reach; try (vm_compute; reflexivity).
    + simpl. lia.
    + constructor.
    + eexists. vm_compute. reflexivity.
    + apply ex_untouched.
  - eexists. split; [vm_compute; reflexivity|]. split; reflexivity.
Qed.

(** The execution in which the first worker dies: it is inside its publication while the root bus is detached. *)
Example C85_case_cause : exists s1 s2,
  wexec ([WWork 0 None; WWork 0 (Some (PayD Emp)); WFly 0] ++ repeat WCtl 4) (ex_world (teardown 0 ex_plugins)) = Some s1 /\
  wstep (WFly 0) s1 = Some s2 /\ wd_dead s2 = true /\
  Forall calm_other ([WWork 0 None; WWork 0 (Some (PayD Emp)); WFly 0] ++ repeat WCtl 4) /\
  (forall t b p w x, In t ex_plugins -> In (LDelPub b p) (snd t) -> nth_error (wd_workers (ex_world (teardown 0 ex_plugins))) w = Some x -> wk_how x = ByPub p -> In w (fst t)).
Proof.
  do 2 eexists. split; [vm_compute; reflexivity|]. split; [vm_compute; reflexivity|]. split; [reflexivity|]. split; [repeat constructor|]. exact ex_owned.
Qed.

(** The swapped order meets the hypotheses of C85_swapped, and ends; on the way the ending thread waits for a worker inside a
    publication, as in C85_join. *)
Example C85_case_swapped : let s := ex_world (unload_templates ex_plugins ++ [ODetach 0]) in
  begun s /\ (forall w x, nth_error (wd_workers s) w = Some x -> exists t, In t ex_plugins /\ In w (fst t)) /\
  (exists s1 k x, wexec [WWork 0 None; WWork 0 (Some (PayD Emp)); WCtl] s = Some s1 /\ wd_dead s1 = false /\ wd_ctl s1 = OJoin 0 :: k /\
     nth_error (wd_workers s1) 0 = Some x /\ wk_pos x = Inside 0 0) /\
  (exists s', wexec ([WWork 0 None; WWork 0 (Some (PayD Emp)); WCtl; WFly 0; WFly 0; WWork 0 None; WWork 0 None; WCtl; WCtl; WCtl; WWork 1 None; WCtl] ++ repeat WCtl 8) s = Some s' /\
     wd_dead s' = false /\ wd_ctl s' = []).
Proof.
  intros s. split; [|split; [|split]].
  - apply ex_begun. simpl. repeat (apply Forall_cons || apply Forall_nil); simpl; eauto 6.
  - intros [|[|[|w]]] x N; simpl in N; try discriminate; [exists ([0], [LDelPub 1 0])|exists ([1], [LDelSub 0 0])]; simpl; auto.
  - do 3 eexists. split; [vm_compute; reflexivity|]. repeat split; reflexivity.
  - eexists. split; [vm_compute; reflexivity|]. split; reflexivity.
Qed.

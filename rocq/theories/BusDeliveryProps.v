(** Properties C19-C22: topics, delivery, order and loss. *)
From Coq Require Import String Ascii List Arith ZArith Bool Lia Sorted.
From Verif Require Import Prelude OMap DatagramModel DatagramSpec BusModel BusSpec BusProofs BusTree BusLocks BusLocks2 BusLocks3 BusDist BusAccount BusOnce BusServe BusProgress BusDeliver.
Import ListNotations.
Open Scope list_scope.

(** ** A concrete run

    Bus 0 "root" has children 1 "b" and 2 "a"; 3 "c" is a child of "a". Subscribers: 0 on the
    root for "t", 1 on "b" for everything, 2 on "c" for "t", 3 on "a" for "u". Publisher 0 on "b"
    publishes on "t", publisher 1 on the root on "u". *)
Definition ex_setup : list label :=
  [ LNewRoot "root"; LChild 0 "b"; LChild 0 "a"; LChild 2 "c";
    LSub 0 "t" (Some (Some 7)); LSub 1 "/**/*" (Some (Some 8)); LSub 3 "t" (Some (Some 9)); LSub 2 "u" (Some (Some 10));
    LPub 1 "t"; LPub 0 "u"; LStart 0 ].
Definition ex_publish : list label :=
  [ LPublish 0 (Val (DInt 5)); LFly 0; LFly 0; LPublish 1 (Val (DBool true)); LFly 1; LFly 1 ].
(** The bus thread drains both messages and begins the first one. *)
Definition ex_begin : list label := [ LRun 0; LRun 0; LRun 0 ].
(** It serves the root, then "a" and its child "c", then "b". *)
Definition ex_dist : list label :=
  [ LRun 0; LReturn 0; LRun 0; LRun 0;            (* subscriber 0; lock children *)
    LRun 0; LRun 0; LRun 0; LRun 0;               (* "a": subscriber 3 does not match *)
    LRun 0; LRun 0; LReturn 0; LRun 0; LRun 0; LRun 0; (* "c": subscriber 2 *)
    LRun 0;                                       (* "a" done *)
    LRun 0; LRun 0; LReturn 0; LRun 0; LRun 0; LRun 0; (* "b": subscriber 1 *)
    LRun 0; LRun 0 ].

Definition ex_msg0 : pubn := (0, mkM "b" "t" (Val (DInt 5))).
Definition ex_msg1 : pubn := (1, mkM "root" "u" (Val (DBool true))).

Example ex_run : exists st tr, exec (ex_setup ++ ex_publish ++ ex_begin ++ ex_dist) init = Some (st, tr) /\
  accepted 0 tr = [ex_msg0; ex_msg1] /\ completed 0 tr = [ex_msg0] /\
  received 0 tr = [(0, 0, ex_msg0); (3, 2, ex_msg0); (1, 1, ex_msg0)].
Proof. do 2 eexists. split; [vm_compute; reflexivity|]. vm_compute. auto. Qed.

(** * C19 *)

(** AntMatcher::Matches accepts exactly equal topics and the one wildcard. *)
Theorem C19_matching : forall pattern topic : string,
  ant_matches pattern topic = true <-> pattern = topic \/ pattern = "/**/*"%string.
Proof. intros. apply ant_accepts. Qed.
Print Assumptions C19_matching.

(** When the bus thread comes to subscriber [s], it hands the message over exactly if the topics
    are equal or the subscription is "/**/*". *)
Theorem C19_receive : forall st r x m b s ss stk rest y st' evs,
  get_bus st r = Some x -> b_runner x = RDist m (FSubs b (s :: ss) :: stk) None rest ->
  nth_error (s_subs st) s = Some y -> step (LRun r) st = Some (st', evs) ->
  (In (EvReceive r b s m) evs <-> s_topic y = bm_topic (snd m) \/ s_topic y = "/**/*"%string).
Proof.
  intros st r x m b s ss stk rest y st' evs G R N H. split.
  - intros I. destruct (receive_inv _ _ _ _ _ _ _ _ H I) as (x' & ss' & stk' & rest' & y' & _ & G' & R' & N' & A & _).
    assert (y' = y) as <- by congruence. exact A.
  - intros A. apply ant_accepts in A. destruct (run_inv' _ r _ _ _ H eq_refl) as (x0 & rn & act & G0 & RC & _).
    rewrite G in G0. injection G0 as <-. rewrite R in RC.
    inversion RC; subst; try (now left); try (match goal with E : nth_error _ _ = Some ?z |- _ => assert (z = y) by congruence; subst end; congruence).
Qed.
Print Assumptions C19_receive.

Example C19_case : ant_matches "a/b" "a/b" = true /\ ant_matches "/**/*" "a/b" = true /\
  ant_matches "a/*" "a/b" = false /\ ant_matches "**" "a/b" = false /\ ant_matches "a/b" "/**/*" = false /\ ant_matches "/**/*x" "a" = false.
Proof. repeat split. Qed.

(** * C20 *)

(** While no other thread changes subscriptions, children or running flags, distributing [m]
    makes exactly the deliveries [l] of the sequential account, in this order. *)
Theorem C20_exact : forall st st1 ls st2 r m pre post,
  reach st -> step (LRun r) st = Some (st1, [EvBegin r m]) ->
  Forall quiet ls -> exec ls st1 = Some (st2, pre ++ EvEnd r m :: post) ->
  exists l, delivers st (bm_topic (snd m)) r l /\ received r pre = map (fun p => (p, m)) l.
Proof.
  intros st st1 ls st2 r m pre post (ls0 & tr0 & X) H Q H2.
  assert (reach st) as Rc by (exists ls0, tr0; auto).
  destruct (run_inv' _ r _ _ _ H eq_refl) as (x & rn & act & G & RC & Es).
  remember [EvBegin r m] as evs eqn:Ev. inversion RC; subst; try discriminate.
  match goal with E : [EvBegin _ _] = [EvBegin _ _] |- _ => injection E as -> end.
  match goal with E : _ = b_runner x |- _ => rename E into R0 end.
  assert (exists x1, get_bus (after_run r (RDist m [FSubs r (b_subs x)] None ms) (AS r true) (LRun r) (b_runner x) st) r = Some x1 /\ b_runner x1 = RDist m [FSubs r (b_subs x)] None ms) as (x1 & G1 & R1).
  { rewrite run_view, G. simpl. eexists. split; [reflexivity|]. simpl. now rewrite Nat.eqb_refl. }
  set (s1 := after_run r (RDist m [FSubs r (b_subs x)] None ms) (AS r true) (LRun r) (b_runner x) st) in *.
  destruct (delivers_ex st (bm_topic (snd m)) r x (reach_tree _ Rc) G) as (l & D).
  exists l. split; auto.
  assert (delivers s1 (bm_topic (snd m)) r l) as D1. { eapply (proj1 (delivers_quiet _ _ _ _ _ H I)); auto. }
  assert (~ In m (settled r pre)) as NS.
  { intros J.
    assert (exec (ls0 ++ LRun r :: ls) init = Some (st2, tr0 ++ [EvBegin r m] ++ pre ++ EvEnd r m :: post)) as X2.
    { rewrite exec_app, X. cbn [exec]. rewrite H, H2. reflexivity. }
    pose proof (account_all r _ _ _ X2) as A. unfold account in A.
    destruct (get_bus st2 r) as [x2|]; [|destruct A as (_ & A); rewrite !settled_app in A; simpl in A; rewrite Nat.eqb_refl in A; destruct (settled r tr0), (settled r pre); discriminate].
    destruct A as (A1 & A2).
    assert (NoDup (accepted r (tr0 ++ [EvBegin r m] ++ pre ++ EvEnd r m :: post))) as ND.
    { apply (NoDup_map_inv fst). pose proof (seq_NoDup (b_count x2) 0) as SN. rewrite <- A2 in SN. exact SN. }
    rewrite A1 in ND. rewrite !settled_app in ND. simpl in ND. rewrite Nat.eqb_refl in ND. simpl in ND.
    apply (NoDup_remove_2 (settled r tr0 ++ settled r pre) (settled r post ++ current x2 ++ pending x2) m).
    - rewrite <- !app_assoc in *. simpl in *. exact ND.
    - rewrite <- !app_assoc. apply in_app_iff. right. apply in_app_iff. now left. }
  destruct (first_end _ _ _ _ _ _ _ _ _ _ _ _ H2 G1 R1 eq_refl NS) as (C & S).
  eapply (dist_quiet ls s1 st2 _ r x1 m [FSubs r (b_subs x)] None ms l pre post); eauto.
  - apply reach_tree. eapply reach_step; eauto.
  - assert (exists xs, get_bus s1 r = Some xs /\ b_run xs = b_run x /\ b_subs xs = b_subs x /\ b_kids xs = b_kids x) as (xs & Gs & E1 & E2 & E3) by (eapply quiet_bus; eauto; exact I).
    inversion D1 as [? y Gy Ry|? y own bel Gy Ry T DA]; subst; assert (y = xs) by congruence; subst y; [congruence|].
    rewrite E2 in T. rewrite <- (app_nil_r bel). eapply rm_subs; eauto. constructor.
Qed.
Print Assumptions C20_exact.

(** The sequential account by membership: a subscriber is served exactly if its topic accepts and
    its bus and every bus above it up to the root are running; and it is served once. *)
Theorem C20_who : forall st topic r l, reach st -> delivers st topic r l ->
  NoDup l /\
  forall b s, In (b, s) l <->
    below st r b /\
    (forall c, below st r c -> below st c b -> exists xc, get_bus st c = Some xc /\ b_run xc = true) /\
    (exists xb, get_bus st b = Some xb /\ In s (b_subs xb)) /\
    (exists y, nth_error (s_subs st) s = Some y /\ (s_topic y = topic \/ s_topic y = "/**/*"%string)).
Proof.
  intros st topic r l Rc D. pose proof (reach_tree _ Rc) as T. split; [apply (proj1 (delivers_nodup st topic T) _ _ D)|].
  intros b s. split.
  - intros I. exact (proj1 (delivers_sound st topic) _ _ D _ _ I T).
  - intros S. apply (proj1 (delivers_complete st topic) _ _ D _ _ S).
Qed.
Print Assumptions C20_who.

(** ... a bus's own subscribers come first, in the order of creation (identifiers are creation
    numbers), then its children in strictly increasing order of their names. *)
Theorem C20_order : forall st topic b x l,
  reach st -> get_bus st b = Some x -> b_run x = true -> delivers st topic b l ->
  StronglySorted lt (b_subs x) /\ StronglySorted slt (map fst (b_kids x)) /\
  (forall name k, In (name, k) (b_kids x) -> exists y, get_bus st k = Some y /\ b_name y = name) /\
  exists own below, l = map (pair b) own ++ below /\ sublist own (b_subs x) /\ delivers_all st topic (map snd (b_kids x)) below.
Proof.
  intros st topic b x l Rc G R D. pose proof (reach_tree _ Rc) as T. split; [eapply reach_subs_sorted; eauto|].
  destruct (t_sorted _ T _ _ G) as (S & _). split; [exact S|]. split.
  - intros name k I. apply (in_olookup _ _ _ S) in I. destruct (t_name _ T _ _ _ _ G I) as (y & Gy & N & _). eauto.
  - inversion D as [? y Gy Ry|? y own bel Gy Ry Tk DA]; subst; assert (y = x) by congruence; subst y; [congruence|].
    exists own, bel. split; auto. split; auto. clear - Tk. induction Tk; constructor; auto.
Qed.
Print Assumptions C20_order.

(** Whatever other threads do: a delivery goes to a subscriber that is registered and whose topic
    accepts, of a bus under the root, and every bus from the root down to it was running at some
    moment at which the root had this message in hand. *)
Theorem C20_only : forall ls st tr l st' evs r b s m,
  exec ls init = Some (st, tr) -> step l st = Some (st', evs) -> In (EvReceive r b s m) evs ->
  (exists y, nth_error (s_subs st) s = Some y /\ (s_topic y = bm_topic (snd m) \/ s_topic y = "/**/*"%string)) /\
  (exists xb, get_bus st b = Some xb /\ In s (b_subs xb)) /\
  below st r b /\
  (forall c, below st r c -> below st c b -> ran_with r m c ls).
Proof.
  intros ls st tr l st' evs r b s m X H I. assert (reach st) as Rc by (exists ls, tr; auto).
  pose proof (reach_tree _ Rc) as T. pose proof (reach_lock _ Rc) as K.
  destruct (receive_registered _ _ _ _ _ _ _ _ T K H I) as (A & B & C & _).
  split; [exact A|]. split; [exact B|]. split; [exact C|].
  destruct (receive_inv _ _ _ _ _ _ _ _ H I) as (x & ss & stk & rest & y & _ & G & R & _).
  intros c B1 B2. pose proof (k_stack _ K _ _ G) as S. rewrite R in S. simpl in S.
  destruct (BusDetach.path_frames _ _ _ (FSubs b (s :: ss)) c T S (or_introl eq_refl) B2 B1) as [->|(todo & J)].
  - apply (path_ran r _ _ _ X x m _ _ _ (FSubs b (s :: ss)) G R). now left.
  - apply (path_ran r _ _ _ X x m _ _ _ (FKids c todo) G R J).
Qed.
Print Assumptions C20_only.

(** Whatever other threads do: a subscriber that stays registered and whose bus and ancestors stay
    running misses no message that is distributed to the end and that its topic accepts. *)
Theorem C20_every : forall ls st st' tr r b s y,
  reach st -> always (serving r b s) ls st -> exec ls st = Some (st', tr) ->
  (exists x, get_bus st r = Some x /\ current x = []) ->
  nth_error (s_subs st) s = Some y ->
  forall m, In (EvEnd r m) tr -> s_topic y = bm_topic (snd m) \/ s_topic y = "/**/*"%string ->
  In (EvReceive r b s m) tr.
Proof.
  intros ls st st' tr r b s y Rc A X (x & G & C) N m I T.
  assert (due r b s st []) as D0.
  { split; [intros m0 []|]. intros x0 m0 stk c rest G0 R0. rewrite G in G0. injection G0 as <-. unfold current in C. rewrite R0 in C. discriminate. }
  destruct (due_exec ls st st' [] tr r b s Rc A D0 X) as (D & _). apply D; auto.
  clear - X N T. revert st y tr X N T. induction ls as [|l ls IH]; intros st y tr X N T.
  - simpl in X. injection X as <- <-. exists y. auto.
  - apply exec_cons_inv in X. destruct X as (st1 & e1 & e2 & H1 & H2 & ->).
    destruct (step_sub _ _ _ _ _ _ H1 N) as (y1 & N1 & E & _). apply (IH _ y1 _ H2 N1). rewrite E. exact T.
Qed.
Print Assumptions C20_every.

(** Whatever other threads do: no subscriber gets the same message twice. *)
Theorem C20_once : forall ls st tr r s,
  exec ls init = Some (st, tr) -> NoDup (inbox r s tr).
Proof.
  intros ls st tr r s X. pose proof (o_sorted _ _ _ (once_all r _ _ _ X) s) as S.
  apply (NoDup_map_inv fst). clear - S. induction S as [|a l S IH F]; constructor; auto.
  intros I. rewrite Forall_forall in F. specialize (F _ I). lia.
Qed.
Print Assumptions C20_once.

(** The hypotheses of [C20_exact] hold of the run above. *)
Example C20_case : exists st tr st1 st2 pre,
  exec (ex_setup ++ ex_publish ++ [LRun 0; LRun 0]) init = Some (st, tr) /\
  step (LRun 0) st = Some (st1, [EvBegin 0 ex_msg0]) /\
  Forall quiet ex_dist /\
  exec ex_dist st1 = Some (st2, pre ++ EvEnd 0 ex_msg0 :: []) /\
  received 0 pre = map (fun p => (p, ex_msg0)) [(0, 0); (3, 2); (1, 1)].
Proof.
  do 5 eexists. split; [vm_compute; reflexivity|]. split; [vm_compute; reflexivity|].
  split; [repeat constructor|]. split.
  - match goal with |- ?a = Some (?s, _) => let v := eval vm_compute in a in
      match v with Some (?s', ?t) => let p := eval vm_compute in (removelast t) in
        instantiate (2 := s'); instantiate (1 := p) end end. vm_compute. reflexivity.
  - vm_compute. reflexivity.
Qed.

Example C20_every_case : exists st tr st' tr',
  exec ex_setup init = Some (st, tr) /\ (exists x, get_bus st 0 = Some x /\ current x = []) /\
  exec (ex_publish ++ ex_begin ++ ex_dist) st = Some (st', tr') /\ In (EvEnd 0 ex_msg0) tr' /\
  serving 0 3 2 st /\ In (EvReceive 0 3 2 ex_msg0) tr'.
Proof.
  do 4 eexists. split; [vm_compute; reflexivity|]. split; [vm_compute; eauto|]. split; [vm_compute; reflexivity|].
  split; [vm_compute; auto 40|]. split; [|vm_compute; auto 40].
  split; [eexists; split; [reflexivity|simpl; auto]|]. split.
  - apply below_kid with 2; [apply below_kid with 0; [constructor|]|]; eexists; (split; [reflexivity|simpl; auto]).
  - intros c xc B G. pose proof (get_lt _ _ _ G) as L. vm_compute in L.
    do 4 (destruct c as [|c]; [vm_compute in G; injection G as <-; reflexivity|]). lia.
Qed.

(** * C21 *)

(** What a subscriber receives from a root is, in this order, a selection from the messages that
    the root's queue accepted; the accepted messages are pairwise different. *)
Theorem C21_fifo : forall ls st tr r s,
  exec ls init = Some (st, tr) -> sublist (inbox r s tr) (accepted r tr) /\ NoDup (accepted r tr).
Proof.
  intros ls st tr r s X. pose proof (once_all r _ _ _ X) as O. pose proof (o_acc _ _ _ O) as A.
  unfold account in A. destruct (get_bus st r) as [x|] eqn:G.
  - destruct A as (A1 & A2). split.
    + apply sublist_sorted.
      * apply (o_sorted _ _ _ O).
      * pose proof (seq_sorted 0 (b_count x)) as SS. rewrite <- A2 in SS. exact SS.
      * intros m I. destruct (o_in _ _ _ O _ _ I) as (_ & x' & G' & J). rewrite G in G'. injection G' as <-.
        rewrite A1. rewrite app_assoc. apply in_app_iff. auto.
    + apply (NoDup_map_inv fst). pose proof (seq_NoDup (b_count x) 0) as SN. rewrite <- A2 in SN. exact SN.
  - destruct A as (A1 & A2). split; [|rewrite A1; constructor].
    destruct (inbox r s tr) as [|m ms] eqn:E; [rewrite A1; constructor|].
    destruct (o_in _ _ _ O s m) as (_ & x' & G' & _); [rewrite E; now left|]. congruence.
Qed.
Print Assumptions C21_fifo.

(** The n-th accepted message carries number n, so acceptance order can be read off. *)
Theorem C21_numbers : forall ls st tr r x,
  exec ls init = Some (st, tr) -> get_bus st r = Some x ->
  map fst (accepted r tr) = seq 0 (b_count x) /\ forall s, StronglySorted lt (map fst (inbox r s tr)).
Proof.
  intros ls st tr r x X G. pose proof (once_all r _ _ _ X) as O. pose proof (o_acc _ _ _ O) as A.
  unfold account in A. rewrite G in A. destruct A as (_ & A). split; [exact A|]. apply (o_sorted _ _ _ O).
Qed.
Print Assumptions C21_numbers.

(** Subscriber 1 accepts everything: both messages, in order, while another thread publishes a
    third message and deletes subscriber 2 during a callback. *)
Definition ex_race : list label :=
  repeat (LRun 0) 6 ++ [LPublish 0 (Val (DInt 6)); LFly 2; LFly 2; LDelSub 3 2; LReturn 0] ++ repeat (LRun 0) 9 ++ [LReturn 0].
Example C21_case : exists st tr,
  exec (ex_setup ++ ex_publish ++ ex_begin ++ ex_dist ++ ex_race) init = Some (st, tr) /\
  inbox 0 1 tr = [ex_msg0; ex_msg1] /\ inbox 0 2 tr = [ex_msg0] /\ inbox 0 3 tr = [ex_msg1] /\
  accepted 0 tr = [ex_msg0; ex_msg1; (2, mkM "b" "t" (Val (DInt 6)))].
Proof. do 2 eexists. split; [vm_compute; reflexivity|]. vm_compute. auto. Qed.

(** * C22 *)

(** If the root was never stopped and none of its runs ended with an exception, the accepted
    messages are: those fully distributed, then the one being distributed, then the pending ones
    (rest of the batch, queue), in this order. *)
Theorem C22_no_loss : forall ls st tr r x,
  exec ls init = Some (st, tr) -> get_bus st r = Some x ->
  ~ In (LStop r) ls -> crashes r tr = [] ->
  accepted r tr = completed r tr ++ current x ++ pending x.
Proof.
  intros ls st tr r x X G N C. destruct (run_kept r _ _ _ X N) as (_ & D). specialize (D C).
  pose proof (account_all r _ _ _ X) as A. unfold account in A. rewrite G in A. destruct A as (A & _).
  now rewrite <- (settled_completed _ _ D).
Qed.
Print Assumptions C22_no_loss.

(** With Stop and exceptions: the accepted messages are those fully distributed or discarded (each
    exactly once, recorded in the trace), the current one and the pending ones, in this order. *)
Theorem C22_account : forall ls st tr r x,
  exec ls init = Some (st, tr) -> get_bus st r = Some x ->
  accepted r tr = settled r tr ++ current x ++ pending x /\ NoDup (accepted r tr).
Proof.
  intros ls st tr r x X G. split.
  - pose proof (account_all r _ _ _ X) as A. unfold account in A. rewrite G in A. tauto.
  - apply (proj2 (C21_fifo ls st tr r 0 X)).
Qed.
Print Assumptions C22_account.

Example C22_case : exists st tr x,
  exec (ex_setup ++ ex_publish ++ ex_begin ++ ex_dist ++ ex_race) init = Some (st, tr) /\ get_bus st 0 = Some x /\
  crashes 0 tr = [] /\ completed 0 tr = [ex_msg0] /\ current x = [ex_msg1] /\ pending x = [(2, mkM "b" "t" (Val (DInt 6)))].
Proof. do 3 eexists. split; [vm_compute; reflexivity|]. split; [vm_compute; reflexivity|]. vm_compute. auto. Qed.

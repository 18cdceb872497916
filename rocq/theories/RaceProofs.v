(** Proofs about footprints and races. *)
From Coq Require Import String List Arith Bool Lia.
From Verif Require Import Prelude OMap DatagramModel DatagramSpec BusModel BusSpec BusProofs BusTree BusLocks BusLocks2 BusLocks3 BusDist BusAccount BusOnce BusServe BusDeliver BusDeliveryProps BusLockProps ActionSpec ActionProofs RaceModel RaceSpec.
Import ListNotations.
Open Scope list_scope.

(** ** [mapi] *)

Lemma mapi_nth {A} (f : nat -> A -> A) l : forall k n, nth_error (mapi f k l) n = option_map (f (k + n)) (nth_error l n).
Proof.
  induction l as [|a l IH]; intros k [|n]; simpl; auto. { now rewrite Nat.add_0_r. } rewrite IH. now rewrite Nat.add_succ_r.
Qed.
Lemma mapi_set {A} (f : nat -> A -> A) l : forall k i y, mapi f k (list_set i y l) = list_set i (f (k + i) y) (mapi f k l).
Proof.
  induction l as [|a l IH]; intros k [|i] y; simpl; auto. { now rewrite Nat.add_0_r. } now rewrite IH, Nat.add_succ_r.
Qed.
Lemma mapi_app {A} (f : nat -> A -> A) l y : forall k, mapi f k (l ++ [y]) = mapi f k l ++ [f (k + length l) y].
Proof.
  induction l as [|a l IH]; intros k; simpl. { now rewrite Nat.add_0_r. } now rewrite IH, Nat.add_succ_r.
Qed.
Lemma mapi_length {A} (f : nat -> A -> A) l : forall k, length (mapi f k l) = length l.
Proof. induction l as [|a l IH]; intros k; simpl; auto. Qed.

(** ** [put] and the accessors *)

Section Put.
Variables (x : member) (v : content).

Lemma put_get st b : get_bus (put x v st) b = option_map (put_bus x v b) (get_bus st b).
Proof. unfold get_bus, put. simpl. now rewrite mapi_nth. Qed.
Lemma put_nth_sub st s : nth_error (s_subs (put x v st)) s = option_map (put_sub x v s) (nth_error (s_subs st) s).
Proof. simpl. now rewrite mapi_nth. Qed.
Lemma put_nth_pub st s : nth_error (s_pubs (put x v st)) s = option_map (put_pub x v s) (nth_error (s_pubs st) s).
Proof. simpl. now rewrite mapi_nth. Qed.
Lemma put_nth_prov st s : nth_error (s_provs (put x v st)) s = option_map (put_prov x v s) (nth_error (s_provs st) s).
Proof. simpl. now rewrite mapi_nth. Qed.
Lemma put_nth_cons st s : nth_error (s_conss (put x v st)) s = option_map (put_cons x v s) (nth_error (s_conss st) s).
Proof. simpl. now rewrite mapi_nth. Qed.
Lemma put_len_subs st : length (s_subs (put x v st)) = length (s_subs st).
Proof. simpl. apply mapi_length. Qed.
Lemma put_len_buses st : length (s_buses (put x v st)) = length (s_buses st).
Proof. simpl. apply mapi_length. Qed.
Lemma put_len_pubs st : length (s_pubs (put x v st)) = length (s_pubs st).
Proof. simpl. apply mapi_length. Qed.
Lemma put_len_provs st : length (s_provs (put x v st)) = length (s_provs st).
Proof. simpl. apply mapi_length. Qed.
Lemma put_len_conss st : length (s_conss (put x v st)) = length (s_conss st).
Proof. simpl. apply mapi_length. Qed.

Ltac pb := intros; unfold put_bus; destruct x, v; auto; match goal with |- context [Nat.eqb ?a ?b] => destruct (Nat.eqb_spec a b) as [->|]; auto; congruence end.
Lemma pb_run b y : b_run (put_bus x v b y) = b_run y. Proof. pb. Qed.
Lemma pb_root b y : b_root (put_bus x v b y) = b_root y. Proof. pb. Qed.
Lemma pb_name b y : b_name (put_bus x v b y) = b_name y. Proof. pb. Qed.
Lemma pb_slock b y : b_slock (put_bus x v b y) = b_slock y. Proof. pb. Qed.
Lemma pb_klock b y : b_klock (put_bus x v b y) = b_klock y. Proof. pb. Qed.
Lemma pb_count b y : b_count (put_bus x v b y) = b_count y. Proof. pb. Qed.
Lemma pb_runner b y : b_runner (put_bus x v b y) = b_runner y. Proof. pb. Qed.
Lemma pb_fn b y : x <> MBusFn b -> b_fn (put_bus x v b y) = b_fn y. Proof. pb. Qed.
Lemma pb_subs b y : x <> MSubs b -> b_subs (put_bus x v b y) = b_subs y. Proof. pb. Qed.
Lemma pb_pubs b y : x <> MPubs b -> b_pubs (put_bus x v b y) = b_pubs y. Proof. pb. Qed.
Lemma pb_kids b y : x <> MKids b -> b_kids (put_bus x v b y) = b_kids y. Proof. pb. Qed.
Lemma pb_queue b y : x <> MQueue b -> b_queue (put_bus x v b y) = b_queue y. Proof. pb. Qed.
Lemma pb_with_run b y a : put_bus x v b (with_run a y) = with_run a (put_bus x v b y). Proof. pb. Qed.
Lemma pb_with_slock b y a : put_bus x v b (with_slock a y) = with_slock a (put_bus x v b y). Proof. pb. Qed.
Lemma pb_with_klock b y a : put_bus x v b (with_klock a y) = with_klock a (put_bus x v b y). Proof. pb. Qed.
Lemma pb_with_runner b y a : put_bus x v b (with_runner a y) = with_runner a (put_bus x v b y). Proof. pb. Qed.
Lemma pb_with_fn b y a : x <> MBusFn b -> put_bus x v b (with_fn a y) = with_fn a (put_bus x v b y). Proof. pb. Qed.
Lemma pb_with_subs b y a : x <> MSubs b -> put_bus x v b (with_subs a y) = with_subs a (put_bus x v b y). Proof. pb. Qed.
Lemma pb_with_pubs b y a : x <> MPubs b -> put_bus x v b (with_pubs a y) = with_pubs a (put_bus x v b y). Proof. pb. Qed.
Lemma pb_with_kids b y a : x <> MKids b -> put_bus x v b (with_kids a y) = with_kids a (put_bus x v b y). Proof. pb. Qed.
Lemma pb_with_queue b y a n : x <> MQueue b -> put_bus x v b (with_queue a n y) = with_queue a n (put_bus x v b y). Proof. pb. Qed.

Ltac p1 f := intros; unfold f; destruct x, v; auto; match goal with |- context [Nat.eqb ?a ?b] => destruct (Nat.eqb_spec a b) as [->|]; auto; congruence end.
Lemma ps_topic s y : s_topic (put_sub x v s y) = s_topic y. Proof. p1 put_sub. Qed.
Lemma ps_cb s y : x <> MCallback s -> put_sub x v s y = y. Proof. p1 put_sub. Qed.
Lemma pp_fn p y : x <> MPubFn p -> put_pub x v p y = y. Proof. p1 put_pub. Qed.
Lemma pp_topic p y : p_topic (put_pub x v p y) = p_topic y. Proof. p1 put_pub. Qed.
Lemma pp_bus p y : p_bus (put_pub x v p y) = p_bus y. Proof. p1 put_pub. Qed.
Lemma pv_cb p y : x <> MProvCb p -> put_prov x v p y = y. Proof. p1 put_prov. Qed.
Lemma pv_sub p y : pr_sub (put_prov x v p y) = pr_sub y. Proof. p1 put_prov. Qed.
Lemma pv_pub p y : pr_pub (put_prov x v p y) = pr_pub y. Proof. p1 put_prov. Qed.
Lemma pc_open p y : x <> MOpen p -> put_cons x v p y = y. Proof. p1 put_cons. Qed.
Lemma pc_sub p y : co_sub (put_cons x v p y) = co_sub y. Proof. p1 put_cons. Qed.
Lemma pc_pub p y : co_pub (put_cons x v p y) = co_pub y. Proof. p1 put_cons. Qed.

(** New objects are not the member. *)
Definition there (st : state) : Prop := content_of st x <> None.

Ltac nw := intros T; unfold there, content_of, get_bus in T; destruct x; try reflexivity;
  match goal with |- ?f _ _ _ _ = _ => unfold f end; destruct v; try reflexivity;
  match goal with |- context [Nat.eqb ?a ?b] => destruct (Nat.eqb_spec a b) as [<-|]; [|reflexivity] end;
  exfalso; apply T; rewrite (proj2 (nth_error_None _ _)); auto.
Lemma new_bus_put st y : there st -> put_bus x v (length (s_buses st)) y = y. Proof. nw. Qed.
Lemma new_sub_put st y : there st -> put_sub x v (length (s_subs st)) y = y. Proof. nw. Qed.
Lemma new_pub_put st y : there st -> put_pub x v (length (s_pubs st)) y = y. Proof. nw. Qed.
Lemma new_prov_put st y : there st -> put_prov x v (length (s_provs st)) y = y. Proof. nw. Qed.
Lemma new_cons_put st y : there st -> put_cons x v (length (s_conss st)) y = y. Proof. nw. Qed.

Lemma put_set_bus st b y : put x v (set_bus b y st) = set_bus b (put_bus x v b y) (put x v st).
Proof. unfold put, set_bus. simpl. f_equal. now rewrite mapi_set. Qed.
Lemma put_upd_bus st b f : (forall y, put_bus x v b (f y) = f (put_bus x v b y)) ->
  put x v (upd_bus b f st) = upd_bus b f (put x v st).
Proof.
  intros C. unfold upd_bus. rewrite put_get. destruct (get_bus st b) as [y|]; simpl; auto. now rewrite put_set_bus, C.
Qed.
Lemma put_add_bus st y : there st -> put x v (add_bus y st) = add_bus y (put x v st).
Proof. intros T. unfold put, add_bus. simpl. f_equal. rewrite mapi_app. simpl. now rewrite new_bus_put. Qed.
Lemma put_set_flights st l : put x v (set_flights l st) = set_flights l (put x v st). Proof. reflexivity. Qed.
Lemma put_set_detaches st l : put x v (set_detaches l st) = set_detaches l (put x v st). Proof. reflexivity. Qed.
Lemma put_set_sub st s y : put x v (set_subs (list_set s y (s_subs st)) st) = set_subs (list_set s (put_sub x v s y) (s_subs (put x v st))) (put x v st).
Proof. unfold put, set_subs. simpl. f_equal. now rewrite mapi_set. Qed.
Lemma put_set_pub st s y : put x v (set_pubs (list_set s y (s_pubs st)) st) = set_pubs (list_set s (put_pub x v s y) (s_pubs (put x v st))) (put x v st).
Proof. unfold put, set_pubs. simpl. f_equal. now rewrite mapi_set. Qed.
Lemma put_set_prov st s y : put x v (set_provs (list_set s y (s_provs st)) st) = set_provs (list_set s (put_prov x v s y) (s_provs (put x v st))) (put x v st).
Proof. unfold put, set_provs. simpl. f_equal. now rewrite mapi_set. Qed.
Lemma put_set_cons st s y : put x v (set_conss (list_set s y (s_conss st)) st) = set_conss (list_set s (put_cons x v s y) (s_conss (put x v st))) (put x v st).
Proof. unfold put, set_conss. simpl. f_equal. now rewrite mapi_set. Qed.
End Put.

(** ** What a step does not touch does not matter to it *)

Definition avoids (x : member) (acc : list access) : Prop := forall a, In a acc -> a_mem a <> x.
Definition then_put (x : member) (v : content) (r : option (state * list event)) : option (state * list event) :=
  option_map (fun p => (put x v (fst p), snd p)) r.

Lemma avoids_cons x a acc : avoids x (a :: acc) -> x <> a_mem a /\ avoids x acc.
Proof. intros A. split; [|intros b I; apply A; now right]. intros E. apply (A a); [now left|auto]. Qed.

Ltac av H := repeat (let K := fresh "K" in apply avoids_cons in H as (K & H); simpl in K).
Ltac pbs := rewrite ?pb_run, ?pb_root, ?pb_name, ?pb_slock, ?pb_klock, ?pb_count, ?pb_runner.

Lemma put_set_cb x v s cb st : x <> MCallback s -> set_cb s cb (put x v st) = option_map (put x v) (set_cb s cb st).
Proof.
  intros K. unfold set_cb. rewrite put_nth_sub. destruct (nth_error (s_subs st) s) as [y|]; cbn [option_map fst snd]; auto.
  rewrite put_set_sub, !ps_cb; auto.
Qed.

Lemma put_begin x v p d st : x <> MPubFn p -> begin_publish p d (put x v st) = then_put x v (begin_publish p d st).
Proof.
  intros K. unfold begin_publish. rewrite put_nth_pub. destruct (nth_error (s_pubs st) p) as [y|]; cbn [option_map fst snd]; auto.
  rewrite pp_fn; auto. destruct (p_fn y); reflexivity.
Qed.

Lemma put_test x v b m st : x <> MBusFn b -> test_bus_fn b m (put x v st) = test_bus_fn b m st.
Proof.
  intros K. unfold test_bus_fn. rewrite put_get. destruct (get_bus st b) as [y|]; simpl; auto. now rewrite pb_fn.
Qed.

Lemma put_fly x v i st : avoids x (fly_accesses st i) -> fly_step i (put x v st) = then_put x v (fly_step i st).
Proof.
  intros A. unfold fly_step, fly_accesses in *. change (s_flights (put x v st)) with (s_flights st).
  destruct (nth_error (s_flights st) i) as [[p d|b m|]|]; auto.
  - apply avoids_cons in A as (K & A). simpl in K. rewrite put_nth_pub. destruct (nth_error (s_pubs st) p) as [y|]; cbn [option_map fst snd]; auto.
    rewrite pp_fn; auto. destruct (p_fn y); auto. av A. rewrite put_get. destruct (get_bus st (p_bus y)) as [z|] eqn:G; cbn [option_map fst snd]; auto.
    rewrite pb_name, put_test; auto. destruct (test_bus_fn (p_bus y) _ st) as [[| |] ?]; reflexivity.
  - apply avoids_cons in A as (K & A). simpl in K. rewrite put_get. destruct (get_bus st b) as [z|]; cbn [option_map fst snd]; auto.
    rewrite pb_fn; auto. destruct (b_fn z) as [[r|f]|]; auto. av A. unfold call_target. rewrite put_get.
    destruct (get_bus st r) as [w|]; cbn [option_map fst snd]; auto. unfold then_put. simpl. rewrite put_set_flights, put_set_bus, pb_with_queue, pb_count, pb_queue; auto.
Qed.

Lemma upd_dets b f st : s_detaches (upd_bus b f st) = s_detaches st.
Proof. unfold upd_bus. now destruct (get_bus st b). Qed.

Lemma upd_provs b f st : s_provs (upd_bus b f st) = s_provs st.
Proof. unfold upd_bus. now destruct (get_bus st b). Qed.
Lemma upd_conss b f st : s_conss (upd_bus b f st) = s_conss st.
Proof. unfold upd_bus. now destruct (get_bus st b). Qed.

Lemma put_detach x v i st : avoids x (detach_accesses st i) -> detach_step i (put x v st) = then_put x v (detach_step i st).
Proof.
  intros A. unfold detach_step, detach_accesses in *. change (s_detaches (put x v st)) with (s_detaches st).
  destruct (nth_error (s_detaches st) i) as [[|[b|b [|k ks]] stk]|]; auto.
  - av A. rewrite put_get. destruct (get_bus st b) as [y|]; cbn [option_map fst snd]; auto. rewrite pb_klock, pb_kids; auto. destruct (b_klock y); auto.
    unfold then_put. simpl. rewrite put_set_detaches, put_set_bus, pb_with_klock. reflexivity.
  - unfold then_put. cbn [option_map fst snd]. rewrite put_set_detaches, put_upd_bus; [now rewrite !upd_dets|]. intros. apply pb_with_klock.
  - av A. unfold then_put. cbn [option_map fst snd]. rewrite put_set_detaches, put_upd_bus; [now rewrite !upd_dets|]. intros. rewrite pb_with_fn, pb_with_run; auto.
Qed.

Lemma put_unwind x v stk : forall st, unwind stk (put x v st) = put x v (unwind stk st).
Proof.
  unfold unwind. induction stk as [|f stk IH]; intros st; simpl; auto. rewrite <- IH. f_equal. destruct f; simpl; auto.
  - rewrite put_upd_bus; auto. intros. apply pb_with_slock.
  - rewrite put_upd_bus; auto. intros. apply pb_with_klock.
Qed.

Lemma put_runner x v r y st : put x v (upd_bus r (with_runner y) st) = upd_bus r (with_runner y) (put x v st).
Proof. apply put_upd_bus. intros. apply pb_with_runner. Qed.
Lemma put_slock x v r y st : put x v (upd_bus r (with_slock y) st) = upd_bus r (with_slock y) (put x v st).
Proof. apply put_upd_bus. intros. apply pb_with_slock. Qed.
Lemma put_klock x v r y st : put x v (upd_bus r (with_klock y) st) = upd_bus r (with_klock y) (put x v st).
Proof. apply put_upd_bus. intros. apply pb_with_klock. Qed.

Lemma put_abort x v r m stk rest e st : abort r m stk rest e (put x v st) = (put x v (fst (abort r m stk rest e st)), snd (abort r m stk rest e st)).
Proof. unfold abort. simpl. now rewrite put_runner, put_unwind. Qed.

Lemma put_receive x v st k s m : avoids x (receive_accesses st k s m) -> receive (put x v st) s m = receive st s m.
Proof.
  intros A. unfold receive, receive_accesses in *. apply avoids_cons in A as (K & A). simpl in K. rewrite put_nth_sub.
  destruct (nth_error (s_subs st) s) as [y|]; cbn [option_map fst snd]; auto. rewrite ps_cb; auto.
  destruct (s_cb y) as [[u|u|p|c]|]; auto.
  - destruct (envelope_id (bm_data m)); auto. av A. rewrite put_nth_prov. destruct (nth_error (s_provs st) p) as [z|]; simpl; auto. rewrite pv_cb; auto.
  - destruct (envelope_id (bm_data m)) as [id|]; auto. rewrite put_nth_cons. destruct (nth_error (s_conss st) c) as [z|]; simpl; auto.
    destruct (olookup id (co_open z)) eqn:O; av A; rewrite pc_open, O; auto.
Qed.

Lemma put_run x v r st : avoids x (run_accesses st r) -> run_step r (put x v st) = then_put x v (run_step r st).
Proof.
  intros A. unfold run_step, run_accesses in *. rewrite put_get. destruct (get_bus st r) as [y|] eqn:G; cbn [option_map fst snd]; auto.
  rewrite pb_runner, pb_run, pb_slock, pb_count. unfold then_put.
  destruct (b_runner y) as [| | |[|m ms]|m [|[b [|s ss]|b|b [|k ks]] stk] [c|] rest]; cbn [option_map fst snd]; auto.
  - destruct (b_run y); simpl; now rewrite put_runner.
  - av A. rewrite pb_queue, put_runner, put_upd_bus; auto. intros. apply pb_with_queue; auto.
  - now rewrite put_runner.
  - destruct (b_run y); [|simpl; now rewrite put_runner]. av A. destruct (b_slock y); auto. simpl. rewrite pb_subs, put_runner, put_slock; auto.
  - now rewrite put_runner.
  - now rewrite put_runner, put_slock.
  - apply avoids_cons in A as (K & A). simpl in K. rewrite put_nth_sub. destruct (nth_error (s_subs st) s) as [z|]; cbn [option_map fst snd]; auto.
    rewrite ps_topic. destruct (ant_matches (s_topic z) (bm_topic (snd m))).
    + rewrite (put_receive x v st (locks_of (FSubs b (s :: ss) :: stk))); auto. destruct (receive st s (snd m)) as [|e|c].
      * cbn [option_map fst snd]. now rewrite put_runner.
      * rewrite put_abort. destruct (abort r m (FSubs b ss :: stk) rest e st). reflexivity.
      * cbn [option_map fst snd]. now rewrite put_runner.
    + simpl. now rewrite put_runner.
  - av A. rewrite put_get. destruct (get_bus st b) as [z|]; cbn [option_map fst snd]; auto. rewrite pb_klock. destruct (b_klock z); auto. simpl.
    rewrite pb_kids, put_runner, put_klock; auto.
  - now rewrite put_runner, put_klock.
  - apply avoids_cons in A as (K & A). simpl in K. rewrite put_get. destruct (get_bus st k) as [z|]; cbn [option_map fst snd]; auto. rewrite pb_run, pb_slock.
    destruct (b_run z); [|simpl; now rewrite put_runner]. av A. destruct (b_slock z); auto. simpl. rewrite pb_subs, put_runner, put_slock; auto.
Qed.

Lemma put_return x v r st : avoids x (return_accesses st r) -> return_step r (put x v st) = then_put x v (return_step r st).
Proof.
  intros A. unfold return_step, return_accesses in *. rewrite put_get. destruct (get_bus st r) as [y|]; cbn [option_map fst snd]; auto.
  rewrite pb_runner. destruct (b_runner y) as [| | | |m stk [c|] rest]; auto. unfold then_put. simpl.
  destruct c as [| | |c id u d]; simpl; rewrite ?put_runner; auto. av A. rewrite <- put_runner. rewrite put_nth_cons. simpl.
  set (st1 := upd_bus r _ st). destruct (nth_error (s_conss st1) c) as [z|]; cbn [option_map fst snd]; auto. rewrite put_set_cons, !pc_open; auto.
Qed.

Lemma put_throw x v r e st : throw_step r e (put x v st) = then_put x v (throw_step r e st).
Proof.
  unfold throw_step. rewrite put_get. destruct (get_bus st r) as [y|]; cbn [option_map fst snd]; auto.
  rewrite pb_runner. destruct (b_runner y) as [| | | |m stk [c|] rest]; auto. unfold then_put. cbn [option_map fst snd]. rewrite put_abort. reflexivity.
Qed.

Lemma put_add_sub x v b y z st : there x st -> x <> MSubs b ->
  put x v (add_sub b y z st) = add_sub b (put_bus x v b y) z (put x v st).
Proof.
  intros T K. unfold add_sub. rewrite put_len_subs, pb_subs, <- pb_with_subs; auto. rewrite <- put_set_bus.
  unfold put, set_subs. simpl. f_equal. rewrite mapi_app. simpl. now rewrite new_sub_put.
Qed.

Lemma put_add_pub x v b t st : there x st -> x <> MPubs b -> put x v (add_pub b t st) = add_pub b t (put x v st).
Proof.
  intros T K. unfold add_pub. rewrite put_len_pubs. rewrite <- (put_upd_bus x v st b (fun y => with_pubs (b_pubs y ++ [length (s_pubs st)]) y)).
  2:{ intros y. rewrite pb_with_pubs, pb_pubs; auto. }
  unfold put, set_pubs. simpl. f_equal. rewrite mapi_app. simpl. now rewrite new_pub_put.
Qed.

Lemma there_iff x st : there x st <->
  match x with
  | MCallback s => s < length (s_subs st)
  | MPubFn p => p < length (s_pubs st)
  | MProvCb p => p < length (s_provs st)
  | MOpen c => c < length (s_conss st)
  | MBusFn b | MSubs b | MPubs b | MKids b | MQueue b => b < length (s_buses st)
  end.
Proof.
  unfold there, content_of, get_bus. destruct x; rewrite <- nth_error_Some; match goal with |- context [nth_error ?l ?n] => destruct (nth_error l n) end;
    simpl; split; congruence.
Qed.

Lemma there_add_sub x b y z st : there x st -> there x (add_sub b y z st).
Proof. rewrite !there_iff. unfold add_sub. simpl. rewrite list_set_length, app_length. destruct x; simpl; lia. Qed.

Lemma step_put x v l st : there x st -> avoids x (accesses st l) -> step l (put x v st) = then_put x v (step l st).
Proof.
  intros T A. destruct l as [name|name f|b name|b name|b t cb|s u|s u|b s|b s|b t|b p|b p|b t u|p|p|b t|c|b|b|b|i|p d|b m|i|c id d u|p id d|r|r|r e];
    cbn [step accesses] in *.
  - destruct (String.eqb name ""); auto. rewrite put_len_buses. unfold ok, then_put. cbn [option_map fst snd]. now rewrite put_add_bus.
  - destruct (String.eqb name ""); auto. destruct f; auto. rewrite put_len_buses. unfold ok, then_put. cbn [option_map fst snd]. now rewrite put_add_bus.
  - rewrite put_get. destruct (get_bus st b) as [y|]; cbn [option_map fst snd]; auto. destruct (String.eqb name ""); auto.
    apply avoids_cons in A as (K & A). simpl in K. rewrite pb_klock, pb_kids; auto. destruct (b_klock y); auto.
    destruct (olookup name (b_kids y)); auto. apply avoids_cons in A as (K1 & A). simpl in K1. rewrite pb_fn; auto. destruct (b_fn y) as [t|]; auto.
    rewrite put_len_buses. unfold ok, then_put. cbn [option_map fst snd]. rewrite put_add_bus, put_set_bus, pb_with_kids; auto.
    apply there_iff in T. apply there_iff. simpl. rewrite list_set_length. exact T.
  - av A. rewrite put_get. destruct (get_bus st b) as [y|]; cbn [option_map fst snd]; auto. rewrite pb_klock, pb_kids; auto. destruct (b_klock y); auto.
    destruct (olookup name (b_kids y)); auto.
  - av A. rewrite put_get. destruct (get_bus st b) as [y|] eqn:G; cbn [option_map fst snd]; auto. rewrite pb_slock, put_len_subs. destruct (b_slock y); auto.
    unfold ok, then_put. cbn [option_map fst snd]. rewrite put_add_sub; auto.
  - av A. rewrite put_set_cb; auto. destruct (set_cb s (Some (CbData u)) st); auto.
  - av A. rewrite put_set_cb; auto. destruct (set_cb s (option_map CbMsg u) st); auto.
  - av A. rewrite put_get. destruct (get_bus st b) as [y|]; cbn [option_map fst snd]; auto. rewrite pb_slock, pb_subs, <- pb_with_subs, <- put_set_bus; auto.
    destruct (b_slock y); auto. rewrite put_set_cb; auto. destruct (set_cb s None _); auto.
  - av A. rewrite put_get. destruct (get_bus st b) as [y|]; cbn [option_map fst snd]; auto. rewrite pb_slock, pb_subs; auto. destruct (b_slock y); auto.
  - av A. rewrite put_get. destruct (get_bus st b) as [y|]; cbn [option_map fst snd]; auto. rewrite put_len_pubs. unfold ok, then_put. cbn [option_map fst snd]. rewrite put_add_pub; auto.
  - av A. rewrite put_get, put_nth_pub. destruct (get_bus st b) as [y|]; cbn [option_map fst snd]; auto. destruct (nth_error (s_pubs st) p) as [z|]; cbn [option_map fst snd]; auto.
    unfold ok, then_put. cbn [option_map fst snd]. do 2 f_equal. rewrite pb_pubs, <- pb_with_pubs, pp_fn, <- put_set_bus; auto.
    match goal with |- context [set_bus b ?q st] => change (s_pubs st) with (s_pubs (set_bus b q st)); change (s_pubs (put x v st)) with (s_pubs (put x v (set_bus b q st))) end.
    rewrite put_set_pub, pp_fn; auto.
  - av A. rewrite put_get. destruct (get_bus st b) as [y|]; cbn [option_map fst snd]; auto. rewrite pb_pubs; auto.
  - av A. rewrite put_get. destruct (get_bus st b) as [y|] eqn:G; cbn [option_map fst snd]; auto. rewrite pb_slock, put_len_subs, put_len_pubs, put_len_provs. destruct (b_slock y); auto.
    unfold ok, then_put. cbn [option_map fst snd]. do 2 f_equal. rewrite <- put_add_sub, <- put_add_pub; auto using there_add_sub.
    unfold put, set_provs. simpl. f_equal. rewrite mapi_app. simpl. rewrite upd_provs. simpl. now rewrite new_prov_put.
  - rewrite put_nth_prov. destruct (nth_error (s_provs st) p) as [y|]; cbn [option_map fst snd]; auto. av A. rewrite pv_sub, put_set_cb; auto.
    destruct (set_cb (pr_sub y) _ st); auto.
  - av A. rewrite put_nth_prov. destruct (nth_error (s_provs st) p) as [y|]; cbn [option_map fst snd]; auto. unfold ok, then_put. cbn [option_map fst snd].
    rewrite put_set_prov, !pv_cb; auto.
  - av A. rewrite put_get. destruct (get_bus st b) as [y|] eqn:G; cbn [option_map fst snd]; auto. rewrite pb_slock, put_len_subs, put_len_pubs, put_len_conss. destruct (b_slock y); auto.
    unfold ok, then_put. cbn [option_map fst snd]. do 2 f_equal. rewrite <- put_add_sub, <- put_add_pub; auto using there_add_sub.
    unfold put, set_conss. simpl. f_equal. rewrite mapi_app. simpl. rewrite upd_conss. simpl. now rewrite new_cons_put.
  - rewrite put_nth_cons. destruct (nth_error (s_conss st) c) as [y|]; cbn [option_map fst snd]; auto. av A. rewrite pc_sub, put_set_cb; auto.
    destruct (set_cb (co_sub y) _ st); auto.
  - rewrite put_get. destruct (get_bus st b) as [y|]; cbn [option_map fst snd]; auto. rewrite pb_root, pb_runner. unfold ok, then_put.
    rewrite <- pb_with_run, <- pb_with_runner, <- !put_set_bus. destruct (b_root y); auto. destruct (b_runner y); auto.
  - rewrite put_get. destruct (get_bus st b) as [y|]; cbn [option_map fst snd]; auto. unfold ok, then_put. rewrite <- pb_with_run, <- put_set_bus. auto.
  - av A. rewrite put_get. destruct (get_bus st b) as [y|]; cbn [option_map fst snd]; auto. unfold then_put. cbn [option_map fst snd].
    rewrite put_set_detaches, put_set_bus, pb_with_fn; auto.
  - now apply put_detach.
  - av A. now apply put_begin.
  - av A. rewrite put_get. destruct (get_bus st b) as [y|]; cbn [option_map fst snd]; auto. rewrite put_test; auto. destruct (test_bus_fn b m st) as [[| |] ?]; reflexivity.
  - now apply put_fly.
  - rewrite put_nth_cons. destruct (nth_error (s_conss st) c) as [y|]; cbn [option_map fst snd]; auto. destruct u as [u|]; auto.
    av A. rewrite pc_open; auto. set (z := mkCons _ _ _). rewrite <- (pc_open x v c z) at 1; auto. rewrite <- put_set_cons, put_begin; auto.
    destruct (begin_publish _ _ _) as [[s1 e1]|]; reflexivity.
  - rewrite put_nth_prov. destruct (nth_error (s_provs st) p) as [y|]; cbn [option_map fst snd]; auto. av A. rewrite pv_pub, put_begin; auto.
  - now apply put_run.
  - now apply put_return.
  - apply put_throw.
Qed.

(** ** A step changes only what it writes *)

Definition writes (acc : list access) (x : member) : Prop := exists a, In a acc /\ a_mem a = x /\ a_write a = true.
Definition keeps (st st' : state) (x : member) : Prop := forall v, content_of st x = Some v -> content_of st' x = Some v.

Definition same_at (x : member) (b : nat) (y y' : bus) : Prop :=
  match x with
  | MBusFn b' => b' = b -> b_fn y' = b_fn y
  | MSubs b' => b' = b -> b_subs y' = b_subs y
  | MPubs b' => b' = b -> b_pubs y' = b_pubs y
  | MKids b' => b' = b -> b_kids y' = b_kids y
  | MQueue b' => b' = b -> b_queue y' = b_queue y
  | _ => True
  end.

Lemma keeps_refl st x : keeps st st x. Proof. intros v E. exact E. Qed.
Lemma keeps_trans a b c x : keeps a b x -> keeps b c x -> keeps a c x. Proof. intros P Q v E. auto. Qed.

Lemma keeps_set st b y y' x : get_bus st b = Some y -> same_at x b y y' -> keeps st (set_bus b y' st) x.
Proof.
  intros G S v E. rewrite <- E. unfold content_of, get_bus, set_bus in *. destruct x; simpl in *; auto; rewrite list_set_nth;
    match goal with |- context [Nat.eqb ?a ?c] => destruct (Nat.eqb_spec a c) as [<-|]; auto end; rewrite G; simpl; rewrite S; auto.
Qed.
Lemma keeps_upd st b f x : (forall y, same_at x b y (f y)) -> keeps st (upd_bus b f st) x.
Proof. intros S. unfold upd_bus. destruct (get_bus st b) as [y|] eqn:G; [|apply keeps_refl]. eapply keeps_set; eauto. Qed.
Lemma keeps_add st y x : keeps st (add_bus y st) x.
Proof.
  intros v E. assert (there x st) as T by (unfold there; congruence). apply there_iff in T. rewrite <- E. unfold content_of, get_bus, add_bus in *.
  destruct x; simpl in *; auto; now rewrite nth_error_app1.
Qed.
Lemma keeps_add_sub st z x : keeps st (set_subs (s_subs st ++ [z]) st) x.
Proof.
  intros v E. assert (there x st) as T by (unfold there; congruence). apply there_iff in T. rewrite <- E. unfold content_of, get_bus in *.
  destruct x; simpl in *; auto. now rewrite nth_error_app1.
Qed.
Lemma keeps_add_pub st z x : keeps st (set_pubs (s_pubs st ++ [z]) st) x.
Proof.
  intros v E. assert (there x st) as T by (unfold there; congruence). apply there_iff in T. rewrite <- E. unfold content_of, get_bus in *.
  destruct x; simpl in *; auto. now rewrite nth_error_app1.
Qed.
Lemma keeps_add_prov st z x : keeps st (set_provs (s_provs st ++ [z]) st) x.
Proof.
  intros v E. assert (there x st) as T by (unfold there; congruence). apply there_iff in T. rewrite <- E. unfold content_of, get_bus in *.
  destruct x; simpl in *; auto. now rewrite nth_error_app1.
Qed.
Lemma keeps_add_cons st z x : keeps st (set_conss (s_conss st ++ [z]) st) x.
Proof.
  intros v E. assert (there x st) as T by (unfold there; congruence). apply there_iff in T. rewrite <- E. unfold content_of, get_bus in *.
  destruct x; simpl in *; auto. now rewrite nth_error_app1.
Qed.
Lemma keeps_set_sub st s y x : x <> MCallback s -> keeps st (set_subs (list_set s y (s_subs st)) st) x.
Proof. intros N v E. rewrite <- E. destruct x; simpl; auto. rewrite list_set_ne; congruence. Qed.
Lemma keeps_set_pub st s y x : x <> MPubFn s -> keeps st (set_pubs (list_set s y (s_pubs st)) st) x.
Proof. intros N v E. rewrite <- E. destruct x; simpl; auto. rewrite list_set_ne; congruence. Qed.
Lemma keeps_set_prov st s y x : x <> MProvCb s -> keeps st (set_provs (list_set s y (s_provs st)) st) x.
Proof. intros N v E. rewrite <- E. destruct x; simpl; auto. rewrite list_set_ne; congruence. Qed.
Lemma keeps_set_cons st s y x : x <> MOpen s -> keeps st (set_conss (list_set s y (s_conss st)) st) x.
Proof. intros N v E. rewrite <- E. destruct x; simpl; auto. rewrite list_set_ne; congruence. Qed.
Lemma keeps_flights st l x : keeps st (set_flights l st) x. Proof. intros v E. rewrite <- E. destruct x; reflexivity. Qed.
Lemma keeps_detaches st l x : keeps st (set_detaches l st) x. Proof. intros v E. rewrite <- E. destruct x; reflexivity. Qed.

Lemma keeps_runner st b r x : keeps st (upd_bus b (with_runner r) st) x. Proof. apply keeps_upd. intros y. destruct x; simpl; auto. Qed.
Lemma keeps_slock st b r x : keeps st (upd_bus b (with_slock r) st) x. Proof. apply keeps_upd. intros y. destruct x; simpl; auto. Qed.
Lemma keeps_klock st b r x : keeps st (upd_bus b (with_klock r) st) x. Proof. apply keeps_upd. intros y. destruct x; simpl; auto. Qed.
Lemma keeps_unwind stk x : forall st, keeps st (unwind stk st) x.
Proof.
  unfold unwind. induction stk as [|f stk IH]; intros st; simpl; [apply keeps_refl|]. eapply keeps_trans; [|apply IH].
  destruct f; simpl; [apply keeps_slock|apply keeps_refl|apply keeps_klock].
Qed.
Lemma keeps_abort r m stk rest e st x : keeps st (fst (abort r m stk rest e st)) x.
Proof. unfold abort. simpl. eapply keeps_trans; [apply keeps_unwind|apply keeps_runner]. Qed.

Lemma no_write x acc a : ~ writes acc x -> In a acc -> a_write a = true -> x <> a_mem a.
Proof. intros N I W E. apply N. exists a. auto. Qed.

Lemma keeps_begin p d st st' evs x : begin_publish p d st = Some (st', evs) -> keeps st st' x.
Proof.
  unfold begin_publish. destruct (nth_error (s_pubs st) p) as [y|]; [|discriminate]. intros E. injection E as E. destruct (p_fn y); injection E as <- <-; apply keeps_flights.
Qed.

Lemma keeps_set_cb s cb st st' x : set_cb s cb st = Some st' -> x <> MCallback s -> keeps st st' x.
Proof. unfold set_cb. destruct (nth_error (s_subs st) s); [|discriminate]. intros E N. injection E as <-. now apply keeps_set_sub. Qed.

Ltac nw N := match type of N with ~ writes ?acc ?x => intros; apply (no_write x acc); simpl; auto end.

Lemma keeps_run r st st' evs x : run_step r st = Some (st', evs) -> ~ writes (run_accesses st r) x -> keeps st st' x.
Proof.
  unfold run_step, run_accesses. destruct (get_bus st r) as [y|] eqn:G; [|discriminate]. intros E N.
  destruct (b_runner y) as [| | |[|m ms]|m [|[b [|s ss]|b|b [|k ks]] stk] [c|] rest]; try discriminate.
  - destruct (b_run y); injection E as <- <-; apply keeps_runner.
  - injection E as <- <-. assert (x <> MQueue r) as K by (apply (no_write _ _ (wr [KQueue r] (MQueue r)) N); simpl; auto).
    eapply keeps_trans; [|apply keeps_runner]. apply keeps_upd. intros z. destruct x; simpl; auto. congruence.
  - injection E as <- <-; apply keeps_runner.
  - destruct (b_run y); [destruct (b_slock y); [discriminate|]|]; injection E as <- <-; [eapply keeps_trans; [apply keeps_slock|]|]; apply keeps_runner.
  - injection E as <- <-; apply keeps_runner.
  - injection E as <- <-; eapply keeps_trans; [apply keeps_slock|apply keeps_runner].
  - destruct (nth_error (s_subs st) s) as [z|]; [|discriminate]. destruct (ant_matches (s_topic z) (bm_topic (snd m))); [|injection E as <- <-; apply keeps_runner].
    destruct (receive st s (snd m)) as [|e|c]; [injection E as <- <-; apply keeps_runner| |injection E as <- <-; apply keeps_runner].
    pose proof (keeps_abort r m (FSubs b ss :: stk) rest e st x) as K. destruct (abort r m (FSubs b ss :: stk) rest e st). injection E as <- <-. exact K.
  - destruct (get_bus st b) as [z|]; [|discriminate]. destruct (b_klock z); [discriminate|]. injection E as <- <-. eapply keeps_trans; [apply keeps_klock|apply keeps_runner].
  - injection E as <- <-; eapply keeps_trans; [apply keeps_klock|apply keeps_runner].
  - destruct (get_bus st k) as [z|]; [|discriminate].
    destruct (b_run z); [destruct (b_slock z); [discriminate|]|]; injection E as <- <-; [eapply keeps_trans; [apply keeps_slock|]|]; apply keeps_runner.
Qed.

Lemma keeps_fly i st st' evs x : fly_step i st = Some (st', evs) -> ~ writes (fly_accesses st i) x -> keeps st st' x.
Proof.
  unfold fly_step, fly_accesses. intros E N. destruct (nth_error (s_flights st) i) as [[p d|b m|]|]; try discriminate.
  - destruct (nth_error (s_pubs st) p) as [y|]; [|discriminate]. destruct (p_fn y); [|injection E as <- <-; apply keeps_flights].
    destruct (get_bus st (p_bus y)) as [z|]; [|discriminate]. destruct (test_bus_fn (p_bus y) _ st) as [[| |] ?]; injection E as <- <-; apply keeps_flights.
  - destruct (get_bus st b) as [z|]; [|discriminate]. destruct (b_fn z) as [[r|f]|]; try (injection E as <- <-; apply keeps_flights).
    assert (x <> MQueue r) as K by (apply (no_write _ _ (wr [KQueue r] (MQueue r)) N); simpl; auto). unfold call_target in E.
    destruct (get_bus st r) as [w|] eqn:G; injection E as <- <-; [|apply keeps_flights].
    eapply keeps_trans; [|apply keeps_flights]. eapply keeps_set; eauto. destruct x; simpl; auto. congruence.
Qed.

Lemma keeps_detach i st st' evs x : detach_step i st = Some (st', evs) -> ~ writes (detach_accesses st i) x -> keeps st st' x.
Proof.
  unfold detach_step, detach_accesses. intros E N. destruct (nth_error (s_detaches st) i) as [[|[b|b [|k ks]] stk]|]; try discriminate.
  - destruct (get_bus st b) as [z|] eqn:G; [|discriminate]. destruct (b_klock z); [discriminate|]. injection E as <- <-.
    eapply keeps_trans; [|apply keeps_detaches]. eapply keeps_set; eauto. destruct x; simpl; auto.
  - injection E as <- <-. eapply keeps_trans; [|apply keeps_detaches]. apply keeps_klock.
  - injection E as <- <-. assert (x <> MBusFn k) as K by (apply (no_write _ _ (wr (dlocks_of (DKids b (k :: ks) :: stk)) (MBusFn k)) N); simpl; auto).
    eapply keeps_trans; [|apply keeps_detaches]. apply keeps_upd. intros z. destruct x; simpl; auto. congruence.
Qed.

Lemma keeps_return r st st' evs x : return_step r st = Some (st', evs) -> ~ writes (return_accesses st r) x -> keeps st st' x.
Proof.
  unfold return_step, return_accesses. destruct (get_bus st r) as [y|]; [|discriminate]. intros E N.
  destruct (b_runner y) as [| | | |m stk [c|] rest]; try discriminate. injection E as <- <-. eapply keeps_trans; [apply keeps_runner|].
  destruct c as [| | |c id u d]; simpl; try apply keeps_refl.
  assert (x <> MOpen c) as K by (apply (no_write _ _ (wr (locks_of stk) (MOpen c)) N); simpl; auto).
  destruct (nth_error _ c); [|apply keeps_refl]. now apply keeps_set_cons.
Qed.

Lemma keeps_throw r e st st' evs x : throw_step r e st = Some (st', evs) -> keeps st st' x.
Proof.
  unfold throw_step. destruct (get_bus st r) as [y|]; [|discriminate]. intros E. destruct (b_runner y) as [| | | |m stk [c|] rest]; try discriminate.
  pose proof (keeps_abort r m stk rest e st x) as K. destruct (abort r m stk rest e st). injection E as <- <-. exact K.
Qed.

Lemma keeps_addsub st b y z x : get_bus st b = Some y -> x <> MSubs b -> keeps st (add_sub b y z st) x.
Proof.
  intros G K. unfold add_sub. eapply keeps_trans; [eapply keeps_set with (y' := with_subs (b_subs y ++ [length (s_subs st)]) y); eauto; destruct x; simpl; auto; congruence|].
  match goal with |- context [set_bus b ?q st] => change (s_subs st) with (s_subs (set_bus b q st)) at 2 end. apply keeps_add_sub.
Qed.
Lemma upd_pubs b f st : s_pubs (upd_bus b f st) = s_pubs st.
Proof. unfold upd_bus. now destruct (get_bus st b). Qed.
Lemma keeps_addpub st b t x : x <> MPubs b -> keeps st (add_pub b t st) x.
Proof.
  intros K. unfold add_pub. eapply keeps_trans; [apply (keeps_upd st b (fun y => with_pubs (b_pubs y ++ [length (s_pubs st)]) y)); intros z; destruct x; simpl; auto; congruence|].
  set (st1 := upd_bus b _ st). replace (s_pubs st) with (s_pubs st1) by apply upd_pubs. apply keeps_add_pub.
Qed.

Lemma step_writes l st st' evs x : step l st = Some (st', evs) -> ~ writes (accesses st l) x -> keeps st st' x.
Proof.
  intros E N. destruct l as [name|name f|b name|b name|b t cb|s u|s u|b s|b s|b t|b p|b p|b t u|p|p|b t|c|b|b|b|i|p d|b m|i|c id d u|p id d|r|r|r e];
    cbn [step accesses] in *; unfold ok, raise in E;
    try (match type of E with context [get_bus st b] => destruct (get_bus st b) as [y|] eqn:G; [|discriminate] end).
  - destruct (String.eqb name ""); injection E as <- <-; [apply keeps_refl|apply keeps_add].
  - destruct (String.eqb name ""); [injection E as <- <-; apply keeps_refl|]. destruct f; injection E as <- <-; [apply keeps_add|apply keeps_refl].
  - destruct (String.eqb name ""); [injection E as <- <-; apply keeps_refl|]. destruct (b_klock y); [discriminate|].
    destruct (olookup name (b_kids y)); [injection E as <- <-; apply keeps_refl|]. destruct (b_fn y); injection E as <- <-; [|apply keeps_refl].
    assert (x <> MKids b) as K by (apply (no_write _ _ (wr [KKids b] (MKids b)) N); simpl; auto).
    eapply keeps_trans; [|apply keeps_add]. eapply keeps_set; eauto. destruct x; simpl; auto; congruence.
  - destruct (b_klock y); [discriminate|]. destruct (olookup name (b_kids y)); injection E as <- <-; apply keeps_refl.
  - destruct (b_slock y); [discriminate|]. injection E as <- <-. apply keeps_addsub; auto. apply (no_write _ _ (wr [KSubs b] (MSubs b)) N); simpl; auto.
  - destruct (set_cb s _ st) as [s1|] eqn:C; [|discriminate]. injection E as <- <-. eapply keeps_set_cb; eauto. apply (no_write _ _ (wr [] (MCallback s)) N); simpl; auto.
  - destruct (set_cb s _ st) as [s1|] eqn:C; [|discriminate]. injection E as <- <-. eapply keeps_set_cb; eauto. apply (no_write _ _ (wr [] (MCallback s)) N); simpl; auto.
  - destruct (b_slock y); [discriminate|]. destruct (set_cb s None _) as [s1|] eqn:C; [|discriminate]. injection E as <- <-.
    assert (x <> MSubs b) as K by (apply (no_write _ _ (wr [KSubs b] (MSubs b)) N); simpl; auto).
    assert (x <> MCallback s) as K1 by (apply (no_write _ _ (wr [KSubs b] (MCallback s)) N); simpl; auto).
    eapply keeps_trans; [|eapply keeps_set_cb; eauto]. eapply keeps_set; eauto. destruct x; simpl; auto; congruence.
  - destruct (b_slock y); [discriminate|]. injection E as <- <-. apply keeps_refl.
  - injection E as <- <-. apply keeps_addpub. apply (no_write _ _ (wr [KPubs b] (MPubs b)) N); simpl; auto.
  - destruct (nth_error (s_pubs st) p) as [z|]; [|discriminate]. injection E as <- <-.
    assert (x <> MPubs b) as K by (apply (no_write _ _ (wr [KPubs b] (MPubs b)) N); simpl; auto).
    assert (x <> MPubFn p) as K1 by (apply (no_write _ _ (wr [KPubs b] (MPubFn p)) N); simpl; auto).
    eapply keeps_trans; [eapply keeps_set with (y' := with_pubs (filter (fun z => negb (Nat.eqb z p)) (b_pubs y)) y); eauto; destruct x; simpl; auto; congruence|].
    match goal with |- context [set_bus b ?q st] => change (s_pubs st) with (s_pubs (set_bus b q st)) end. now apply keeps_set_pub.
  - injection E as <- <-. apply keeps_refl.
  - destruct (b_slock y); [discriminate|]. injection E as <- <-.
    assert (x <> MSubs b) as K by (apply (no_write _ _ (wr [KSubs b] (MSubs b)) N); simpl; auto).
    assert (x <> MPubs b) as K1 by (apply (no_write _ _ (wr [KPubs b] (MPubs b)) N); simpl; auto).
    apply (keeps_trans _ (add_sub b y (mkSub (t ++ "/request") None) st)); [now apply keeps_addsub|].
    apply (keeps_trans _ (add_pub b (t ++ "/response") (add_sub b y (mkSub (t ++ "/request") None) st))); [now apply keeps_addpub|].
    exact (keeps_add_prov (add_pub b (t ++ "/response") (add_sub b y (mkSub (t ++ "/request") None) st)) (mkProv (length (s_subs st)) (length (s_pubs st)) u) x).
  - destruct (nth_error (s_provs st) p) as [y|]; [|discriminate]. destruct (set_cb _ _ st) as [s1|] eqn:C; [|discriminate]. injection E as <- <-. eapply keeps_set_cb; eauto.
    apply (no_write _ _ (wr [] (MCallback (pr_sub y))) N); simpl; auto.
  - destruct (nth_error (s_provs st) p) as [y|]; [|discriminate]. injection E as <- <-. apply keeps_set_prov. apply (no_write _ _ (wr [] (MProvCb p)) N); simpl; auto.
  - destruct (b_slock y); [discriminate|]. injection E as <- <-.
    assert (x <> MSubs b) as K by (apply (no_write _ _ (wr [KSubs b] (MSubs b)) N); simpl; auto).
    assert (x <> MPubs b) as K1 by (apply (no_write _ _ (wr [KPubs b] (MPubs b)) N); simpl; auto).
    apply (keeps_trans _ (add_sub b y (mkSub (t ++ "/response") None) st)); [now apply keeps_addsub|].
    apply (keeps_trans _ (add_pub b (t ++ "/request") (add_sub b y (mkSub (t ++ "/response") None) st))); [now apply keeps_addpub|].
    exact (keeps_add_cons (add_pub b (t ++ "/request") (add_sub b y (mkSub (t ++ "/response") None) st)) (mkCons (length (s_subs st)) (length (s_pubs st)) []) x).
  - destruct (nth_error (s_conss st) c) as [y|]; [|discriminate]. destruct (set_cb _ _ st) as [s1|] eqn:C; [|discriminate]. injection E as <- <-. eapply keeps_set_cb; eauto.
    apply (no_write _ _ (wr [] (MCallback (co_sub y))) N); simpl; auto.
  - destruct (b_root y); [destruct (b_runner y); try discriminate|]; injection E as <- <-; eapply keeps_set; eauto; destruct x; simpl; auto.
  - injection E as <- <-; eapply keeps_set; eauto; destruct x; simpl; auto.
  - injection E as <- <-. eapply keeps_trans; [|apply keeps_detaches]. eapply keeps_set; eauto.
    assert (x <> MBusFn b) as K by (apply (no_write _ _ (wr [] (MBusFn b)) N); simpl; auto). destruct x; simpl; auto; congruence.
  - eapply keeps_detach; eauto.
  - eapply keeps_begin; eauto.
  - destruct (test_bus_fn b m st) as [[| |] ?]; injection E as <- <-; apply keeps_flights.
  - eapply keeps_fly; eauto.
  - destruct (nth_error (s_conss st) c) as [y|]; [|discriminate]. destruct u as [u|]; [|injection E as <- <-; apply keeps_refl].
    destruct (begin_publish _ _ _) as [[s1 e1]|] eqn:B; [|discriminate]. injection E as <- <-. eapply keeps_trans; [|eapply keeps_begin; eauto].
    apply keeps_set_cons. apply (no_write _ _ (wr [] (MOpen c)) N); simpl; auto.
  - destruct (nth_error (s_provs st) p) as [y|]; [|discriminate]. eapply keeps_begin; eauto.
  - eapply keeps_run; eauto.
  - eapply keeps_return; eauto.
  - eapply keeps_throw; eauto.
Qed.

(** ** Mutexes *)

Lemma locks_in k stk : In k (locks_of stk) <-> (exists b todo, k = KSubs b /\ In (FSubs b todo) stk) \/ (exists b todo, k = KKids b /\ In (FKids b todo) stk).
Proof.
  unfold locks_of. rewrite in_flat_map. split.
  - intros (f & I & J). destruct f as [b todo|b|b todo]; simpl in J; destruct J as [<-|[]] || destruct J; [left|right]; eauto.
  - intros [(b & todo & -> & I)|(b & todo & -> & I)]; eexists; (split; [exact I|now left]).
Qed.
Lemma dlocks_in k ds : In k (dlocks_of ds) <-> (exists b todo, k = KKids b /\ In (DKids b todo) ds).
Proof.
  unfold dlocks_of. rewrite in_flat_map. split.
  - intros (f & I & J). destruct f as [b|b todo]; simpl in J; destruct J as [<-|[]] || destruct J. eauto.
  - intros (b & todo & -> & I). eexists. split; [exact I|now left].
Qed.

Definition taken (st : state) (k : mutex) : Prop :=
  match k with
  | KSubs b => exists x, get_bus st b = Some x /\ b_slock x = true
  | KKids b => exists x, get_bus st b = Some x /\ b_klock x = true
  | _ => False
  end.

Lemma bus_holds st r x m stk c rest : get_bus st r = Some x -> b_runner x = RDist m stk c rest -> holds st (TBus r) = locks_of stk.
Proof. intros G R. unfold holds. now rewrite G, R. Qed.

Lemma holds_bus_in st r k : In k (holds st (TBus r)) ->
  (exists b todo, k = KSubs b /\ in_stack st r (FSubs b todo)) \/ (exists b todo, k = KKids b /\ in_stack st r (FKids b todo)).
Proof.
  unfold holds. destruct (get_bus st r) as [x|] eqn:G; [|contradiction]. destruct (b_runner x) as [| | | |m stk c rest] eqn:R; try contradiction.
  intros I. apply locks_in in I as [(b & todo & -> & I)|(b & todo & -> & I)]; [left|right]; exists b, todo; (split; [reflexivity|]); exists x; rewrite R; auto.
Qed.
Lemma holds_detach_in st i k : In k (holds st (TDetach i)) -> exists b todo, k = KKids b /\ in_dstack st i (DKids b todo).
Proof.
  unfold holds. destruct (nth_error (s_detaches st) i) as [ds|] eqn:N; [|contradiction]. intros I. apply dlocks_in in I as (b & todo & -> & I).
  exists b, todo. split; auto. exists ds. auto.
Qed.

Lemma holds_taken st t k : reach st -> In k (holds st t) -> taken st k.
Proof.
  intros Rc I. pose proof (reach_lock _ Rc) as K. destruct t as [r|n|i|i]; try contradiction.
  - apply holds_bus_in in I as [(b & todo & -> & x & G & J)|(b & todo & -> & x & G & J)];
      destruct (stack_frame _ _ _ _ (k_stack _ K _ _ G) J) as (y & pre & Gy & L & _); exists y; auto.
  - apply holds_detach_in in I as (b & todo & -> & ds & N & J). destruct (dstack_frame _ _ _ (k_dstack _ K _ _ N) J) as (y & pre & Gy & L & _). exists y; auto.
Qed.

Lemma holds_unique st t t' k : reach st -> In k (holds st t) -> In k (holds st t') -> t = t'.
Proof.
  intros Rc I I'. pose proof (reach_lock _ Rc) as K. pose proof (reach_tree _ Rc) as T.
  destruct t as [r|n|i|i]; try contradiction; destruct t' as [r'|n'|i'|i']; try contradiction.
  - f_equal. apply holds_bus_in in I as [(b & todo & -> & J)|(b & todo & -> & J)];
      apply holds_bus_in in I' as [(b' & todo' & E & J')|(b' & todo' & E & J')]; try discriminate; injection E as <-;
      eapply in_stack_unique; eauto.
  - apply holds_bus_in in I as [(b & todo & -> & J)|(b & todo & -> & J)]; apply holds_detach_in in I' as (b' & todo' & E & J'); try discriminate.
    injection E as <-. exfalso. eapply (k_rd _ K); eauto.
  - apply holds_bus_in in I' as [(b & todo & -> & J)|(b & todo & -> & J)]; apply holds_detach_in in I as (b' & todo' & E & J'); try discriminate.
    injection E as <-. exfalso. eapply (k_rd _ K); eauto.
  - f_equal. apply holds_detach_in in I as (b & todo & -> & J); apply holds_detach_in in I' as (b' & todo' & E & J'). injection E as <-. eapply (k_dd _ K); eauto.
Qed.

Ltac inl I := repeat (destruct I as [<-|I]); try contradiction.

Lemma receive_acc_locks st k s m a : In a (receive_accesses st k s m) -> a_locks a = k.
Proof.
  unfold receive_accesses. intros [<-|I]; auto. destruct (nth_error (s_subs st) s) as [y|]; [|contradiction].
  destruct (s_cb y) as [[u|u|p|c]|]; try contradiction; destruct (envelope_id (bm_data m)) as [id|]; try contradiction; [inl I; auto|].
  destruct (nth_error (s_conss st) c) as [z|]; [|contradiction]. destruct (olookup id (co_open z)); inl I; auto.
Qed.

Lemma not_slock st b y : get_bus st b = Some y -> b_slock y = false -> ~ taken st (KSubs b).
Proof. intros G E (x & G' & E'). congruence. Qed.
Lemma not_klock st b y : get_bus st b = Some y -> b_klock y = false -> ~ taken st (KKids b).
Proof. intros G E (x & G' & E'). congruence. Qed.

Lemma run_locks st r a k : enabled (LRun r) st -> In a (run_accesses st r) -> In k (a_locks a) -> ~ taken st k \/ In k (holds st (TBus r)).
Proof.
  intros (st' & evs & E) I J. cbn [step] in E. unfold run_step, run_accesses in *. destruct (get_bus st r) as [x|] eqn:G; [|contradiction].
  destruct (b_runner x) as [| | |[|m ms]|m [|[b [|s ss]|b|b [|c ks]] stk] [cl|] rest] eqn:R; try contradiction.
  - inl I. simpl in J. inl J. left. intros [].
  - inl I; simpl in J; inl J; left; intros [].
  - destruct (b_run x); [|contradiction]. destruct (b_slock x) eqn:L; [discriminate|]. inl I. simpl in J. inl J. left. eapply not_slock; eauto.
  - right. rewrite (bus_holds _ _ _ _ _ _ _ G R). destruct I as [<-|I]; auto.
    destruct (nth_error (s_subs st) s) as [y|]; [|contradiction]. destruct (ant_matches (s_topic y) (bm_topic (snd m))); [|contradiction].
    rewrite (receive_acc_locks _ _ _ _ _ I) in J. exact J.
  - inl I. destruct (get_bus st b) as [y|] eqn:Gb; [|discriminate]. destruct (b_klock y) eqn:L; [discriminate|].
    destruct J as [<-|J]; [left; eapply not_klock; eauto|right]. rewrite (bus_holds _ _ _ _ _ _ _ G R). exact J.
  - destruct I as [<-|I]; [right; rewrite (bus_holds _ _ _ _ _ _ _ G R); exact J|].
    destruct (get_bus st c) as [y|] eqn:Gb; [|discriminate]. destruct (b_run y); [|contradiction]. destruct (b_slock y) eqn:L; [discriminate|]. inl I.
    destruct J as [<-|J]; [left; eapply not_slock; eauto|right]. rewrite (bus_holds _ _ _ _ _ _ _ G R). exact J.
Qed.

Lemma acc_locks st t l a k : runs st t l = true -> enabled l st -> In a (accesses st l) -> In k (a_locks a) -> ~ taken st k \/ In k (holds st t).
Proof.
  intros Ru En I J. destruct l as [name|name f|b name|b name|b tt0 cb|s u|s u|b s|b s|b tt0|b p|b p|b tt0 u|p|p|b tt0|c|b|b|b|i|p d|b m|i|c id d u|p id d|r|r|r e];
    cbn [accesses] in I; try contradiction.
  - destruct En as (st' & evs & E); cbn [step] in E; destruct (get_bus st b) as [y|] eqn:G; try discriminate.
    destruct (String.eqb name ""); [contradiction|]. destruct (b_klock y) eqn:L; [discriminate|]. left.
    assert (k = KKids b) as ->; [|eapply not_klock; eauto].
    destruct I as [<-|I]; [simpl in J; inl J; auto|]. destruct (olookup name (b_kids y)); [contradiction|]. destruct I as [<-|I]; [simpl in J; inl J; auto|].
    destruct (b_fn y); inl I. simpl in J; inl J; auto.
  - destruct En as (st' & evs & E); cbn [step] in E; destruct (get_bus st b) as [y|] eqn:G; try discriminate.
    destruct (b_klock y) eqn:L; [discriminate|]. left. inl I. simpl in J. inl J. eapply not_klock; eauto.
  - destruct En as (st' & evs & E); cbn [step] in E; destruct (get_bus st b) as [y|] eqn:G; try discriminate.
    destruct (b_slock y) eqn:L; [discriminate|]. left. inl I. simpl in J. inl J. eapply not_slock; eauto.
  - inl I; contradiction.
  - inl I; contradiction.
  - destruct En as (st' & evs & E); cbn [step] in E; destruct (get_bus st b) as [y|] eqn:G; try discriminate.
    destruct (b_slock y) eqn:L; [discriminate|]. left. inl I; simpl in J; inl J; eapply not_slock; eauto.
  - destruct En as (st' & evs & E); cbn [step] in E; destruct (get_bus st b) as [y|] eqn:G; try discriminate.
    destruct (b_slock y) eqn:L; [discriminate|]. left. inl I. simpl in J. inl J. eapply not_slock; eauto.
  - inl I. simpl in J. inl J. left. intros [].
  - inl I; simpl in J; inl J; left; intros [].
  - inl I. simpl in J. inl J. left. intros [].
  - destruct En as (st' & evs & E); cbn [step] in E; destruct (get_bus st b) as [y|] eqn:G; try discriminate.
    destruct (b_slock y) eqn:L; [discriminate|]. left. inl I; simpl in J; inl J; [eapply not_slock; eauto|intros []].
  - destruct (nth_error (s_provs st) p); inl I; contradiction.
  - inl I; contradiction.
  - destruct En as (st' & evs & E); cbn [step] in E; destruct (get_bus st b) as [y|] eqn:G; try discriminate.
    destruct (b_slock y) eqn:L; [discriminate|]. left. inl I; simpl in J; inl J; [eapply not_slock; eauto|intros []].
  - destruct (nth_error (s_conss st) c); inl I; contradiction.
  - inl I; contradiction.
  - destruct En as (st' & evs & E); cbn [step] in E. unfold detach_step, detach_accesses in *.
    simpl in Ru. destruct t as [ | | |i']; try discriminate. apply Nat.eqb_eq in Ru as <-. unfold holds.
    destruct (nth_error (s_detaches st) i) as [[|[b|b [|c ks]] stk]|]; try contradiction.
    + inl I. destruct (get_bus st b) as [y|] eqn:G; [|discriminate]. destruct (b_klock y) eqn:L; [discriminate|].
      destruct J as [<-|J]; [left; eapply not_klock; eauto|right; exact J].
    + right. inl I; exact J.
  - inl I; contradiction.
  - inl I; contradiction.
  - unfold fly_accesses in I. destruct (nth_error (s_flights st) i) as [[p d|b m|]|]; try contradiction.
    + destruct I as [<-|I]; [contradiction|]. destruct (nth_error (s_pubs st) p) as [y|]; [|contradiction]. destruct (p_fn y); inl I; contradiction.
    + destruct I as [<-|I]; [contradiction|]. destruct (get_bus st b) as [y|]; [|contradiction]. destruct (b_fn y) as [[r|f]|]; inl I. simpl in J. inl J. left. intros [].
  - destruct u; [|contradiction]. destruct I as [<-|I]; [contradiction|]. destruct (nth_error (s_conss st) c); inl I; contradiction.
  - destruct (nth_error (s_provs st) p); inl I; contradiction.
  - simpl in Ru. destruct t as [r'| | |]; try discriminate. apply Nat.eqb_eq in Ru as <-. eapply run_locks; eauto.
  - simpl in Ru. destruct t as [r'| | |]; try discriminate. apply Nat.eqb_eq in Ru as <-. right. unfold return_accesses in I.
    destruct (get_bus st r) as [x|] eqn:G; [|contradiction]. destruct (b_runner x) as [| | | |m stk [[| | |c id u d]|] rest] eqn:R; try contradiction. inl I.
    rewrite (bus_holds _ _ _ _ _ _ _ G R). exact J.
Qed.

(** ** Who races *)

Definition guard (x : member) : option mutex :=
  match x with
  | MSubs b => Some (KSubs b) | MPubs b => Some (KPubs b) | MKids b => Some (KKids b) | MQueue r => Some (KQueue r)
  | _ => None
  end.

Definition kinds (st : state) (l : label) (a : access) : Prop :=
  (exists k, guard (a_mem a) = Some k /\ In k (a_locks a)) \/
  (a_write a = true /\ writer st l (a_mem a)) \/
  (user st l (a_mem a) /\ (a_write a = false \/ exists c, a_mem a = MOpen c)).

Lemma envelope_has d id : envelope_id d = Some id <-> has_id d id.
Proof.
  unfold envelope_id, has_id. split.
  - intros E. destruct d as [| | |kvs]; try discriminate. exists kvs. split; auto. destruct (olookup "invocationId" kvs) as [[|[]| |]|]; try discriminate. congruence.
  - intros (kvs & -> & ->). reflexivity.
Qed.

Lemma run_kinds st r a : reach st -> enabled (LRun r) st -> In a (run_accesses st r) -> kinds st (LRun r) a.
Proof.
  intros Rc (st' & evs & E) I. pose proof E as E0. cbn [step] in E. unfold run_step, run_accesses in *. destruct (get_bus st r) as [x|] eqn:G; [|contradiction].
  destruct (b_runner x) as [| | |[|m ms]|m [|[b [|s ss]|b|b [|c ks]] stk] [cl|] rest] eqn:R; try contradiction.
  - inl I. left. eexists. split; [reflexivity|simpl; auto].
  - inl I; left; (eexists; split; [reflexivity|simpl; auto]).
  - destruct (b_run x); [|contradiction]. inl I. left. eexists. split; [reflexivity|simpl; auto].
  - destruct I as [<-|I]; [left; eexists; split; [reflexivity|simpl; auto]|].
    destruct (nth_error (s_subs st) s) as [y|] eqn:Ny; [|contradiction]. destruct (ant_matches (s_topic y) (bm_topic (snd m))) eqn:Am; [|contradiction].
    assert (receives st r s m) as Rs.
    { exists st', evs, b. split; auto. destruct (receive st s (snd m)); [injection E as <- <-; now left| |injection E as <- <-; now left].
      destruct (abort r m (FSubs b ss :: stk) rest e st). injection E as <- <-. now left. }
    clear E E0. right. right. unfold receive_accesses in I. rewrite Ny in I. destruct I as [<-|I].
    { split; [|auto]. exists r, m. auto. }
    destruct (s_cb y) as [[u|u|p|c]|] eqn:Ec; try contradiction; destruct (envelope_id (bm_data (snd m))) as [id|] eqn:Ei; try contradiction;
      apply envelope_has in Ei.
    + inl I. split; [|auto]. destruct (w_pcb _ (reach_wired _ Rc) _ _ _ Ny Ec) as (z & Nz & Es). exists r, s, m, id. repeat split; auto. exists z, y. auto.
    + destruct (w_ccb _ (reach_wired _ Rc) _ _ _ Ny Ec) as (z & Nz & Es). rewrite Nz in I.
      assert (consumer_on st c s) as Co by (exists z, y; auto).
      destruct (olookup id (co_open z)); inl I; (split; [left; exists r, s, m, id; auto|right; eexists; reflexivity]).
  - inl I. left. eexists. split; [reflexivity|simpl; auto].
  - destruct I as [<-|I]; [left; eexists; split; [reflexivity|simpl; auto]|].
    destruct (get_bus st c) as [y|]; [|contradiction]. destruct (b_run y); [|contradiction]. inl I. left. eexists. split; [reflexivity|simpl; auto].
Qed.

Ltac grd := left; eexists; (split; [reflexivity|simpl; auto]).
Ltac wrt := right; left; (split; [reflexivity|simpl; eauto 10]).
Ltac usr := right; right; (split; [simpl; eauto 10|auto]).

Lemma acc_kinds st l a : reach st -> enabled l st -> In a (accesses st l) -> kinds st l a.
Proof.
  intros Rc En I. destruct l as [name|name f|b name|b name|b tt0 cb|s u|s u|b s|b s|b tt0|b p|b p|b tt0 u|p|p|b tt0|c|b|b|b|i|p d|b m|i|c id d u|p id d|r|r|r e];
    cbn [accesses] in I; try contradiction.
  - destruct (String.eqb_spec name "") as [|Nn]; [contradiction|]. destruct I as [<-|I]; [grd|]. destruct (get_bus st b) as [y|] eqn:G; [|contradiction].
    destruct (olookup name (b_kids y)) eqn:O; [contradiction|]. destruct I as [<-|I]; [|destruct (b_fn y); inl I; grd].
    right. right. split; [|auto]. simpl. right. left. exists name, y. auto.
  - inl I. grd.
  - inl I. grd.
  - inl I. wrt.
  - inl I. wrt.
  - inl I; [grd|wrt].
  - inl I. grd.
  - inl I. grd.
  - inl I; [grd|wrt].
  - inl I. grd.
  - inl I; grd.
  - destruct (nth_error (s_provs st) p) eqn:N; inl I. right. left. split; [reflexivity|]. simpl. right. right. right. left. eauto.
  - inl I. wrt.
  - inl I; grd.
  - destruct (nth_error (s_conss st) c) eqn:N; inl I. right. left. split; [reflexivity|]. simpl. right. right. right. right. eauto.
  - inl I. wrt.
  - unfold detach_accesses in I. destruct (nth_error (s_detaches st) i) as [[|[b|b [|c ks]] stk]|] eqn:N; try contradiction.
    + inl I. grd.
    + inl I; [grd|]. right. left. split; [reflexivity|]. simpl. right. eauto 10.
  - inl I. usr.
  - inl I. usr.
  - unfold fly_accesses in I. destruct (nth_error (s_flights st) i) as [[p d|b m|]|] eqn:N; try contradiction.
    + destruct I as [<-|I]; [usr|]. destruct (nth_error (s_pubs st) p) as [y|] eqn:Np; [|contradiction]. destruct (p_fn y) eqn:Ef; inl I. right. right. split; [|auto].
      simpl. right. right. right. exists i, p, d, y. auto.
    + destruct I as [<-|I]; [usr|]. destruct (get_bus st b) as [y|]; [|contradiction]. destruct (b_fn y) as [[r|f]|]; inl I. grd.
  - destruct u as [u|]; [|contradiction]. destruct I as [<-|I]; [wrt|]. destruct (nth_error (s_conss st) c) as [y|] eqn:N; inl I. right. right. split; [|auto].
    simpl. right. left. exists c, id, d, u, y. auto.
  - destruct (nth_error (s_provs st) p) as [y|] eqn:N; inl I. right. right. split; [|auto]. simpl. right. right. left. exists p, id, d, y. auto.
  - now apply run_kinds.
  - unfold return_accesses in I. destruct (get_bus st r) as [x|] eqn:G; [|contradiction].
    destruct (b_runner x) as [| | | |m stk [[| | |c id u d]|] rest] eqn:R; try contradiction. inl I. right. right. split; [|right; exists c; reflexivity].
    destruct (k_call _ (reach_lock _ Rc) r x (CallRequest c id u d) G) as (b & ss & stk' & Es); [now rewrite R|]. rewrite R in Es. simpl in Es. subst stk.
    simpl. right. exists r, b, id, u, d. split; auto. exists x, m, ss, stk', rest. auto.
Qed.

(** The bus thread that runs the response subscriber of a consumer. *)
Lemma open_user st l c : reach st -> user st l (MOpen c) ->
  exists r y b x todo, (l = LRun r \/ l = LReturn r) /\ nth_error (s_conss st) c = Some y /\ get_bus st b = Some x /\ In (co_sub y) (b_subs x) /\ in_stack st r (FSubs b todo).
Proof.
  intros Rc [(r & s & m & id & -> & (y & q & Ny & <- & _) & (st' & evs & b & E & I) & _)|(r & b & id & u & d & -> & Ca)].
  - destruct (receive_inv _ _ _ _ _ _ _ _ E I) as (x0 & ss0 & stk0 & rest0 & y0 & _ & G0 & R0 & _). exists r, y, b.
    assert (in_stack st r (FSubs b (co_sub y :: ss0))) as IS by (exists x0; rewrite R0; simpl; auto).
    assert (In (FSubs b (co_sub y :: ss0)) (stack_of (b_runner x0))) as IS0 by (rewrite R0; now left).
    destruct (stack_frame _ _ _ _ (k_stack _ (reach_lock _ Rc) _ _ G0) IS0) as (z & pre & Gz & _ & Ez).
    exists z, (co_sub y :: ss0). repeat split; auto. rewrite Ez. apply in_elt.
  - destruct (reach_sub_held _ Rc _ _ _ _ _ _ Ca) as (z & y & Ny & Gz & I). destruct Ca as (x & m & ss & stk & rest & G & R).
    exists r, y, b, z, ss. repeat split; auto. exists x. rewrite R. simpl. auto.
Qed.

Lemma race_kinds st t1 l1 t2 l2 x : reach st -> race st t1 l1 t2 l2 x ->
  (writer st l1 x /\ (writer st l2 x \/ user st l2 x)) \/ (writer st l2 x /\ (writer st l1 x \/ user st l1 x)).
Proof.
  intros Rc (Ne & R1 & R2 & E1 & E2 & a1 & a2 & I1 & I2 & M1 & M2 & W & D).
  destruct (acc_kinds _ _ _ Rc E1 I1) as [(k & Gk & Ik)|K1]; [|destruct (acc_kinds _ _ _ Rc E2 I2) as [(k & Gk & Ik)|K2]].
  - exfalso. destruct (acc_kinds _ _ _ Rc E2 I2) as [(k' & Gk' & Ik')|[(_ & K2)|(K2 & _)]].
    + apply (D k); auto. congruence.
    + rewrite M2, <- M1 in K2. destruct (a_mem a1); try discriminate; contradiction.
    + rewrite M2, <- M1 in K2. destruct (a_mem a1); try discriminate; contradiction.
  - exfalso. destruct K1 as [(_ & K1)|(K1 & _)]; rewrite M1, <- M2 in K1; destruct (a_mem a2); try discriminate; contradiction.
  - rewrite M1, M2 in *. unfold kinds in *. destruct K1 as [(W1 & K1)|(U1 & K1)], K2 as [(W2 & K2)|(U2 & K2)]; auto.
    exfalso. assert (exists c, x = MOpen c) as (c & ->).
    { destruct W as [W|W]; [destruct K1 as [K|(c & K)]|destruct K2 as [K|(c & K)]]; try congruence; rewrite ?M1, ?M2 in K; eauto. }
    destruct (open_user _ _ _ Rc U1) as (r & y & b & z & todo & L1 & Ny & Gb & Ib & S1).
    destruct (open_user _ _ _ Rc U2) as (r' & y' & b' & z' & todo' & L2 & Ny' & Gb' & Ib' & S2).
    assert (y' = y) as -> by congruence. assert (b = b') as <- by (eapply (t_subone _ (reach_tree _ Rc)); eauto).
    assert (r = r') as <- by (eapply (in_stack_unique _ _ _ _ _ (reach_tree _ Rc) (reach_lock _ Rc) S1 S2); reflexivity).
    apply Ne. destruct L1 as [->| ->], L2 as [->| ->]; simpl in R1, R2; destruct t1; try discriminate; destruct t2; try discriminate;
      apply Nat.eqb_eq in R1; apply Nat.eqb_eq in R2; congruence.
Qed.

Lemma not_taken st t1 l1 a1 t2 l2 a2 k : reach st -> t1 <> t2 -> runs st t1 l1 = true -> runs st t2 l2 = true -> enabled l1 st -> enabled l2 st ->
  In a1 (accesses st l1) -> In a2 (accesses st l2) -> In k (a_locks a1) -> In k (a_locks a2) -> ~ taken st k.
Proof.
  intros Rc Ne R1 R2 E1 E2 I1 I2 K1 K2 T. destruct (acc_locks _ _ _ _ _ R1 E1 I1 K1) as [A|A]; [contradiction|].
  destruct (acc_locks _ _ _ _ _ R2 E2 I2 K2) as [B|B]; [contradiction|]. apply Ne. eapply holds_unique; eauto.
Qed.

Lemma writer_acc st l x : reach st -> enabled l st -> writer st l x ->
  exists a, In a (accesses st l) /\ a_mem a = x /\ a_write a = true /\
    forall k, In k (a_locks a) -> taken st k \/ (exists b s, l = LDelSub b s /\ x = MCallback s /\ k = KSubs b) \/ (exists b p, l = LDelPub b p /\ x = MPubFn p /\ k = KPubs b).
Proof.
  intros Rc En W. destruct x as [s|p|b|p|c|b|b|b|r]; simpl in W; try contradiction.
  - destruct W as [(u & ->)|[(u & ->)|[(b & ->)|[(p & y & -> & N & <-)|(c & y & -> & N & <-)]]]]; simpl; try rewrite N.
    + eexists. split; [now left|]. simpl. repeat split; auto. intros k [].
    + eexists. split; [now left|]. simpl. repeat split; auto. intros k [].
    + eexists. split; [right; now left|]. simpl. repeat split; auto. intros k [<-|[]]. eauto 10.
    + eexists. split; [now left|]. simpl. repeat split; auto. intros k [].
    + eexists. split; [now left|]. simpl. repeat split; auto. intros k [].
  - destruct W as (b & ->). simpl. eexists. split; [right; now left|]. simpl. repeat split; auto. intros k [<-|[]]. right. right. eauto 10.
  - destruct W as [->|(i & a & ks & stk & -> & N)]; simpl.
    + eexists. split; [now left|]. simpl. repeat split; auto. intros k [].
    + unfold detach_accesses. rewrite N. eexists. split; [right; now left|]. split; [reflexivity|]. split; [reflexivity|]. intros k K. left.
      apply (holds_taken st (TDetach i)); auto. unfold holds. rewrite N. exact K.
  - subst l. simpl. eexists. split; [now left|]. simpl. repeat split; auto. intros k [].
  - destruct W as (id & d & u & ->). simpl. eexists. split; [now left|]. simpl. repeat split; auto. intros k [].
Qed.

Lemma receives_acc st r s m : reach st -> receives st r s m ->
  exists x b ss stk rest y, get_bus st r = Some x /\ b_runner x = RDist m (FSubs b (s :: ss) :: stk) None rest /\ nth_error (s_subs st) s = Some y /\
    forall a, In a (receive_accesses st (locks_of (FSubs b (s :: ss) :: stk)) s (snd m)) -> In a (accesses st (LRun r)).
Proof.
  intros Rc (st' & evs & b & E & I). destruct (receive_inv _ _ _ _ _ _ _ _ E I) as (x & ss & stk & rest & y & _ & G & R & Ny & Ac & _).
  exists x, b, ss, stk, rest, y. repeat split; auto. intros a J. simpl. unfold run_accesses. rewrite G, R. right. rewrite Ny.
  replace (ant_matches (s_topic y) (bm_topic (snd m))) with true; auto. symmetry. now apply ant_accepts.
Qed.

Lemma user_acc st l x : reach st -> user st l x ->
  exists a, In a (accesses st l) /\ a_mem a = x /\
    match x with
    | MCallback _ => exists r, l = LRun r /\ forall k, In k (a_locks a) -> taken st k
    | MPubFn _ => a_locks a = []
    | _ => True
    end.
Proof.
  intros Rc U. destruct x as [s|p|b|p|c|b|b|b|r]; simpl in U; try contradiction.
  - destruct U as (r & m & -> & Re). destruct (receives_acc _ _ _ _ Rc Re) as (x & b & ss & stk & rest & y & G & R & Ny & A).
    eexists. split; [apply A; now left|]. split; [reflexivity|]. exists r. split; auto. intros k K. apply (holds_taken st (TBus r)); auto.
    rewrite (bus_holds _ _ _ _ _ _ _ G R). exact K.
  - destruct U as [(d & ->)|[(c & id & d & u & y & -> & N & <-)|[(q & id & d & y & -> & N & <-)|(i & d & -> & N)]]]; simpl; try rewrite N.
    + eexists. split; [now left|]. auto.
    + eexists. split; [right; now left|]. auto.
    + eexists. split; [now left|]. auto.
    + unfold fly_accesses. rewrite N. eexists. split; [now left|]. auto.
  - destruct U as [(m & ->)|[(name & y & -> & Nn & G & O)|[(i & m & -> & N)|(i & p & d & y & -> & N & Np & Ef & <-)]]]; simpl.
    + eexists. split; [now left|]. auto.
    + apply String.eqb_neq in Nn. rewrite Nn, G, O. eexists. split; [right; now left|]. auto.
    + unfold fly_accesses. rewrite N. eexists. split; [now left|]. auto.
    + unfold fly_accesses. rewrite N, Np, Ef. eexists. split; [right; now left|]. auto.
  - destruct U as (r & s & m & id & -> & (y & q & Ny & Es & Nq & Ec) & Re & Hi). apply envelope_has in Hi.
    destruct (receives_acc _ _ _ _ Rc Re) as (x & b & ss & stk & rest & y0 & G & R & Ny0 & A).
    eexists. split; [apply A; unfold receive_accesses; rewrite Nq, Ec, Hi; right; now left|]. auto.
  - destruct U as [(r & s & m & id & -> & (y & q & Ny & Es & Nq & Ec) & Re & Hi)|(r & b & id & u & d & -> & (x & m & ss & stk & rest & G & R))].
    + apply envelope_has in Hi. destruct (receives_acc _ _ _ _ Rc Re) as (x & b & ss & stk & rest & y0 & G & R & Ny0 & A).
      exists (rd (locks_of (FSubs b (s :: ss) :: stk)) (MOpen c)). split; [|auto].
      apply A; unfold receive_accesses; rewrite Nq, Ec, Hi, Ny. destruct (olookup id (co_open y)); simpl; auto.
    + simpl. unfold return_accesses. rewrite G, R. eexists. split; [now left|]. auto.
Qed.

Lemma kinds_race st t1 l1 t2 l2 x : reach st -> t1 <> t2 -> runs st t1 l1 = true -> runs st t2 l2 = true -> enabled l1 st -> enabled l2 st ->
  writer st l1 x -> writer st l2 x \/ user st l2 x -> ~ same_delete l1 l2 x -> race st t1 l1 t2 l2 x.
Proof.
  intros Rc Ne R1 R2 E1 E2 W O Ns. destruct (writer_acc _ _ _ Rc E1 W) as (a1 & I1 & M1 & W1 & K1).
  repeat (split; [assumption|]). destruct O as [W2|U2].
  - destruct (writer_acc _ _ _ Rc E2 W2) as (a2 & I2 & M2 & _ & K2). exists a1, a2. split; auto. split; auto. repeat split; auto.
    intros k J1 J2. pose proof (not_taken _ _ _ _ _ _ _ _ Rc Ne R1 R2 E1 E2 I1 I2 J1 J2) as NT.
    destruct (K1 _ J1) as [?|[(b & s & -> & -> & ->)|(b & p & -> & -> & ->)]]; [contradiction| |];
      (destruct (K2 _ J2) as [?|[(b' & s' & -> & E & E')|(b' & p' & -> & E & E')]]; [contradiction| |]; try discriminate); apply Ns; simpl;
      injection E as <-; injection E' as <-; eauto.
  - destruct (user_acc _ _ _ Rc U2) as (a2 & I2 & M2 & K2). exists a1, a2. split; auto. split; auto. repeat split; auto.
    intros k J1 J2. pose proof (not_taken _ _ _ _ _ _ _ _ Rc Ne R1 R2 E1 E2 I1 I2 J1 J2) as NT.
    destruct (K1 _ J1) as [?|[(b & s & -> & -> & ->)|(b & p & -> & -> & ->)]]; [contradiction| |].
    + destruct K2 as (r & _ & K2). auto.
    + rewrite K2 in J2. contradiction.
Qed.

Lemma race_sym st t1 l1 t2 l2 x : race st t1 l1 t2 l2 x -> race st t2 l2 t1 l1 x.
Proof.
  intros (Ne & R1 & R2 & E1 & E2 & a1 & a2 & I1 & I2 & M1 & M2 & W & D). repeat split; auto. exists a2, a1. repeat split; auto; [tauto|].
  intros k K K'. eapply D; eauto.
Qed.
Lemma same_delete_sym l1 l2 x : same_delete l1 l2 x -> same_delete l2 l1 x.
Proof. destruct x; simpl; auto; intros (b & -> & ->); eauto. Qed.

Lemma race_not_same st t1 l1 t2 l2 x : race st t1 l1 t2 l2 x -> ~ same_delete l1 l2 x.
Proof.
  intros (Ne & R1 & R2 & E1 & E2 & a1 & a2 & I1 & I2 & M1 & M2 & W & D). destruct x as [s|p| | | | | | |]; simpl; auto; intros (b & -> & ->).
  - apply (D (KSubs b)); [destruct I1 as [<-|[<-|[]]]|destruct I2 as [<-|[<-|[]]]]; simpl; auto; discriminate.
  - apply (D (KPubs b)); [destruct I1 as [<-|[<-|[]]]|destruct I2 as [<-|[<-|[]]]]; simpl; auto; discriminate.
Qed.

(** ** Orderly use *)

Lemma orderly_no_race st t1 l1 t2 l2 x : reach st -> orderly st t1 l1 -> orderly st t2 l2 -> writer st l1 x -> (writer st l2 x \/ user st l2 x) ->
  race st t1 l1 t2 l2 x -> False.
Proof.
  intros Rc O1 O2 W O R. pose proof (race_not_same _ _ _ _ _ _ R) as Ns. destruct R as (Ne & R1 & R2 & E1 & E2 & _).
  pose proof (reach_tree _ Rc) as T. pose proof (reach_lock _ Rc) as K.
  destruct x as [s|p|b|p|c|b|b|b|r]; simpl in W; try contradiction.
  - destruct W as [(u & ->)|[(u & ->)|[(b & ->)|[(p & y & -> & _)|(c & y & -> & _)]]]]; try contradiction.
    destruct O1 as (x & G & I). destruct O as [[(u & ->)|[(u & ->)|[(b' & ->)|[(p & y & -> & _)|(c & y & -> & _)]]]]|(r & m & -> & Re)]; try contradiction.
    + destruct O2 as (x' & G' & I'). assert (b = b') as <- by (eapply (t_subone _ T); eauto). apply Ns. simpl. eauto.
    + destruct (receives_acc _ _ _ _ Rc Re) as (z & b' & ss & stk & rest & y & Gz & Rz & _).
      assert (In (FSubs b' (s :: ss)) (stack_of (b_runner z))) as IS by (rewrite Rz; now left).
      destruct (stack_frame _ _ _ _ (k_stack _ K _ _ Gz) IS) as (w & pre & Gw & Lw & Ew).
      assert (b = b') as <- by (eapply (t_subone _ T b x b' w s); eauto; rewrite Ew; apply in_elt).
      destruct E1 as (st' & evs & E). cbn [step] in E. rewrite Gw, Lw in E. discriminate.
  - destruct W as (b & ->). contradiction.
  - destruct W as [->|(i & a & ks & stk & -> & N)]; contradiction.
  - subst l1. contradiction.
  - destruct W as (id & d & u & ->). destruct O1 as (r & y & b & x & -> & Ny & G & I & B).
    assert (exists z, get_bus st r = Some z /\ b_root z = true) as (z & Gz & Rz).
    { simpl in R1. unfold in_callback in R1. destruct (get_bus st r) as [z|] eqn:Gz; [|discriminate]. exists z. split; auto.
      eapply (t_runner _ T); eauto. destruct (b_runner z); discriminate. }
    assert (exists r', t2 = TBus r' /\ below st r' b /\ exists z, get_bus st r' = Some z /\ b_root z = true) as (r' & -> & B' & z' & Gz' & Rz').
    { destruct O as [(id' & d' & u' & ->)|U].
      - destruct O2 as (r' & y' & b' & x' & -> & Ny' & G' & I' & B'). assert (y' = y) as -> by congruence.
        assert (b = b') as <- by (eapply (t_subone _ T); eauto). exists r'. split; auto. split; auto.
        simpl in R2. unfold in_callback in R2. destruct (get_bus st r') as [z'|] eqn:Gz'; [|discriminate]. exists z'. split; auto.
        eapply (t_runner _ T); eauto. destruct (b_runner z'); discriminate.
      - destruct (open_user _ _ _ Rc U) as (r' & y' & b' & x' & todo & L & Ny' & G' & I' & S). assert (y' = y) as -> by congruence.
        assert (b = b') as <- by (eapply (t_subone _ T); eauto). exists r'. split.
        { destruct L as [->| ->]; simpl in R2; destruct t2; try discriminate; apply Nat.eqb_eq in R2; congruence. }
        destruct S as (z' & Gz' & J). pose proof (stack_below _ _ _ _ (k_stack _ K _ _ Gz') J) as B'. split; auto. exists z'. split; auto.
        eapply (t_runner _ T); eauto. destruct (b_runner z'); simpl in J; try contradiction; discriminate. }
    apply Ne. f_equal. eapply (roots_equal st r r' b); eauto.
Qed.

Lemma member_dec (x y : member) : {x = y} + {x <> y}.
Proof. decide equality; apply Nat.eq_dec. Qed.

Lemma request_enabled st c y id d u : reach st -> nth_error (s_conss st) c = Some y -> enabled (LRequest c id d (Some u)) st.
Proof.
  intros Rc Ny. destruct (w_cons _ (reach_wired _ Rc) _ _ Ny) as (_ & t & q & z & _ & _ & Nz & _). unfold enabled. cbn [step]. rewrite Ny.
  unfold begin_publish. simpl. rewrite Nz. destruct (p_fn z); eauto.
Qed.

(** Basic facts about the bus transition system: state access, what each step
    may change, executions. *)
From Coq Require Import String Ascii List Arith ZArith Bool Lia.
From Verif Require Import Prelude OMap DatagramModel DatagramSpec BusModel.
Import ListNotations.
Open Scope list_scope.

(** ** Access *)

Lemma get_set b x st y :
  get_bus (set_bus b x st) y = if Nat.eqb b y then match get_bus st y with Some _ => Some x | None => None end else get_bus st y.
Proof. apply list_set_nth. Qed.

Lemma get_upd b f st y :
  get_bus (upd_bus b f st) y = if Nat.eqb b y then option_map f (get_bus st y) else get_bus st y.
Proof.
  unfold upd_bus. destruct (get_bus st b) as [x|] eqn:E.
  - rewrite get_set. destruct (Nat.eqb_spec b y) as [->|]; auto. now rewrite E.
  - destruct (Nat.eqb_spec b y) as [->|]; auto. now rewrite E.
Qed.

Lemma get_add x st y :
  get_bus (add_bus x st) y = if Nat.eqb (length (s_buses st)) y then Some x else get_bus st y.
Proof.
  unfold get_bus, add_bus; simpl.
  destruct (Nat.eqb_spec (length (s_buses st)) y) as [<-|Hne].
  - rewrite nth_error_app2, Nat.sub_diag by lia. reflexivity.
  - destruct (Nat.lt_ge_cases y (length (s_buses st))).
    + now rewrite nth_error_app1.
    + transitivity (@None bus); [|symmetry]; apply nth_error_None; rewrite ?app_length; simpl; lia.
Qed.

Lemma get_set_subs l st y : get_bus (set_subs l st) y = get_bus st y. Proof. reflexivity. Qed.
Lemma get_set_pubs l st y : get_bus (set_pubs l st) y = get_bus st y. Proof. reflexivity. Qed.
Lemma get_set_provs l st y : get_bus (set_provs l st) y = get_bus st y. Proof. reflexivity. Qed.
Lemma get_set_conss l st y : get_bus (set_conss l st) y = get_bus st y. Proof. reflexivity. Qed.
Lemma get_set_flights l st y : get_bus (set_flights l st) y = get_bus st y. Proof. reflexivity. Qed.
Lemma get_set_detaches l st y : get_bus (set_detaches l st) y = get_bus st y. Proof. reflexivity. Qed.

Lemma upd_rest b f st :
  length (s_buses (upd_bus b f st)) = length (s_buses st) /\ s_subs (upd_bus b f st) = s_subs st /\
  s_pubs (upd_bus b f st) = s_pubs st /\ s_provs (upd_bus b f st) = s_provs st /\ s_conss (upd_bus b f st) = s_conss st /\
  s_flights (upd_bus b f st) = s_flights st /\ s_detaches (upd_bus b f st) = s_detaches st.
Proof.
  unfold upd_bus. destruct (get_bus st b); simpl; rewrite ?list_set_length; auto 10.
Qed.
Lemma buses_upd b f st : length (s_buses (upd_bus b f st)) = length (s_buses st). Proof. apply upd_rest. Qed.
Lemma subs_upd b f st : s_subs (upd_bus b f st) = s_subs st. Proof. apply upd_rest. Qed.
Lemma pubs_upd b f st : s_pubs (upd_bus b f st) = s_pubs st. Proof. apply upd_rest. Qed.
Lemma provs_upd b f st : s_provs (upd_bus b f st) = s_provs st. Proof. apply upd_rest. Qed.
Lemma conss_upd b f st : s_conss (upd_bus b f st) = s_conss st. Proof. apply upd_rest. Qed.
Lemma flights_upd b f st : s_flights (upd_bus b f st) = s_flights st. Proof. apply upd_rest. Qed.
Lemma detaches_upd b f st : s_detaches (upd_bus b f st) = s_detaches st. Proof. apply upd_rest. Qed.

(** Unwinding: which locks a frame holds. *)
Definition holds_s (b : nat) (f : frame) : bool := match f with FSubs b' _ => Nat.eqb b' b | _ => false end.
Definition holds_k (b : nat) (f : frame) : bool := match f with FKids b' _ => Nat.eqb b' b | _ => false end.

Definition unlocked (stk : list frame) (y : nat) (x : bus) : bus :=
  with_slock (b_slock x && negb (existsb (holds_s y) stk)) (with_klock (b_klock x && negb (existsb (holds_k y) stk)) x).

Lemma unwind_spec stk st :
  (forall y, get_bus (unwind stk st) y = option_map (unlocked stk y) (get_bus st y)) /\
  length (s_buses (unwind stk st)) = length (s_buses st) /\ s_subs (unwind stk st) = s_subs st /\
  s_pubs (unwind stk st) = s_pubs st /\ s_provs (unwind stk st) = s_provs st /\ s_conss (unwind stk st) = s_conss st /\
  s_flights (unwind stk st) = s_flights st /\ s_detaches (unwind stk st) = s_detaches st.
Proof.
  revert st; induction stk as [|f stk IH]; intros st; simpl.
  - unfold unwind; simpl. repeat split; auto. intros y. destruct (get_bus st y) as [x|]; simpl; auto.
    unfold unlocked; simpl. rewrite !andb_true_r. destruct x; reflexivity.
  - specialize (IH (unlock_frame f st)) as (I1 & I2 & I3 & I4 & I5 & I6 & I7 & I8).
    change (unwind (f :: stk) st) with (unwind stk (unlock_frame f st)).
    rewrite I2, I3, I4, I5, I6, I7, I8.
    destruct f as [b t|b|b t]; simpl in *;
      rewrite ?buses_upd, ?subs_upd, ?pubs_upd, ?provs_upd, ?conss_upd, ?flights_upd, ?detaches_upd;
      (split; [|repeat split; auto]); intros y; rewrite I1, ?get_upd.
    + destruct (Nat.eqb_spec b y) as [->|]; destruct (get_bus st y) as [x|]; simpl; auto.
      all: unfold unlocked; simpl; rewrite ?Nat.eqb_refl, ?(proj2 (Nat.eqb_neq b y)); auto; simpl.
      rewrite andb_false_r. reflexivity.
    + destruct (get_bus st y); reflexivity.
    + destruct (Nat.eqb_spec b y) as [->|]; destruct (get_bus st y) as [x|]; simpl; auto.
      all: unfold unlocked; simpl; rewrite ?Nat.eqb_refl, ?(proj2 (Nat.eqb_neq b y)); auto; simpl.
      rewrite andb_false_r. reflexivity.
Qed.
Lemma get_unwind stk st y : get_bus (unwind stk st) y = option_map (unlocked stk y) (get_bus st y). Proof. apply unwind_spec. Qed.
Lemma buses_unwind stk st : length (s_buses (unwind stk st)) = length (s_buses st). Proof. apply unwind_spec. Qed.
Lemma subs_unwind stk st : s_subs (unwind stk st) = s_subs st. Proof. apply unwind_spec. Qed.
Lemma pubs_unwind stk st : s_pubs (unwind stk st) = s_pubs st. Proof. apply unwind_spec. Qed.
Lemma provs_unwind stk st : s_provs (unwind stk st) = s_provs st. Proof. apply unwind_spec. Qed.
Lemma conss_unwind stk st : s_conss (unwind stk st) = s_conss st. Proof. apply unwind_spec. Qed.
Lemma flights_unwind stk st : s_flights (unwind stk st) = s_flights st. Proof. apply unwind_spec. Qed.
Lemma detaches_unwind stk st : s_detaches (unwind stk st) = s_detaches st. Proof. apply unwind_spec. Qed.

Lemma after_call_rest c st :
  s_buses (after_call c st) = s_buses st /\ s_subs (after_call c st) = s_subs st /\
  s_pubs (after_call c st) = s_pubs st /\ s_provs (after_call c st) = s_provs st /\
  s_flights (after_call c st) = s_flights st /\ s_detaches (after_call c st) = s_detaches st.
Proof.
  destruct c as [| | |c0 id u d]; simpl; try (repeat split; reflexivity).
  destruct (nth_error (s_conss st) c0); simpl; repeat split; reflexivity.
Qed.
Lemma get_after_call c st y : get_bus (after_call c st) y = get_bus st y.
Proof. unfold get_bus. now rewrite (proj1 (after_call_rest c st)). Qed.
Lemma buses_after_call c st : s_buses (after_call c st) = s_buses st. Proof. apply after_call_rest. Qed.
Lemma conss_len_after_call c st : length (s_conss (after_call c st)) = length (s_conss st).
Proof.
  destruct c as [| | |c0 id u d]; simpl; auto.
  destruct (nth_error (s_conss st) c0); simpl; rewrite ?list_set_length; reflexivity.
Qed.
Lemma subs_after_call c st : s_subs (after_call c st) = s_subs st. Proof. apply after_call_rest. Qed.
Lemma pubs_after_call c st : s_pubs (after_call c st) = s_pubs st. Proof. apply after_call_rest. Qed.
Lemma provs_after_call c st : s_provs (after_call c st) = s_provs st. Proof. apply after_call_rest. Qed.
Lemma flights_after_call c st : s_flights (after_call c st) = s_flights st. Proof. apply after_call_rest. Qed.
Lemma detaches_after_call c st : s_detaches (after_call c st) = s_detaches st. Proof. apply after_call_rest. Qed.

Ltac acc :=
  repeat (rewrite ?get_set, ?get_upd, ?get_add, ?get_set_subs, ?get_set_pubs, ?get_set_provs, ?get_set_conss, ?get_set_flights,
    ?get_set_detaches, ?get_unwind, ?get_after_call,
    ?buses_upd, ?subs_upd, ?pubs_upd, ?provs_upd, ?conss_upd, ?flights_upd, ?detaches_upd,
    ?buses_unwind, ?subs_unwind, ?pubs_unwind, ?provs_unwind, ?conss_unwind, ?flights_unwind, ?detaches_unwind,
    ?buses_after_call, ?subs_after_call, ?pubs_after_call, ?provs_after_call, ?flights_after_call, ?detaches_after_call,
    ?list_set_length).

(** Break a hypothesis [step l st = Some (st', evs)] with concrete [l] into its cases. *)
Ltac brk H :=
  repeat match type of H with
  | match ?x with _ => _ end = Some _ => let E := fresh "E" in destruct x eqn:E; try discriminate H
  | (let (_, _) := ?x in _) = Some _ => let E := fresh "E" in destruct x eqn:E; try discriminate H
  end.

Ltac fin := try match goal with H : Some (?a, ?b) = Some (?c, ?d) |- _ =>
  assert (a = c /\ b = d) as [? ?] by (split; congruence); clear H end.

Lemma get_lt st b x : get_bus st b = Some x -> b < length (s_buses st).
Proof. intros H. apply nth_error_Some. unfold get_bus in H. congruence. Qed.

Lemma set_cb_inv s cb st st' :
  set_cb s cb st = Some st' ->
  exists x, nth_error (s_subs st) s = Some x /\ st' = set_subs (list_set s (mkSub (s_topic x) cb) (s_subs st)) st.
Proof.
  unfold set_cb. destruct (nth_error (s_subs st) s) as [x|]; [|discriminate].
  intros [= <-]. eauto.
Qed.

Lemma begin_publish_inv p d st st' evs :
  begin_publish p d st = Some (st', evs) ->
  exists x, nth_error (s_pubs st) p = Some x /\
    ((p_fn x = true /\ st' = set_flights (s_flights st ++ [FlyPub p d]) st /\ evs = []) \/
     (p_fn x = false /\ st' = set_flights (s_flights st ++ [FlyDone]) st /\ evs = [EvFlight (length (s_flights st)) (Ok tt)])).
Proof.
  unfold begin_publish. destruct (nth_error (s_pubs st) p) as [x|]; [|discriminate].
  destruct (p_fn x) eqn:E; intros [= <- <-]; exists x; auto.
Qed.

Ltac step_cases H :=
  unfold step, ok, raise, fly_step, detach_step, run_step, return_step, throw_step, abort, add_sub, add_pub, call_target, test_bus_fn in H;
  brk H;
  repeat match goal with
  | E : set_cb _ _ _ = Some _ |- _ => apply set_cb_inv in E; destruct E as (? & ? & E); simpl in E; subst
  | E : begin_publish _ _ _ = Some _ |- _ => apply begin_publish_inv in E; destruct E as (? & ? & [(? & ? & ?)|(? & ? & ?)]); subst
  end; fin;
  repeat match goal with E : match ?x with _ => _ end = (_, _) |- _ => let E' := fresh "E" in destruct x eqn:E' end;
  repeat match goal with E : (?a, ?b) = (?c, ?d) |- _ =>
    let X := fresh "X" in let Y := fresh "Y" in
    assert (a = c) as X by congruence; assert (b = d) as Y by congruence; clear E end; subst.

(** ** What a step may change about an existing bus *)

Definition sub_creating (l : label) (b : nat) : Prop :=
  match l with
  | LSub b' _ _ | LProvider b' _ _ | LConsumer b' _ => b' = b
  | _ => False
  end.

Definition runner_label (l : label) (b : nat) : Prop :=
  match l with
  | LRun r | LReturn r | LThrow r _ => r = b
  | _ => False
  end.

Record delta (l : label) (st st' : state) (y : nat) (x x' : bus) : Prop := mkDelta {
  d_name : b_name x' = b_name x;
  d_root : b_root x' = b_root x;
  d_kids : b_kids x' = b_kids x \/
    exists name, l = LChild y name /\ name <> ""%string /\ b_klock x = false /\ olookup name (b_kids x) = None /\
      b_fn x <> None /\ b_kids x' = oinsert name (length (s_buses st)) (b_kids x) /\
      length (s_buses st') = S (length (s_buses st));
  d_fn : b_fn x' = b_fn x \/ (b_fn x' = None /\ (l = LDetach y \/ exists i, l = LDetachStep i));
  d_run : b_run x' = b_run x \/ (l = LStart y /\ b_run x' = true) \/ (l = LStop y /\ b_run x' = false) \/
    (exists i b ks stk, l = LDetachStep i /\ nth_error (s_detaches st) i = Some (DKids b (y :: ks) :: stk) /\ b_run x' = false);
  d_subs : b_subs x' = b_subs x \/
    (sub_creating l y /\ b_slock x = false /\ b_subs x' = b_subs x ++ [length (s_subs st)] /\ length (s_subs st') = S (length (s_subs st))) \/
    (exists s, l = LDelSub y s /\ b_slock x = false /\ b_subs x' = filter (fun z => negb (Nat.eqb z s)) (b_subs x));
  d_runner : b_runner x' = b_runner x \/ runner_label l y \/
    (l = LStart y /\ b_root x = true /\ b_runner x = RIdle /\ b_runner x' = RWait);
  d_locks : (b_slock x' = b_slock x /\ b_klock x' = b_klock x) \/
    (exists r, l = LRun r) \/ (exists r e, l = LThrow r e) \/ (exists i, l = LDetachStep i /\ b_slock x' = b_slock x);
  d_queue : (b_queue x' = b_queue x /\ b_count x' = b_count x) \/ l = LRun y \/ (exists i, l = LFly i) }.

Ltac dfield :=
  first [ reflexivity | left; reflexivity | left; split; reflexivity | right; reflexivity
        | right; left; split; reflexivity
        | right; right; left; split; reflexivity
        | right; right; repeat split; solve [assumption|reflexivity]
        | right; left; reflexivity
        | right; right; eexists; reflexivity
        | right; left; eexists; reflexivity
        | right; right; left; eexists; eexists; reflexivity
        | right; right; right; eexists; split; reflexivity
        | right; split; [reflexivity|]; left; reflexivity
        | right; split; [reflexivity|]; right; eexists; reflexivity
        | right; right; right; do 4 eexists; repeat split; eassumption
        | right; right; eexists; repeat split; eassumption
        | right; left; repeat split; simpl; rewrite ?app_length; simpl; auto; lia
        | idtac ].

Lemma step_delta l st st' evs y x :
  step l st = Some (st', evs) -> get_bus st y = Some x ->
  exists x', get_bus st' y = Some x' /\ delta l st st' y x x'.
Proof.
  intros H G. pose proof (get_lt _ _ _ G) as L.
  destruct l; step_cases H; acc.
  all: repeat match goal with
       | |- context [Nat.eqb ?a ?b] => let E := fresh "Q" in destruct (Nat.eqb_spec a b) as [E|E]; [try subst a|]
       end; simpl in *; rewrite ?list_set_length in *; try lia.
  all: repeat match goal with
       | E : get_bus _ ?z = Some ?a, G : get_bus _ ?z = Some ?b |- _ => rewrite G in E; injection E as E; try subst a; try subst b
       end.
  all: rewrite ?G; simpl; eexists; (split; [reflexivity|]).
  all: constructor; simpl; dfield.
  - right. eexists. repeat split; eauto.
    + now apply String.eqb_neq.
    + congruence.
    + rewrite app_length, list_set_length; simpl; lia.
  - right; left. rewrite subs_upd; simpl; rewrite app_length; simpl. repeat split; auto; lia.
  - right; left. rewrite subs_upd; simpl; rewrite app_length; simpl. repeat split; auto; lia.
Qed.

(** New buses. *)
Lemma step_new l st st' evs y x' :
  step l st = Some (st', evs) -> get_bus st y = None -> get_bus st' y = Some x' ->
  y = length (s_buses st) /\ length (s_buses st') = S (length (s_buses st)) /\ ((exists name, l = LNewRoot name /\ name <> ""%string /\ x' = new_bus name (Some (ToQueue y)) true) \/
   (exists name g, l = LNewCustom name (Some g) /\ name <> ""%string /\ x' = new_bus name (Some (ToClient g)) false) \/
   (exists b xb name t, l = LChild b name /\ get_bus st b = Some xb /\ name <> ""%string /\ b_fn xb = Some t /\ olookup name (b_kids xb) = None /\ x' = with_run true (new_bus name (Some t) false))).
Proof.
  intros H G G'.
  assert (~ y < length (s_buses st)) as L by (apply nth_error_None in G; lia).
  destruct l; step_cases H; revert G'; acc.
  all: repeat match goal with
       | |- context [Nat.eqb ?a ?b] => let E := fresh "Q" in destruct (Nat.eqb_spec a b) as [E|E]; [try subst a|]
       end; simpl in *; rewrite ?list_set_length in *; try lia; rewrite ?G; simpl; try discriminate; try congruence.
  all: intros [= <-]; (split; [lia|]); (split; [rewrite app_length, ?list_set_length; simpl; lia|]).
  - left. eexists; repeat split; [now apply String.eqb_neq|congruence].
  - right; left. do 2 eexists; repeat split. now apply String.eqb_neq.
  - right; right. do 4 eexists; repeat split; eauto. now apply String.eqb_neq.
Qed.

Lemma step_len l st st' evs :
  step l st = Some (st', evs) ->
  length (s_buses st) <= length (s_buses st') /\ length (s_subs st) <= length (s_subs st') /\ length (s_pubs st) <= length (s_pubs st') /\ length (s_provs st) <= length (s_provs st') /\ length (s_conss st) <= length (s_conss st') /\ length (s_flights st) <= length (s_flights st') /\ length (s_detaches st) <= length (s_detaches st').
Proof.
  intros H. destruct l; step_cases H; simpl; acc; simpl; rewrite ?app_length, ?list_set_length; simpl;
    repeat split; acc; simpl; rewrite ?app_length, ?list_set_length; simpl; acc; simpl; rewrite ?app_length; simpl; try lia.
  all: rewrite conss_len_after_call; acc; lia.
Qed.

(** Subscribers keep their topic. *)
Lemma step_sub l st st' evs s y :
  step l st = Some (st', evs) -> nth_error (s_subs st) s = Some y ->
  exists y', nth_error (s_subs st') s = Some y' /\ s_topic y' = s_topic y /\ (s_cb y' = s_cb y \/
     (exists u, l = LSetData s u /\ s_cb y' = Some (CbData u)) \/ (exists u, l = LSetMsg s u /\ s_cb y' = option_map CbMsg u) \/
     (exists b, l = LDelSub b s /\ s_cb y' = None) \/
     (exists p q, l = LInstallProvider p /\ nth_error (s_provs st) p = Some q /\ pr_sub q = s /\ s_cb y' = Some (CbProvider p)) \/
     (exists c q, l = LInstallConsumer c /\ nth_error (s_conss st) c = Some q /\ co_sub q = s /\ s_cb y' = Some (CbConsumer c))).
Proof.
  intros H G. assert (s < length (s_subs st)) as L by (apply nth_error_Some; congruence).
  destruct l; step_cases H; acc; simpl; acc; simpl; try (exists y; repeat split; auto; fail).
  all: try (rewrite nth_error_app1 by (simpl; acc; simpl; lia); simpl; acc; simpl; exists y; repeat split; auto; fail).
  all: rewrite list_set_nth;
    match goal with |- context [Nat.eqb ?a ?b] => destruct (Nat.eqb_spec a b) as [Q|Q] end; try subst;
    [rewrite G; eexists; split; [reflexivity|]; simpl in *; split; [congruence|] | exists y; auto].
  - right; left; eauto.
  - right; right; left; eauto.
  - right; right; right; left; eauto.
  - right; right; right; right; left. do 2 eexists; repeat split; eauto.
  - right; right; right; right; right. do 2 eexists; repeat split; eauto.
Qed.

(** ** Executions *)

Definition reach (st : state) : Prop := exists ls evs, exec ls init = Some (st, evs).

Lemma exec_app ls1 ls2 st :
  exec (ls1 ++ ls2) st =
  match exec ls1 st with
  | None => None
  | Some (st1, e1) => match exec ls2 st1 with None => None | Some (st2, e2) => Some (st2, e1 ++ e2) end
  end.
Proof.
  revert st; induction ls1 as [|l ls1 IH]; intros st; simpl.
  - destruct (exec ls2 st) as [[? ?]|]; reflexivity.
  - destruct (step l st) as [[st' e]|]; auto. rewrite IH.
    destruct (exec ls1 st') as [[st1 e1]|]; auto.
    destruct (exec ls2 st1) as [[st2 e2]|]; auto. now rewrite app_assoc.
Qed.

Lemma exec_cons_inv l ls st st2 evs :
  exec (l :: ls) st = Some (st2, evs) ->
  exists st1 e1 e2, step l st = Some (st1, e1) /\ exec ls st1 = Some (st2, e2) /\ evs = e1 ++ e2.
Proof.
  simpl. destruct (step l st) as [[st1 e1]|]; [|discriminate].
  destruct (exec ls st1) as [[st2' e2]|] eqn:E; [|discriminate].
  intros [= <- <-]. exists st1, e1, e2. auto.
Qed.

Lemma exec_snoc_inv ls l st st2 evs :
  exec (ls ++ [l]) st = Some (st2, evs) ->
  exists st1 e1 e2, exec ls st = Some (st1, e1) /\ step l st1 = Some (st2, e2) /\ evs = e1 ++ e2.
Proof.
  rewrite exec_app. destruct (exec ls st) as [[st1 e1]|]; [|discriminate]. simpl.
  destruct (step l st1) as [[st2' e2]|] eqn:E; [|discriminate].
  intros [= <- <-]. exists st1, e1, e2. rewrite app_nil_r. auto.
Qed.

Lemma exec_ind (P : state -> Prop) :
  (forall l st st' evs, P st -> step l st = Some (st', evs) -> P st') ->
  forall ls st st' evs, P st -> exec ls st = Some (st', evs) -> P st'.
Proof.
  intros HS ls; induction ls as [|l ls IH]; intros st st' evs HP H.
  - simpl in H. congruence.
  - apply exec_cons_inv in H as (st1 & e1 & e2 & S1 & S2 & ->). eauto.
Qed.

(** Induction over states and traces of an execution, from the end. *)
Lemma exec_trace_ind (st0 : state) (P : state -> list label -> list event -> Prop) :
  P st0 [] [] ->
  (forall ls l st st' tr evs, exec ls st0 = Some (st, tr) -> P st ls tr -> step l st = Some (st', evs) -> P st' (ls ++ [l]) (tr ++ evs)) ->
  forall ls st tr, exec ls st0 = Some (st, tr) -> P st ls tr.
Proof.
  intros H0 HS ls. induction ls as [|l ls IH] using rev_ind; intros st tr H.
  - simpl in H. injection H as <- <-. auto.
  - apply exec_snoc_inv in H as (st1 & e1 & e2 & H1 & H2 & ->). eauto.
Qed.

Lemma reach_init : reach init.
Proof. exists [], []. reflexivity. Qed.

Lemma reach_exec st ls st' evs : reach st -> exec ls st = Some (st', evs) -> reach st'.
Proof.
  intros (ls0 & e0 & H0) H. exists (ls0 ++ ls), (e0 ++ evs). now rewrite exec_app, H0, H.
Qed.

Lemma reach_step st l st' evs : reach st -> step l st = Some (st', evs) -> reach st'.
Proof. intros R H. apply (reach_exec st [l] st' (evs ++ [])); auto. simpl. now rewrite H. Qed.

Lemma reach_ind (P : state -> Prop) :
  P init -> (forall l st st' evs, reach st -> P st -> step l st = Some (st', evs) -> P st') -> forall st, reach st -> P st.
Proof.
  intros H0 HS st (ls & evs & H).
  revert ls st evs H. apply (exec_trace_ind init (fun st ls tr => P st)); auto.
  intros ls l st st' tr evs H HP Hs. apply (HS l st st' evs); auto. exists ls, tr; auto.
Qed.

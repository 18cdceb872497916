(** Distribution stacks and locks: the long-held lock flags are held exactly by
    the frames of the running bus threads and of the threads inside Detach. *)
From Coq Require Import String Ascii List Arith ZArith Bool Lia.
From Verif Require Import Prelude OMap DatagramModel DatagramSpec BusModel BusSpec BusProofs BusTree.
Import ListNotations.
Open Scope list_scope.

(** ** The cases of a bus thread's step *)

Inductive lact : Type := ANop | AS (b : nat) (v : bool) | AK (b : nat) (v : bool) | AUnwind (stk : list frame) | ADrain.

Definition apply_act (r : nat) (a : lact) (st : state) : state :=
  match a with
  | ANop => st
  | AS b v => upd_bus b (with_slock v) st
  | AK b v => upd_bus b (with_klock v) st
  | AUnwind stk => unwind stk st
  | ADrain => upd_bus r (fun x => with_queue [] (b_count x) x) st
  end.

Inductive rcase (st : state) (r : nat) (x : bus) : label -> runner -> runner -> lact -> list event -> Prop :=
| rc_go : b_run x = true -> rcase st r x (LRun r) RWait RDrain ANop []
| rc_stop : b_run x = false -> rcase st r x (LRun r) RWait RIdle ANop [EvStop r None]
| rc_drain : rcase st r x (LRun r) RDrain (RBatch (b_queue x)) ADrain []
| rc_loop : rcase st r x (LRun r) (RBatch []) RWait ANop []
| rc_begin m ms : b_run x = true -> b_slock x = false ->
    rcase st r x (LRun r) (RBatch (m :: ms)) (RDist m [FSubs r (b_subs x)] None ms) (AS r true) [EvBegin r m]
| rc_drop m ms : b_run x = false -> rcase st r x (LRun r) (RBatch (m :: ms)) (RBatch ms) ANop [EvDrop r m]
| rc_end m rest : rcase st r x (LRun r) (RDist m [] None rest) (RBatch rest) ANop [EvEnd r m]
| rc_subs_end m b stk rest :
    rcase st r x (LRun r) (RDist m (FSubs b [] :: stk) None rest) (RDist m (FLock b :: stk) None rest) (AS b false) []
| rc_sub_other m b s ss stk rest y : nth_error (s_subs st) s = Some y -> ant_matches (s_topic y) (bm_topic (snd m)) = false ->
    rcase st r x (LRun r) (RDist m (FSubs b (s :: ss) :: stk) None rest) (RDist m (FSubs b ss :: stk) None rest) ANop []
| rc_sub_skip m b s ss stk rest y : nth_error (s_subs st) s = Some y -> ant_matches (s_topic y) (bm_topic (snd m)) = true ->
    receive st s (snd m) = InvSkip ->
    rcase st r x (LRun r) (RDist m (FSubs b (s :: ss) :: stk) None rest) (RDist m (FSubs b ss :: stk) None rest) ANop [EvReceive r b s m]
| rc_sub_call m b s ss stk rest y c : nth_error (s_subs st) s = Some y -> ant_matches (s_topic y) (bm_topic (snd m)) = true ->
    receive st s (snd m) = InvCall c ->
    rcase st r x (LRun r) (RDist m (FSubs b (s :: ss) :: stk) None rest) (RDist m (FSubs b ss :: stk) (Some c) rest) ANop
      [EvReceive r b s m; EvInvoke r s m c]
| rc_sub_throw m b s ss stk rest y e : nth_error (s_subs st) s = Some y -> ant_matches (s_topic y) (bm_topic (snd m)) = true ->
    receive st s (snd m) = InvThrow e ->
    rcase st r x (LRun r) (RDist m (FSubs b (s :: ss) :: stk) None rest) RIdle (AUnwind (FSubs b ss :: stk))
      (EvReceive r b s m :: map (EvLost r) (m :: rest) ++ [EvStop r (Some e)])
| rc_lock m b y stk rest : get_bus st b = Some y -> b_klock y = false ->
    rcase st r x (LRun r) (RDist m (FLock b :: stk) None rest) (RDist m (FKids b (map snd (b_kids y)) :: stk) None rest) (AK b true) []
| rc_kids_end m b stk rest :
    rcase st r x (LRun r) (RDist m (FKids b [] :: stk) None rest) (RDist m stk None rest) (AK b false) []
| rc_kid m b k y ks stk rest : get_bus st k = Some y -> b_run y = true -> b_slock y = false ->
    rcase st r x (LRun r) (RDist m (FKids b (k :: ks) :: stk) None rest) (RDist m (FSubs k (b_subs y) :: FKids b ks :: stk) None rest) (AS k true) []
| rc_kid_stopped m b k y ks stk rest : get_bus st k = Some y -> b_run y = false ->
    rcase st r x (LRun r) (RDist m (FKids b (k :: ks) :: stk) None rest) (RDist m (FKids b ks :: stk) None rest) ANop []
| rc_return m stk c rest : rcase st r x (LReturn r) (RDist m stk (Some c) rest) (RDist m stk None rest) ANop []
| rc_throw m stk c rest e : rcase st r x (LThrow r e) (RDist m stk (Some c) rest) RIdle (AUnwind stk)
    (map (EvLost r) (m :: rest) ++ [EvStop r (Some e)]).

(** The effect of returning from a callback on consumers. *)
Definition ret_call (l : label) (rn : runner) (st : state) : state :=
  match l, rn with
  | LReturn _, RDist _ _ (Some c) _ => after_call c st
  | _, _ => st
  end.

Lemma run_inv l r st st' evs :
  step l st = Some (st', evs) -> runner_label l r ->
  exists x rn act, get_bus st r = Some x /\ rcase st r x l (b_runner x) rn act evs /\
    st' = ret_call l (b_runner x) (upd_bus r (with_runner rn) (apply_act r act st)).
Proof.
  intros H R. destruct l; simpl in R; try contradiction; subst.
  - unfold step, run_step in H. destruct (get_bus st r) as [x|] eqn:G; [|discriminate].
    destruct (b_runner x) as [| | |[|m ms]|m stk [c|] rest] eqn:ER; try discriminate.
    + destruct (b_run x) eqn:Er; injection H as <- <-; do 3 eexists; (split; [reflexivity|]; rewrite ER; split; [constructor; auto|]); reflexivity.
    + injection H as <- <-. do 3 eexists; (split; [reflexivity|]; rewrite ER; split; [constructor; auto|]). simpl.
      f_equal. unfold upd_bus. now rewrite G.
    + injection H as <- <-. do 3 eexists; (split; [reflexivity|]; rewrite ER; split; [constructor; auto|]). reflexivity.
    + destruct (b_run x) eqn:Er; [destruct (b_slock x) eqn:Es; [discriminate|]|];
        injection H as <- <-; do 3 eexists; (split; [reflexivity|]; rewrite ER; split; [constructor; auto|]); reflexivity.
    + destruct stk as [|[? [|? ?]|?|? [|? ?]] ?]; discriminate.
    + destruct stk as [|[b [|s ss]|b|b [|k ks]] stk].
      * injection H as <- <-. do 3 eexists; (split; [reflexivity|]; rewrite ER; split; [constructor; auto|]). reflexivity.
      * injection H as <- <-. do 3 eexists; (split; [reflexivity|]; rewrite ER; split; [constructor; auto|]). reflexivity.
      * destruct (nth_error (s_subs st) s) as [y|] eqn:Ey; [|discriminate].
        destruct (ant_matches (s_topic y) (bm_topic (snd m))) eqn:Ea; [destruct (receive st s (snd m)) eqn:Er|].
        -- injection H as <- <-. do 3 eexists; (split; [reflexivity|]; rewrite ER; split; [eapply rc_sub_skip; eauto|]). reflexivity.
        -- unfold abort in H. injection H as <- <-. do 3 eexists; (split; [reflexivity|]; rewrite ER; split; [eapply rc_sub_throw; eauto|]). reflexivity.
        -- injection H as <- <-. do 3 eexists; (split; [reflexivity|]; rewrite ER; split; [eapply rc_sub_call; eauto|]). reflexivity.
        -- injection H as <- <-. do 3 eexists; (split; [reflexivity|]; rewrite ER; split; [eapply rc_sub_other; eauto|]). reflexivity.
      * destruct (get_bus st b) as [y|] eqn:Gb; [|discriminate]. destruct (b_klock y) eqn:Ek; [discriminate|].
        injection H as <- <-. do 3 eexists; (split; [reflexivity|]; rewrite ER; split; [eapply rc_lock; eauto|]). reflexivity.
      * injection H as <- <-. do 3 eexists; (split; [reflexivity|]; rewrite ER; split; [constructor; auto|]). reflexivity.
      * destruct (get_bus st k) as [y|] eqn:Gb; [|discriminate].
        destruct (b_run y) eqn:Er; [destruct (b_slock y) eqn:Es; [discriminate|]|]; injection H as <- <-; do 3 eexists.
        -- split; [reflexivity|]; rewrite ER; split; [eapply rc_kid; eauto|]. reflexivity.
        -- split; [reflexivity|]; rewrite ER; split; [eapply rc_kid_stopped; eauto|]. reflexivity.
  - unfold step, return_step in H. destruct (get_bus st r) as [x|] eqn:G; [|discriminate].
    destruct (b_runner x) as [| | |ms|m stk [c|] rest] eqn:ER; try discriminate.
    injection H as <- <-. do 3 eexists; (split; [reflexivity|]; rewrite ER; split; [constructor; auto|]). reflexivity.
  - unfold step, throw_step in H. destruct (get_bus st r) as [x|] eqn:G; [|discriminate].
    destruct (b_runner x) as [| | |ms|m stk [c|] rest] eqn:ER; try discriminate.
    unfold abort in H. injection H as <- <-. do 3 eexists; (split; [reflexivity|]; rewrite ER; split; [constructor; auto|]). reflexivity.
Qed.

(** ** Well-formed stacks *)

Definition frame_bus (f : frame) : nat := match f with FSubs b _ | FLock b | FKids b _ => b end.
Definition stack_of (rn : runner) : list frame := match rn with RDist _ stk _ _ => stk | _ => [] end.
Definition call_of (rn : runner) : option call := match rn with RDist _ _ c _ => c | _ => None end.

Definition frame_ok (st : state) (f : frame) : Prop :=
  match f with
  | FSubs b todo => exists x pre, get_bus st b = Some x /\ b_slock x = true /\ b_subs x = pre ++ todo
  | FLock b => exists x, get_bus st b = Some x
  | FKids b todo => exists x pre, get_bus st b = Some x /\ b_klock x = true /\ map snd (b_kids x) = pre ++ todo
  end.

Inductive stack_ok (st : state) (r : nat) : list frame -> Prop :=
| sk_nil : stack_ok st r []
| sk_one f : frame_bus f = r -> frame_ok st f -> stack_ok st r [f]
| sk_push f p todo stk x pre :
    frame_ok st f -> get_bus st p = Some x -> map snd (b_kids x) = pre ++ frame_bus f :: todo ->
    stack_ok st r (FKids p todo :: stk) -> stack_ok st r (f :: FKids p todo :: stk).

Definition dframe_bus (f : dframe) : nat := match f with DLock b | DKids b _ => b end.

Definition dframe_ok (st : state) (f : dframe) : Prop :=
  match f with
  | DLock b => exists x, get_bus st b = Some x
  | DKids b todo => exists x pre, get_bus st b = Some x /\ b_klock x = true /\ map snd (b_kids x) = pre ++ todo
  end.

Inductive dstack_ok (st : state) : list dframe -> Prop :=
| dk_nil : dstack_ok st []
| dk_one f : dframe_ok st f -> dstack_ok st [f]
| dk_push f p todo stk x pre :
    dframe_ok st f -> get_bus st p = Some x -> map snd (b_kids x) = pre ++ dframe_bus f :: todo ->
    dstack_ok st (DKids p todo :: stk) -> dstack_ok st (f :: DKids p todo :: stk).

Definition in_stack (st : state) (r : nat) (f : frame) : Prop :=
  exists x, get_bus st r = Some x /\ In f (stack_of (b_runner x)).
Definition in_dstack (st : state) (i : nat) (f : dframe) : Prop :=
  exists ds, nth_error (s_detaches st) i = Some ds /\ In f ds.

Record lock_inv (st : state) : Prop := mkLock {
  k_stack : forall r x, get_bus st r = Some x -> stack_ok st r (stack_of (b_runner x));
  k_call : forall r x c, get_bus st r = Some x -> call_of (b_runner x) = Some c ->
    exists b ss stk, stack_of (b_runner x) = FSubs b ss :: stk;
  k_dstack : forall i ds, nth_error (s_detaches st) i = Some ds -> dstack_ok st ds;
  k_s : forall b x, get_bus st b = Some x -> b_slock x = true -> exists r todo, in_stack st r (FSubs b todo);
  k_k : forall b x, get_bus st b = Some x -> b_klock x = true ->
    (exists r todo, in_stack st r (FKids b todo)) \/ (exists i todo, in_dstack st i (DKids b todo));
  k_rd : forall r i b t t', in_stack st r (FKids b t) -> in_dstack st i (DKids b t') -> False;
  k_dd : forall i j b t t', in_dstack st i (DKids b t) -> in_dstack st j (DKids b t') -> i = j }.

(** Stacks are paths down the tree. *)
Lemma stack_tail st r f stk : stack_ok st r (f :: stk) -> stack_ok st r stk.
Proof. inversion 1; subst; auto. constructor. Qed.

Lemma stack_frame st r stk f : stack_ok st r stk -> In f stk -> frame_ok st f.
Proof.
  induction 1 as [|g E F|g p todo stk x pre F G M S IH]; simpl; intros I; [contradiction| |].
  - destruct I as [<-|[]]; auto.
  - destruct I as [<-|I]; auto.
Qed.

Lemma stack_below st r stk f : stack_ok st r stk -> In f stk -> below st r (frame_bus f).
Proof.
  intros S0; revert f; induction S0 as [|g E F|g p todo stk x pre F G M S IH]; simpl; intros f I; [contradiction| |].
  - destruct I as [<-|[]]; rewrite E; constructor.
  - destruct I as [<-|I]; auto. econstructor; [apply (IH (FKids p todo) (or_introl eq_refl))|].
    exists x. split; auto. rewrite M. apply in_elt.
Qed.

Lemma stack_above st r f stk g : tree_inv st -> stack_ok st r (f :: stk) -> In g stk -> below st (frame_bus g) (frame_bus f) /\ frame_bus g < frame_bus f.
Proof.
  intros T. revert f. induction stk as [|h stk IH]; intros f S I; [contradiction|].
  inversion S as [|? E F|? p todo ? x pre F G M S']; subst. simpl in *.
  assert (kid st p (frame_bus f)) as K by (exists x; split; auto; rewrite M; apply in_elt).
  pose proof (t_lt st T _ _ K).
  destruct I as [<-|I]; simpl.
  - split; [econstructor; [constructor|auto]|lia].
  - destruct (IH _ S' I) as [B L]. simpl in *. split; [econstructor; eauto|lia].
Qed.

Lemma dstack_frame st ds f : dstack_ok st ds -> In f ds -> dframe_ok st f.
Proof.
  induction 1 as [|g F|g p todo stk x pre F G M S IH]; simpl; intros I; [contradiction| |].
  - destruct I as [<-|[]]; auto.
  - destruct I as [<-|I]; auto.
Qed.

Lemma dstack_above st f stk g : tree_inv st -> dstack_ok st (f :: stk) -> In g stk -> below st (dframe_bus g) (dframe_bus f) /\ dframe_bus g < dframe_bus f.
Proof.
  intros T. revert f. induction stk as [|h stk IH]; intros f S I; [contradiction|].
  inversion S as [|? F|? p todo ? x pre F G M S']; subst. simpl in *.
  assert (kid st p (dframe_bus f)) as K by (exists x; split; auto; rewrite M; apply in_elt).
  pose proof (t_lt st T _ _ K).
  destruct I as [<-|I]; simpl.
  - split; [econstructor; [constructor|auto]|lia].
  - destruct (IH _ S' I) as [B L]. simpl in *. split; [econstructor; eauto|lia].
Qed.

Lemma dstack_tail st f stk : dstack_ok st (f :: stk) -> dstack_ok st stk.
Proof. inversion 1; subst; auto. constructor. Qed.

(** One bus, one running thread. *)
Lemma in_stack_root st r f : tree_inv st -> in_stack st r f -> exists x, get_bus st r = Some x /\ b_root x = true.
Proof.
  intros T (x & G & I). exists x. split; auto. apply (t_runner st T r); auto. intros E. rewrite E in I. contradiction.
Qed.

Lemma in_stack_unique st r r' f f' :
  tree_inv st -> lock_inv st -> in_stack st r f -> in_stack st r' f' -> frame_bus f = frame_bus f' -> r = r'.
Proof.
  intros T L I I' E.
  destruct (in_stack_root _ _ _ T I) as (y & Gy & Ry), (in_stack_root _ _ _ T I') as (y' & Gy' & Ry').
  destruct I as (x & G & I), I' as (x' & G' & I').
  apply (stack_below st r) in I; [|apply (k_stack st L); auto].
  apply (stack_below st r') in I'; [|apply (k_stack st L); auto].
  rewrite E in I. apply (roots_equal st r r' (frame_bus f') y y' T I I' Gy Gy' Ry Ry').
Qed.

(** ** Preservation *)

(** The lock a frame relies on. *)
Definition lock_on (f : frame) (x : bus) : bool :=
  match f with FSubs _ _ => b_slock x | FLock _ => true | FKids _ _ => b_klock x end.
Definition dlock_on (f : dframe) (x : bus) : bool :=
  match f with DLock _ => true | DKids _ _ => b_klock x end.

Lemma kids_locked l st st' evs p x x' :
  step l st = Some (st', evs) -> get_bus st p = Some x -> get_bus st' p = Some x' -> b_klock x = true -> b_kids x' = b_kids x.
Proof.
  intros H G G' K. destruct (step_delta _ _ _ _ _ _ H G) as (x2 & G2 & D). rewrite G' in G2; injection G2 as <-.
  destruct (d_kids _ _ _ _ _ _ D) as [E|(n & _ & _ & K2 & _)]; congruence.
Qed.

Lemma subs_locked l st st' evs p x x' :
  step l st = Some (st', evs) -> get_bus st p = Some x -> get_bus st' p = Some x' -> b_slock x = true -> b_subs x' = b_subs x.
Proof.
  intros H G G' K. destruct (step_delta _ _ _ _ _ _ H G) as (x2 & G2 & D). rewrite G' in G2; injection G2 as <-.
  destruct (d_subs _ _ _ _ _ _ D) as [E|[(_ & K2 & _)|(s & _ & K2 & _)]]; congruence.
Qed.

Lemma step_get l st st' evs p x : step l st = Some (st', evs) -> get_bus st p = Some x -> exists x', get_bus st' p = Some x'.
Proof. intros H G. destruct (step_delta _ _ _ _ _ _ H G) as (x2 & G2 & _). eauto. Qed.

Lemma frame_keep l st st' evs f :
  step l st = Some (st', evs) -> frame_ok st f ->
  (forall x', get_bus st' (frame_bus f) = Some x' -> lock_on f x' = true) -> frame_ok st' f.
Proof.
  intros H F K. destruct f as [b t|b|b t]; simpl in *.
  - destruct F as (x & pre & G & L & E). destruct (step_get _ _ _ _ _ _ H G) as (x' & G').
    exists x', pre. repeat split; auto. rewrite <- E. eapply subs_locked; eauto.
  - destruct F as (x & G). eapply step_get; eauto.
  - destruct F as (x & pre & G & L & E). destruct (step_get _ _ _ _ _ _ H G) as (x' & G').
    exists x', pre. repeat split; auto. rewrite <- E. f_equal. eapply kids_locked; eauto.
Qed.

Lemma dframe_keep l st st' evs f :
  step l st = Some (st', evs) -> dframe_ok st f ->
  (forall x', get_bus st' (dframe_bus f) = Some x' -> dlock_on f x' = true) -> dframe_ok st' f.
Proof.
  intros H F K. destruct f as [b|b t]; simpl in *.
  - destruct F as (x & G). eapply step_get; eauto.
  - destruct F as (x & pre & G & L & E). destruct (step_get _ _ _ _ _ _ H G) as (x' & G').
    exists x', pre. repeat split; auto. rewrite <- E. f_equal. eapply kids_locked; eauto.
Qed.

Lemma stack_keep l st st' evs r stk :
  step l st = Some (st', evs) -> stack_ok st r stk ->
  (forall f x', In f stk -> get_bus st' (frame_bus f) = Some x' -> lock_on f x' = true) -> stack_ok st' r stk.
Proof.
  intros H S. induction S as [|g E F|g p todo stk x pre F G M S IH]; intros K.
  - constructor.
  - constructor; auto. eapply frame_keep; eauto. intros x'. apply K. simpl; auto.
  - destruct (step_get _ _ _ _ _ _ H G) as (x' & G').
    assert (b_klock x = true) as Kl.
    { pose proof (stack_frame _ _ _ (FKids p todo) S (or_introl eq_refl)) as (x0 & pre0 & G0 & L0 & _). congruence. }
    apply sk_push with x' pre; auto.
    + eapply frame_keep; eauto. intros y. apply K. simpl; auto.
    + rewrite <- M. f_equal. eapply kids_locked; eauto.
    + apply IH. intros f y I. apply K. simpl in *; auto.
Qed.

Lemma dstack_keep l st st' evs stk :
  step l st = Some (st', evs) -> dstack_ok st stk ->
  (forall f x', In f stk -> get_bus st' (dframe_bus f) = Some x' -> dlock_on f x' = true) -> dstack_ok st' stk.
Proof.
  intros H S. induction S as [|g F|g p todo stk x pre F G M S IH]; intros K.
  - constructor.
  - constructor; auto. eapply dframe_keep; eauto. intros x'. apply K. simpl; auto.
  - destruct (step_get _ _ _ _ _ _ H G) as (x' & G').
    assert (b_klock x = true) as Kl.
    { pose proof (dstack_frame _ _ (DKids p todo) S (or_introl eq_refl)) as (x0 & pre0 & G0 & L0 & _). congruence. }
    apply dk_push with x' pre; auto.
    + eapply dframe_keep; eauto. intros y. apply K. simpl; auto.
    + rewrite <- M. f_equal. eapply kids_locked; eauto.
    + apply IH. intros f y I. apply K. simpl in *; auto.
Qed.

Lemma frame_lock st f x : frame_ok st f -> get_bus st (frame_bus f) = Some x -> lock_on f x = true.
Proof. destruct f; simpl; auto; intros (y & pre & G & L & _) G'; congruence. Qed.
Lemma dframe_lock st f x : dframe_ok st f -> get_bus st (dframe_bus f) = Some x -> dlock_on f x = true.
Proof. destruct f; simpl; auto; intros (y & pre & G & L & _) G'; congruence. Qed.

(** Steps that touch neither stacks nor locks. *)
Definition calm (l : label) : Prop :=
  match l with LRun _ | LReturn _ | LThrow _ _ | LDetachStep _ => False | _ => True end.

Lemma calm_view l st st' evs y x' :
  step l st = Some (st', evs) -> calm l -> get_bus st' y = Some x' ->
  (exists x, get_bus st y = Some x /\ stack_of (b_runner x') = stack_of (b_runner x) /\ call_of (b_runner x') = call_of (b_runner x) /\
    b_slock x' = b_slock x /\ b_klock x' = b_klock x) \/
  (get_bus st y = None /\ b_runner x' = RIdle /\ b_slock x' = false /\ b_klock x' = false).
Proof.
  intros H C G. destruct (step_back _ _ _ _ _ _ H G) as [(x & G0 & D)|N].
  - left. exists x. split; auto.
    assert (stack_of (b_runner x') = stack_of (b_runner x) /\ call_of (b_runner x') = call_of (b_runner x)) as [-> ->].
    { destruct (d_runner _ _ _ _ _ _ D) as [->|[R|(_ & _ & -> & ->)]]; auto.
      destruct l; simpl in C, R; contradiction. }
    destruct (d_locks _ _ _ _ _ _ D) as [[-> ->]|[(r & ->)|[(r & e & ->)|(i & -> & _)]]]; auto; simpl in C; contradiction.
  - right. split; auto.
    destruct (step_new _ _ _ _ _ _ H N G) as (_ & _ & [(n & _ & _ & ->)|[(n & g & _ & _ & ->)|(b0 & xb & n & t & _ & _ & _ & _ & _ & ->)]]); auto.
Qed.

Lemma calm_detaches l st st' evs :
  step l st = Some (st', evs) -> calm l ->
  s_detaches st' = s_detaches st \/
  (exists b x', l = LDetach b /\ get_bus st' b = Some x' /\ s_detaches st' = s_detaches st ++ [[DLock b]]).
Proof.
  intros H C. destruct l; simpl in C; try contradiction; step_cases H; simpl; acc; simpl; auto.
  right. eexists; eexists; repeat split; eauto. acc. rewrite Nat.eqb_refl. now rewrite E.
Qed.

Lemma calm_in_stack l st st' evs r f :
  step l st = Some (st', evs) -> calm l -> in_stack st' r f <-> in_stack st r f.
Proof.
  intros H C. split.
  - intros (x' & G & I). destruct (calm_view _ _ _ _ _ _ H C G) as [(x & G0 & E & _)|(_ & E & _)].
    + exists x. split; auto. congruence.
    + rewrite E in I. contradiction.
  - intros (x & G & I). destruct (step_get _ _ _ _ _ _ H G) as (x' & G').
    destruct (calm_view _ _ _ _ _ _ H C G') as [(x2 & G0 & E & _)|(N & _)]; [|congruence].
    exists x'. split; auto. rewrite E. congruence.
Qed.

Lemma calm_in_dstack l st st' evs i b t :
  step l st = Some (st', evs) -> calm l -> in_dstack st' i (DKids b t) <-> in_dstack st i (DKids b t).
Proof.
  intros H C. unfold in_dstack. destruct (calm_detaches _ _ _ _ H C) as [->|(b0 & x' & _ & _ & ->)]; [tauto|].
  split; intros (ds & N & I).
  - destruct (Nat.lt_ge_cases i (length (s_detaches st))) as [Lt|Ge].
    + rewrite nth_error_app1 in N by auto. eauto.
    + rewrite nth_error_app2 in N by auto. destruct (i - length (s_detaches st)) as [|[|n]]; simpl in N; try discriminate.
      injection N as <-. destruct I as [|[]]; discriminate.
  - exists ds. split; auto. rewrite nth_error_app1; auto. apply nth_error_Some. congruence.
Qed.

Lemma lock_calm l st st' evs : lock_inv st -> step l st = Some (st', evs) -> calm l -> lock_inv st'.
Proof.
  intros K H C.
  assert (forall f x', frame_ok st f -> get_bus st' (frame_bus f) = Some x' -> lock_on f x' = true) as FK.
  { intros f x' F G. destruct (calm_view _ _ _ _ _ _ H C G) as [(x & G0 & _ & _ & Es & Ek)|(N & _)].
    - destruct f; simpl; auto; [rewrite Es|rewrite Ek]; apply (frame_lock st _ x F G0).
    - destruct f; simpl in *; auto; destruct F as (? & ? & G0 & _); congruence. }
  assert (forall f x', dframe_ok st f -> get_bus st' (dframe_bus f) = Some x' -> dlock_on f x' = true) as DFK.
  { intros f x' F G. destruct (calm_view _ _ _ _ _ _ H C G) as [(x & G0 & _ & _ & Es & Ek)|(N & _)].
    - destruct f; simpl; auto. rewrite Ek; apply (dframe_lock st _ x F G0).
    - destruct f; simpl in *; auto; destruct F as (? & ? & G0 & _); congruence. }
  constructor.
  - intros r x' G. destruct (calm_view _ _ _ _ _ _ H C G) as [(x & G0 & -> & _)|(N & -> & _)]; [|constructor].
    eapply stack_keep; eauto using (k_stack st K). intros f y I. apply FK. eapply stack_frame; eauto using (k_stack st K).
  - intros r x' c G E. destruct (calm_view _ _ _ _ _ _ H C G) as [(x & G0 & Es & Ec & _)|(N & R & _)].
    + rewrite Es. apply (k_call st K r x c G0). congruence.
    + rewrite R in E. discriminate.
  - intros i ds N.
    assert (forall ds, dstack_ok st ds -> dstack_ok st' ds) as DK.
    { intros ds0 S. eapply dstack_keep; eauto. intros f y I. apply DFK. eapply dstack_frame; eauto. }
    destruct (calm_detaches _ _ _ _ H C) as [E|(b0 & x' & _ & G & E)]; rewrite E in N.
    + apply DK. eapply (k_dstack st K); eauto.
    + destruct (Nat.lt_ge_cases i (length (s_detaches st))) as [Lt|Ge].
      * rewrite nth_error_app1 in N by auto. apply DK. eapply (k_dstack st K); eauto.
      * rewrite nth_error_app2 in N by auto. destruct (i - length (s_detaches st)) as [|[|n]]; simpl in N; try discriminate.
        injection N as <-. constructor. simpl. eauto.
  - intros b x' G L. destruct (calm_view _ _ _ _ _ _ H C G) as [(x & G0 & _ & _ & Es & _)|(_ & _ & Es & _)]; [|congruence].
    destruct (k_s st K b x G0) as (r & t & I); [congruence|]. exists r, t. eapply calm_in_stack; eauto.
  - intros b x' G L. destruct (calm_view _ _ _ _ _ _ H C G) as [(x & G0 & _ & _ & _ & Ek)|(_ & _ & _ & Ek)]; [|congruence].
    destruct (k_k st K b x G0) as [(r & t & I)|(i & t & I)]; [congruence|left|right].
    + exists r, t. eapply calm_in_stack; eauto.
    + exists i, t. eapply calm_in_dstack; eauto.
  - intros r i b t t' I J. apply (calm_in_stack _ _ _ _ _ _ H C) in I. apply (calm_in_dstack _ _ _ _ _ _ _ H C) in J. eapply (k_rd st K); eauto.
  - intros i j b t t' I J. apply (calm_in_dstack _ _ _ _ _ _ _ H C) in I. apply (calm_in_dstack _ _ _ _ _ _ _ H C) in J. eapply (k_dd st K); eauto.
Qed.

(** Steps of a bus thread. *)
Definition act_s (a : lact) (y : nat) (old : bool) : bool :=
  match a with
  | AS b v => if Nat.eqb b y then v else old
  | AUnwind stk => old && negb (existsb (holds_s y) stk)
  | _ => old
  end.
Definition act_k (a : lact) (y : nat) (old : bool) : bool :=
  match a with
  | AK b v => if Nat.eqb b y then v else old
  | AUnwind stk => old && negb (existsb (holds_k y) stk)
  | _ => old
  end.

Lemma ret_call_get l rn st y : get_bus (ret_call l rn st) y = get_bus st y.
Proof. destruct l; simpl; auto. destruct rn as [| | | |m stk [c|] rest]; auto. apply get_after_call. Qed.
Lemma ret_call_detaches l rn st : s_detaches (ret_call l rn st) = s_detaches st.
Proof. destruct l; simpl; auto. destruct rn as [| | | |m stk [c|] rest]; auto. apply detaches_after_call. Qed.
Lemma ret_call_subs l rn st : s_subs (ret_call l rn st) = s_subs st.
Proof. destruct l; simpl; auto. destruct rn as [| | | |m stk [c|] rest]; auto. apply subs_after_call. Qed.
Lemma ret_call_flights l rn st : s_flights (ret_call l rn st) = s_flights st.
Proof. destruct l; simpl; auto. destruct rn as [| | | |m stk [c|] rest]; auto. apply flights_after_call. Qed.

Lemma act_rest r a st :
  length (s_buses (apply_act r a st)) = length (s_buses st) /\
  s_subs (apply_act r a st) = s_subs st /\ s_pubs (apply_act r a st) = s_pubs st /\ s_provs (apply_act r a st) = s_provs st /\
  s_conss (apply_act r a st) = s_conss st /\ s_flights (apply_act r a st) = s_flights st /\ s_detaches (apply_act r a st) = s_detaches st.
Proof. destruct a; simpl; acc; auto 10. Qed.

Definition after_run (r : nat) (rn : runner) (act : lact) (l : label) (old : runner) (st : state) : state :=
  ret_call l old (upd_bus r (with_runner rn) (apply_act r act st)).

Lemma run_view r rn act l old st y :
  get_bus (after_run r rn act l old st) y =
  option_map (fun x =>
    mkBus (b_name x) (b_kids x) (b_fn x) (b_run x) (b_root x) (b_subs x) (b_pubs x)
      (act_s act y (b_slock x)) (act_k act y (b_klock x))
      (match act with ADrain => if Nat.eqb r y then [] else b_queue x | _ => b_queue x end) (b_count x)
      (if Nat.eqb r y then rn else b_runner x)) (get_bus st y).
Proof.
  unfold after_run. rewrite ret_call_get, get_upd.
  destruct act as [|b v|b v|stk|]; simpl; acc; destruct (get_bus st y) as [x|]; simpl;
    repeat match goal with |- context [if Nat.eqb ?a ?b then _ else _] => destruct (Nat.eqb_spec a b); subst; simpl end;
    unfold with_runner, with_slock, with_klock, with_queue; simpl; try reflexivity; try congruence.
  all: destruct x; reflexivity.
Qed.

Lemma run_rest r rn act l old st :
  s_subs (after_run r rn act l old st) = s_subs st /\ s_detaches (after_run r rn act l old st) = s_detaches st /\
  s_flights (after_run r rn act l old st) = s_flights st.
Proof.
  unfold after_run. destruct (act_rest r act st) as (_ & E1 & _ & _ & _ & E2 & E3).
  rewrite ret_call_subs, ret_call_detaches, ret_call_flights. acc. auto.
Qed.

Lemma holds_s_in y stk : existsb (holds_s y) stk = true <-> exists t, In (FSubs y t) stk.
Proof.
  rewrite existsb_exists. split.
  - intros ([b t|b|b t] & I & E); simpl in E; try discriminate. apply Nat.eqb_eq in E as ->. eauto.
  - intros (t & I). exists (FSubs y t). split; auto. simpl. apply Nat.eqb_refl.
Qed.
Lemma holds_k_in y stk : existsb (holds_k y) stk = true <-> exists t, In (FKids y t) stk.
Proof.
  rewrite existsb_exists. split.
  - intros ([b t|b|b t] & I & E); simpl in E; try discriminate. apply Nat.eqb_eq in E as ->. eauto.
  - intros (t & I). exists (FKids y t). split; auto. simpl. apply Nat.eqb_refl.
Qed.

(** A released lock was held by a frame of the stepping thread. *)
Lemma rel_s st r x l old rn act evs y v :
  rcase st r x l old rn act evs -> v = true -> act_s act y v = false -> exists t, In (FSubs y t) (stack_of old).
Proof.
  intros R -> A; destruct R; simpl in A; try discriminate.
  - destruct (Nat.eqb r y); discriminate.
  - destruct (Nat.eqb_spec b y) as [->|]; [|discriminate]. simpl; eauto.
  - change (negb (Nat.eqb b y || existsb (holds_s y) stk) = false) in A. apply negb_false_iff in A.
    apply orb_true_iff in A as [A|A].
    + apply Nat.eqb_eq in A as ->. simpl; eauto.
    + apply holds_s_in in A as (t & I). simpl; eauto.
  - destruct (Nat.eqb k y); discriminate.
  - apply negb_false_iff in A. apply holds_s_in in A as (t & I). simpl; eauto.
Qed.

Lemma rel_k st r x l old rn act evs y v :
  rcase st r x l old rn act evs -> v = true -> act_k act y v = false -> exists t, In (FKids y t) (stack_of old).
Proof.
  intros R -> A; destruct R; simpl in A; try discriminate.
  - apply negb_false_iff in A. apply holds_k_in in A as (t & I). simpl; eauto.
  - destruct (Nat.eqb b y); discriminate.
  - destruct (Nat.eqb_spec b y) as [->|]; [|discriminate]. simpl; eauto.
  - apply negb_false_iff in A. apply holds_k_in in A as (t & I). simpl; eauto.
Qed.

(** A frame of the stepping thread survives, or its lock is released. *)
Lemma surv_s st r x l old rn act evs y t v :
  rcase st r x l old rn act evs -> In (FSubs y t) (stack_of old) -> act_s act y v = true -> exists t', In (FSubs y t') (stack_of rn).
Proof.
  intros R I A. destruct R; simpl in *; try contradiction; eauto.
  - destruct I as [[= -> <-]|I]; [rewrite Nat.eqb_refl in A; discriminate|eauto].
  - destruct I as [[= -> <-]|I]; eauto.
  - destruct I as [[= -> <-]|I]; eauto.
  - destruct I as [[= -> <-]|I]; eauto.
  - exfalso. change (v && negb (Nat.eqb b y || existsb (holds_s y) stk) = true) in A. apply andb_true_iff in A as [_ A].
    apply negb_true_iff, orb_false_iff in A as [A1 A2].
    destruct I as [[= -> <-]|I]; [now rewrite Nat.eqb_refl in A1|].
    rewrite (proj2 (holds_s_in y stk)) in A2; [discriminate|eauto].
  - destruct I as [I|I]; [discriminate|eauto].
  - destruct I as [I|I]; [discriminate|eauto].
  - destruct I as [I|I]; [discriminate|eauto].
  - destruct I as [I|I]; [discriminate|eauto].
  - exfalso. apply andb_true_iff in A as [_ A]. apply negb_true_iff in A.
    rewrite (proj2 (holds_s_in y stk)) in A; [discriminate|eauto].
Qed.

Lemma surv_k st r x l old rn act evs y t v :
  rcase st r x l old rn act evs -> In (FKids y t) (stack_of old) -> act_k act y v = true -> exists t', In (FKids y t') (stack_of rn).
Proof.
  intros R I A. destruct R; simpl in *; try contradiction; eauto.
  - destruct I as [I|I]; [discriminate|eauto].
  - destruct I as [I|I]; [discriminate|eauto].
  - destruct I as [I|I]; [discriminate|eauto].
  - destruct I as [I|I]; [discriminate|eauto].
  - exfalso. apply andb_true_iff in A as [_ A]. apply negb_true_iff in A.
    destruct I as [I|I]; [discriminate|].
    rewrite (proj2 (holds_k_in y stk)) in A; [discriminate|eauto].
  - destruct I as [I|I]; [discriminate|eauto].
  - destruct I as [[= -> <-]|I]; [rewrite Nat.eqb_refl in A; discriminate|eauto].
  - destruct I as [[= -> <-]|I]; eauto.
  - destruct I as [[= -> <-]|I]; eauto.
  - exfalso. apply andb_true_iff in A as [_ A]. apply negb_true_iff in A.
    rewrite (proj2 (holds_k_in y stk)) in A; [discriminate|eauto].
Qed.

(** A frame of the new stack that holds the children lock is old or was just acquired. *)
Lemma born_k st r x l old rn act evs y t :
  rcase st r x l old rn act evs -> In (FKids y t) (stack_of rn) ->
  (exists t', In (FKids y t') (stack_of old)) \/ (exists z, get_bus st y = Some z /\ b_klock z = false).
Proof.
  intros R I. destruct R; simpl in *; try contradiction; eauto;
    repeat match goal with H : _ \/ _ |- _ => destruct H as [H|H]; try discriminate H; try (injection H as -> <-) end; eauto; try contradiction.
Qed.

(** Preservation of the lock invariant by threads inside Detach; the combined
    invariant of reachable states. *)
From Coq Require Import String Ascii List Arith ZArith Bool Lia.
From Verif Require Import Prelude OMap DatagramModel DatagramSpec BusModel BusSpec BusProofs BusTree BusLocks BusLocks2.
Import ListNotations.
Open Scope list_scope.

Inductive dact : Type := DTake (b : nat) | DFree (b : nat) | DCut (k : nat).

Definition apply_dact (a : dact) (st : state) : state :=
  match a with
  | DTake b => upd_bus b (with_klock true) st
  | DFree b => upd_bus b (with_klock false) st
  | DCut k => upd_bus k (fun x => with_fn None (with_run false x)) st
  end.

Inductive dcase (st : state) : list dframe -> list dframe -> dact -> list event -> Prop :=
| dc_lock b x stk : get_bus st b = Some x -> b_klock x = false ->
    dcase st (DLock b :: stk) (DKids b (map snd (b_kids x)) :: stk) (DTake b) []
| dc_done b stk : dcase st (DKids b [] :: stk) stk (DFree b) (match stk with [] => [EvRes (Ok RNone)] | _ => [] end)
| dc_kid b k ks stk : dcase st (DKids b (k :: ks) :: stk) (DLock k :: DKids b ks :: stk) (DCut k) [].

Definition after_detach (i : nat) (ds : list dframe) (a : dact) (st : state) : state :=
  set_detaches (list_set i ds (s_detaches st)) (apply_dact a st).

Lemma detach_inv i st st' evs :
  step (LDetachStep i) st = Some (st', evs) ->
  exists ds ds' a, nth_error (s_detaches st) i = Some ds /\ dcase st ds ds' a evs /\ st' = after_detach i ds' a st.
Proof.
  simpl. unfold detach_step. destruct (nth_error (s_detaches st) i) as [[|[b|b [|k ks]] stk]|] eqn:N; try discriminate.
  - destruct (get_bus st b) as [x|] eqn:G; [|discriminate]. destruct (b_klock x) eqn:L; [discriminate|].
    intros [= <- <-]. do 3 eexists. split; [reflexivity|]. split; [econstructor; eauto|].
    unfold after_detach, apply_dact, upd_bus. rewrite G. reflexivity.
  - intros [= <- <-]. do 3 eexists. split; [reflexivity|]. split; [econstructor; eauto|].
    unfold after_detach, apply_dact. now rewrite detaches_upd.
  - intros [= <- <-]. do 3 eexists. split; [reflexivity|]. split; [econstructor; eauto|].
    unfold after_detach, apply_dact. now rewrite detaches_upd.
Qed.

Definition dact_k (a : dact) (y : nat) (old : bool) : bool :=
  match a with
  | DTake b => if Nat.eqb b y then true else old
  | DFree b => if Nat.eqb b y then false else old
  | DCut _ => old
  end.
Definition dact_cut (a : dact) (y : nat) : bool := match a with DCut k => Nat.eqb k y | _ => false end.

Lemma detach_view i ds a st y :
  get_bus (after_detach i ds a st) y =
  option_map (fun x =>
    mkBus (b_name x) (b_kids x) (if dact_cut a y then None else b_fn x) (if dact_cut a y then false else b_run x)
      (b_root x) (b_subs x) (b_pubs x) (b_slock x) (dact_k a y (b_klock x)) (b_queue x) (b_count x) (b_runner x)) (get_bus st y).
Proof.
  unfold after_detach. rewrite get_set_detaches.
  destruct a; simpl; rewrite get_upd; destruct (get_bus st y) as [x|]; simpl;
    match goal with |- context [Nat.eqb ?a ?b] => destruct (Nat.eqb_spec a b); subst; simpl end; auto.
  all: destruct x; reflexivity.
Qed.

Lemma detach_rest i ds a st :
  s_subs (after_detach i ds a st) = s_subs st /\ s_detaches (after_detach i ds a st) = list_set i ds (s_detaches st) /\
  s_flights (after_detach i ds a st) = s_flights st.
Proof. unfold after_detach. destruct a; simpl; acc; auto. Qed.

Lemma lock_detach i st st' evs :
  tree_inv st -> lock_inv st -> step (LDetachStep i) st = Some (st', evs) -> lock_inv st'.
Proof.
  intros T K H. destruct (detach_inv _ _ _ _ H) as (ds & ds' & a & N & R & E).
  destruct (detach_rest i ds' a st) as (_ & Edet & _). rewrite <- E in Edet.
  assert (forall y x', get_bus st' y = Some x' -> exists x0, get_bus st y = Some x0 /\
     b_slock x' = b_slock x0 /\ b_klock x' = dact_k a y (b_klock x0) /\
     b_subs x' = b_subs x0 /\ b_kids x' = b_kids x0 /\ b_runner x' = b_runner x0) as V.
  { intros y x' G'. rewrite E, detach_view in G'. destruct (get_bus st y) as [x0|]; [|discriminate].
    simpl in G'. injection G' as <-. exists x0. simpl. repeat split; auto. }
  assert (forall y x0, get_bus st y = Some x0 -> exists x', get_bus st' y = Some x' /\
     b_slock x' = b_slock x0 /\ b_klock x' = dact_k a y (b_klock x0) /\
     b_subs x' = b_subs x0 /\ b_kids x' = b_kids x0 /\ b_runner x' = b_runner x0) as W.
  { intros y x0 G0. destruct (step_get _ _ _ _ _ _ H G0) as (x' & G'). exists x'. split; auto.
    destruct (V _ _ G') as (x1 & G1 & Q). rewrite G0 in G1. injection G1 as <-. auto. }
  assert (forall r f, in_stack st' r f <-> in_stack st r f) as IS.
  { intros r f. split; intros (y & Gy & I).
    - destruct (V _ _ Gy) as (y0 & Gy0 & _ & _ & _ & _ & Er). exists y0. rewrite <- Er. auto.
    - destruct (W _ _ Gy) as (y0 & Gy0 & _ & _ & _ & _ & Er). exists y0. rewrite Er. auto. }
  assert (forall j f, j <> i -> in_dstack st' j f <-> in_dstack st j f) as IO.
  { intros j f Hne. unfold in_dstack. rewrite Edet, list_set_ne by auto. tauto. }
  assert (forall f, in_dstack st' i f <-> In f ds') as II.
  { intros f. unfold in_dstack. rewrite Edet, list_set_eq by (apply nth_error_Some; congruence). split; [|eauto].
    intros (d & [= <-] & I). auto. }
  assert (forall y v, v = true -> dact_k a y v = false -> exists t, In (DKids y t) ds) as RK.
  { intros y v -> A. destruct R; simpl in A; try discriminate.
    - destruct (Nat.eqb b y); discriminate.
    - destruct (Nat.eqb_spec b y) as [->|]; [|discriminate]. simpl; eauto. }
  assert (dstack_ok st ds) as S by (eapply (k_dstack st K); eauto).
  constructor.
  - intros r x' G'. destruct (V _ _ G') as (x0 & G0 & _ & _ & _ & _ & ->).
    pose proof (k_stack st K _ _ G0) as S0. eapply stack_keep; eauto.
    intros f x1 I G1. destruct (V _ _ G1) as (x2 & G2 & Es & Ek & _).
    pose proof (frame_lock _ _ _ (stack_frame _ _ _ f S0 I) G2) as L.
    destruct f as [b t|b|b t]; simpl in *; auto; [congruence|].
    rewrite Ek. destruct (dact_k a b (b_klock x2)) eqn:A; auto. exfalso.
    destruct (RK _ _ L A) as (t' & I'). eapply (k_rd st K r i b t t').
    + exists x0; auto.
    + exists ds; auto.
  - intros r x' c G' C. destruct (V _ _ G') as (x0 & G0 & _ & _ & _ & _ & Er). rewrite Er in *. eapply (k_call st K); eauto.
  - intros j d Nj. rewrite Edet in Nj. destruct (Nat.eq_dec j i) as [->|Hne].
    + rewrite list_set_eq in Nj by (apply nth_error_Some; congruence). injection Nj as <-.
      assert (forall f0 stk, ds = f0 :: stk -> forall f x1, In f stk -> get_bus st' (dframe_bus f) = Some x1 -> dlock_on f x1 = true) as TL.
      { intros f0 stk Ed f x1 I G1. rewrite Ed in S. destruct (dstack_above _ _ _ _ T S I) as [_ Lt].
        destruct (V _ _ G1) as (x2 & G2 & _ & Ek & _).
        pose proof (dframe_lock _ _ _ (dstack_frame _ _ f S (or_intror I)) G2) as L.
        destruct f as [b1|b1 t1]; simpl in *; auto. rewrite Ek.
        destruct R; injection Ed as <- <-; simpl in *; auto;
          destruct (Nat.eqb_spec b b1); subst; auto; lia. }
      destruct R.
      * destruct (W _ _ H0) as (x' & G' & _ & Ek & _ & Ekd & _). simpl in Ek. rewrite Nat.eqb_refl in Ek.
        assert (dframe_ok st' (DKids b (map snd (b_kids x)))) as F'.
        { exists x', []. repeat split; auto. simpl. now rewrite Ekd. }
        inversion S as [|? F|? p todo ? xp pre F Gp M S']; subst.
        -- constructor; auto.
        -- destruct (W _ _ Gp) as (xp' & Gp' & _ & _ & _ & Ekp & _).
           apply dk_push with xp' pre; auto.
           ++ rewrite Ekp. exact M.
           ++ eapply dstack_keep; eauto.
      * eapply dstack_keep; eauto. eapply dstack_tail; eauto.
      * pose proof (dstack_frame _ _ _ S (or_introl eq_refl)) as (z & pre & Gz & Lz & Mz).
        destruct (W _ _ Gz) as (z' & Gz' & Esz & Ekz & _ & Ekdz & _).
        assert (kid st b k) as Kk by (exists z; split; auto; rewrite Mz; apply in_elt).
        pose proof (t_lt st T _ _ Kk) as [_ Lk].
        destruct (nth_error (s_buses st) k) as [xk|] eqn:Gk; [|apply nth_error_None in Gk; lia].
        destruct (W _ _ Gk) as (xk' & Gk' & _).
        apply dk_push with z' pre; auto.
        -- simpl. eauto.
        -- simpl. congruence.
        -- assert (dstack_ok st (DKids b ks :: stk)) as S2.
           { inversion S as [|? F|? p todo ? xp pre0 F Gp M S']; subst.
             - constructor; auto. exists z, (pre ++ [k]). rewrite <- app_assoc. auto.
             - apply dk_push with xp pre0; auto. exists z, (pre ++ [k]). rewrite <- app_assoc. auto. }
           eapply dstack_keep; eauto. intros f x1 I G1. destruct I as [<-|I].
           ++ simpl in *. rewrite Gz' in G1. injection G1 as <-. congruence.
           ++ eapply TL; eauto.
    + rewrite list_set_ne in Nj by auto. pose proof (k_dstack st K _ _ Nj) as Sj. eapply dstack_keep; eauto.
      intros f x1 I G1. destruct (V _ _ G1) as (x2 & G2 & _ & Ek & _).
      pose proof (dframe_lock _ _ _ (dstack_frame _ _ f Sj I) G2) as L.
      destruct f as [b|b t]; simpl in *; auto. rewrite Ek. destruct (dact_k a b (b_klock x2)) eqn:A; auto. exfalso.
      destruct (RK _ _ L A) as (t' & I'). apply Hne. eapply (k_dd st K j i b t t').
      * exists d; auto.
      * exists ds; auto.
  - intros b x' G' L. destruct (V _ _ G') as (x0 & G0 & Es & _). rewrite Es in L.
    destruct (k_s st K _ _ G0 L) as (r & t & I). exists r, t. apply IS; auto.
  - intros b x' G' L. destruct (V _ _ G') as (x0 & G0 & _ & Ek & _). rewrite Ek in L.
    destruct (b_klock x0) eqn:L0.
    + destruct (k_k st K _ _ G0 L0) as [(r & t & I)|(j & t & I)].
      * left. exists r, t. apply IS; auto.
      * right. destruct (Nat.eq_dec j i) as [->|Hne].
        -- destruct I as (d & Nd & I). rewrite N in Nd. injection Nd as <-.
           assert (exists t', In (DKids b t') ds') as (t' & I').
           { destruct R; simpl in *.
             - destruct I as [I|I]; [discriminate|eauto].
             - destruct I as [[= -> <-]|I]; [rewrite Nat.eqb_refl in L; discriminate|eauto].
             - destruct I as [[= -> <-]|I]; eauto. }
           exists i, t'. apply II. auto.
        -- exists j, t. apply IO; auto.
    + destruct R; simpl in L; try discriminate.
      * destruct (Nat.eqb_spec b0 b) as [<-|]; [|discriminate]. right. eexists i, _. apply II. simpl; eauto.
      * destruct (Nat.eqb_spec b0 b); discriminate.
  - assert (forall b t, In (DKids b t) ds' -> (exists t', In (DKids b t') ds) \/ (exists z, get_bus st b = Some z /\ b_klock z = false)) as BK.
    { intros b t I. destruct R; simpl in I.
      - destruct I as [[= -> <-]|I]; [eauto|left; exists t; simpl; auto].
      - left; exists t; simpl; auto.
      - destruct I as [I|[[= -> <-]|I]]; [discriminate|left; eexists; simpl; eauto|left; exists t; simpl; auto]. }
    intros r j b t t' I J. apply IS in I. destruct (Nat.eq_dec j i) as [->|Hne].
    + apply II in J. destruct (BK _ _ J) as [(t2 & I2)|(z & Gz & Lz)].
      * eapply (k_rd st K r i b t t2); auto. exists ds; auto.
      * destruct I as (xr & Gr & I). destruct (stack_frame _ _ _ _ (k_stack st K _ _ Gr) I) as (z' & pre & Gz' & Lz' & _). congruence.
    + apply IO in J; auto. eapply (k_rd st K); eauto.
  - assert (forall b t, In (DKids b t) ds' -> (exists t', In (DKids b t') ds) \/ (exists z, get_bus st b = Some z /\ b_klock z = false)) as BK.
    { intros b t I. destruct R; simpl in I.
      - destruct I as [[= -> <-]|I]; [eauto|left; exists t; simpl; auto].
      - left; exists t; simpl; auto.
      - destruct I as [I|[[= -> <-]|I]]; [discriminate|left; eexists; simpl; eauto|left; exists t; simpl; auto]. }
    assert (forall j b t t', j <> i -> in_dstack st j (DKids b t) -> In (DKids b t') ds' -> False) as X.
    { intros j b t t' Hne I J. destruct (BK _ _ J) as [(t2 & I2)|(z & Gz & Lz)].
      - apply Hne. eapply (k_dd st K j i b t t2); auto. exists ds; auto.
      - destruct I as (dj & Nj & I). destruct (dstack_frame _ _ _ (k_dstack st K _ _ Nj) I) as (z' & pre & Gz' & Lz' & _). congruence. }
    intros j j' b t t' I J. destruct (Nat.eq_dec j i) as [->|Hne], (Nat.eq_dec j' i) as [->|Hne']; auto.
    + exfalso. apply II in I. apply IO in J; auto. eapply X; eauto.
    + exfalso. apply II in J. apply IO in I; auto. eapply X; eauto.
    + apply IO in I; auto. apply IO in J; auto. eapply (k_dd st K); eauto.
Qed.

Lemma lock_init : lock_inv init.
Proof.
  assert (forall b, get_bus init b = None) as N by (intros [|b]; reflexivity).
  assert (forall i, nth_error (s_detaches init) i = None) as M by (intros [|i]; reflexivity).
  constructor; try (intros; rewrite ?N, ?M in *; discriminate).
  - intros r i b t t' (x & G & _). rewrite N in G. discriminate.
  - intros i j b t t' (x & G & _). rewrite M in G. discriminate.
Qed.

Lemma lock_step l st st' evs : tree_inv st -> lock_inv st -> step l st = Some (st', evs) -> lock_inv st'.
Proof.
  intros T K H. destruct l; try (eapply lock_calm; eauto; exact I).
  - eapply lock_detach; eauto.
  - eapply lock_run; eauto. reflexivity.
  - eapply lock_run; eauto. reflexivity.
  - eapply lock_run; eauto. reflexivity.
Qed.

Lemma reach_lock st : reach st -> lock_inv st.
Proof.
  revert st. apply reach_ind; [apply lock_init|]. intros l st st' evs R K H. eapply lock_step; eauto using reach_tree.
Qed.

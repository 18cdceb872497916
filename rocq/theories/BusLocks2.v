(** Preservation of the lock invariant by bus threads and by Detach. *)
From Coq Require Import String Ascii List Arith ZArith Bool Lia.
From Verif Require Import Prelude OMap DatagramModel DatagramSpec BusModel BusSpec BusProofs BusTree BusLocks.
Import ListNotations.
Open Scope list_scope.

Lemma run_inv' l r st st' evs :
  step l st = Some (st', evs) -> runner_label l r ->
  exists x rn act, get_bus st r = Some x /\ rcase st r x l (b_runner x) rn act evs /\ st' = after_run r rn act l (b_runner x) st.
Proof. apply run_inv. Qed.

(** What a thread's step does to another thread's frames: nothing. *)
Lemma run_other_lock st r x l rn act evs f x0 :
  tree_inv st -> lock_inv st -> get_bus st r = Some x -> rcase st r x l (b_runner x) rn act evs ->
  (exists r', r' <> r /\ in_stack st r' f) -> get_bus st (frame_bus f) = Some x0 ->
  lock_on f (mkBus (b_name x0) (b_kids x0) (b_fn x0) (b_run x0) (b_root x0) (b_subs x0) (b_pubs x0)
      (act_s act (frame_bus f) (b_slock x0)) (act_k act (frame_bus f) (b_klock x0)) (b_queue x0) (b_count x0) (b_runner x0)) = true.
Proof.
  intros T K G R (r' & Hne & I) G0.
  assert (frame_ok st f) as F by (destruct I as (y & Gy & I); apply (stack_frame st r' _ f (k_stack st K _ _ Gy) I)).
  pose proof (frame_lock _ _ _ F G0) as L.
  destruct f as [b t|b|b t]; simpl in *; auto.
  - destruct (act_s act b (b_slock x0)) eqn:A; auto. exfalso.
    destruct (rel_s _ _ _ _ _ _ _ _ _ _ R L A) as (t' & I'). apply Hne.
    apply (in_stack_unique st r' r (FSubs b t) (FSubs b t')); auto. exists x; auto.
  - destruct (act_k act b (b_klock x0)) eqn:A; auto. exfalso.
    destruct (rel_k _ _ _ _ _ _ _ _ _ _ R L A) as (t' & I'). apply Hne.
    apply (in_stack_unique st r' r (FKids b t) (FKids b t')); auto. exists x; auto.
Qed.


Lemma lock_run l r st st' evs :
  tree_inv st -> lock_inv st -> step l st = Some (st', evs) -> runner_label l r -> lock_inv st'.
Proof.
  intros T K H RL.
  destruct (run_inv' _ _ _ _ _ H RL) as (x & rn & act & G & R & E).
  destruct (run_rest r rn act l (b_runner x) st) as (Esub & Edet & _). rewrite <- E in Esub, Edet.
  assert (forall y x', get_bus st' y = Some x' -> exists x0, get_bus st y = Some x0 /\
     b_slock x' = act_s act y (b_slock x0) /\ b_klock x' = act_k act y (b_klock x0) /\
     b_subs x' = b_subs x0 /\ b_kids x' = b_kids x0 /\ b_runner x' = if Nat.eqb r y then rn else b_runner x0) as V.
  { intros y x' G'. rewrite E, run_view in G'. destruct (get_bus st y) as [x0|]; [|discriminate].
    simpl in G'. injection G' as <-. exists x0. simpl. repeat split; auto. }
  assert (forall y x0, get_bus st y = Some x0 -> exists x', get_bus st' y = Some x' /\
     b_slock x' = act_s act y (b_slock x0) /\ b_klock x' = act_k act y (b_klock x0) /\
     b_subs x' = b_subs x0 /\ b_kids x' = b_kids x0 /\ b_runner x' = if Nat.eqb r y then rn else b_runner x0) as W.
  { intros y x0 G0. destruct (step_get _ _ _ _ _ _ H G0) as (x' & G'). exists x'. split; auto.
    destruct (V _ _ G') as (x1 & G1 & Q). rewrite G0 in G1. injection G1 as <-. auto. }
  assert (forall f r', r' <> r -> in_stack st' r' f <-> in_stack st r' f) as IO.
  { intros f r' Hne. split; intros (y & Gy & I).
    - destruct (V _ _ Gy) as (y0 & Gy0 & _ & _ & _ & _ & Er). rewrite (proj2 (Nat.eqb_neq r r')) in Er by auto. exists y0. rewrite <- Er. auto.
    - destruct (W _ _ Gy) as (y0 & Gy0 & _ & _ & _ & _ & Er). rewrite (proj2 (Nat.eqb_neq r r')) in Er by auto. exists y0. rewrite Er. auto. }
  assert (forall f, in_stack st' r f <-> In f (stack_of rn)) as IR.
  { intros f. destruct (W _ _ G) as (x' & G' & _ & _ & _ & _ & Er). rewrite Nat.eqb_refl in Er. split.
    - intros (y & Gy & I). congruence.
    - intros I. exists x'. rewrite Er. auto. }
  assert (forall i f, in_dstack st' i f <-> in_dstack st i f) as ID by (intros i f; unfold in_dstack; now rewrite Edet).
  assert (forall f r' x', r' <> r -> in_stack st r' f -> get_bus st' (frame_bus f) = Some x' -> lock_on f x' = true) as OL.
  { intros f r' x' Hne I G'. destruct (V _ _ G') as (x0 & G0 & Es & Ek & _).
    pose proof (run_other_lock _ _ _ _ _ _ _ f x0 T K G R (ex_intro _ r' (conj Hne I)) G0) as Q.
    destruct f; simpl in *; auto; congruence. }
  constructor.
  - intros r' x' G'. destruct (V _ _ G') as (x0 & G0 & _ & _ & _ & _ & Er).
    destruct (Nat.eqb_spec r r') as [<-|Hne].
    + (* the stepping thread *)
      rewrite G in G0. injection G0 as <-. rewrite Er. clear Er.
      pose proof (k_stack st K _ _ G) as S.
      (* own tail frames *)
      assert (forall f0 stk, stack_of (b_runner x) = f0 :: stk ->
                (forall s, act <> AUnwind s) ->
                forall f x1, In f stk -> get_bus st' (frame_bus f) = Some x1 -> lock_on f x1 = true) as TL.
      { intros f0 stk ES U f x1 I G1. rewrite ES in S. destruct (stack_above _ _ _ _ _ T S I) as [_ L].
        destruct (V _ _ G1) as (x2 & G2 & Es & Ek & _).
        pose proof (frame_lock _ _ _ (stack_frame _ _ _ f S (or_intror I)) G2) as Lk.
        destruct R; simpl in ES; try discriminate ES; try (injection ES as <- <-); simpl in Es, Ek, L; destruct f as [b1 t1|b1|b1 t1]; simpl in *; auto;
          try congruence;
          repeat match type of Es with _ = if Nat.eqb ?a ?b then _ else _ => destruct (Nat.eqb_spec a b); subst; try lia end;
          repeat match type of Ek with _ = if Nat.eqb ?a ?b then _ else _ => destruct (Nat.eqb_spec a b); subst; try lia end; try congruence;
          exfalso; eapply U; reflexivity. }
      destruct R; simpl in S, TL |- *; try constructor; try exact S; auto.
      * (* begin *) simpl. destruct (W _ _ G) as (x1 & G1 & Es & _ & Eb & _). simpl in Es. rewrite Nat.eqb_refl in Es.
        exists x1, []. repeat split; auto.
      * (* subs end *) 
        inversion S as [|? Ef F|? p todo ? xp pre F Gp M S']; subst.
        -- constructor; auto. destruct F as (z & pre & Gz & _). destruct (W _ _ Gz) as (z' & Gz' & _). simpl. eauto.
        -- destruct (W _ _ Gp) as (xp' & Gp' & _ & _ & _ & Ekd & _).
           apply sk_push with xp' pre; auto.
           ++ destruct F as (z & pre' & Gz & _). destruct (W _ _ Gz) as (z' & Gz' & _). simpl. eauto.
           ++ rewrite Ekd. exact M.
           ++ eapply stack_keep; eauto. eapply TL; eauto. discriminate.
      * (* other topic *)
        assert (stack_ok st r (FSubs b ss :: stk)) as S2.
        { inversion S as [|? Ef F|? p todo ? xp pre F Gp M S']; subst.
          - constructor; auto. destruct F as (z & pre & Gz & Lz & Ez). exists z, (pre ++ [s]). rewrite <- app_assoc. auto.
          - apply sk_push with xp pre; auto. destruct F as (z & pre' & Gz & Lz & Ez). exists z, (pre' ++ [s]). rewrite <- app_assoc. auto. }
        eapply stack_keep; eauto. intros f x1 I G1. destruct (V _ _ G1) as (x2 & G2 & Es & Ek & _).
        pose proof (frame_lock _ _ _ (stack_frame _ _ _ f S2 I) G2). destruct f; simpl in *; auto; congruence.
      * assert (stack_ok st r (FSubs b ss :: stk)) as S2.
        { inversion S as [|? Ef F|? p todo ? xp pre F Gp M S']; subst.
          - constructor; auto. destruct F as (z & pre & Gz & Lz & Ez). exists z, (pre ++ [s]). rewrite <- app_assoc. auto.
          - apply sk_push with xp pre; auto. destruct F as (z & pre' & Gz & Lz & Ez). exists z, (pre' ++ [s]). rewrite <- app_assoc. auto. }
        eapply stack_keep; eauto. intros f x1 I G1. destruct (V _ _ G1) as (x2 & G2 & Es & Ek & _).
        pose proof (frame_lock _ _ _ (stack_frame _ _ _ f S2 I) G2). destruct f; simpl in *; auto; congruence.
      * assert (stack_ok st r (FSubs b ss :: stk)) as S2.
        { inversion S as [|? Ef F|? p todo ? xp pre F Gp M S']; subst.
          - constructor; auto. destruct F as (z & pre & Gz & Lz & Ez). exists z, (pre ++ [s]). rewrite <- app_assoc. auto.
          - apply sk_push with xp pre; auto. destruct F as (z & pre' & Gz & Lz & Ez). exists z, (pre' ++ [s]). rewrite <- app_assoc. auto. }
        eapply stack_keep; eauto. intros f x1 I G1. destruct (V _ _ G1) as (x2 & G2 & Es & Ek & _).
        pose proof (frame_lock _ _ _ (stack_frame _ _ _ f S2 I) G2). destruct f; simpl in *; auto; congruence.
      * (* children lock taken *)
        destruct (W _ _ H0) as (y' & Gy' & _ & Ek & _ & Ekd & _). simpl in Ek. rewrite Nat.eqb_refl in Ek.
        assert (frame_ok st' (FKids b (map snd (b_kids y)))) as F'.
        { exists y', []. repeat split; auto. simpl. now rewrite Ekd. }
        inversion S as [|? Ef F|? p todo ? xp pre F Gp M S']; subst.
        -- constructor; auto.
        -- destruct (W _ _ Gp) as (xp' & Gp' & _ & _ & _ & Ekp & _).
           apply sk_push with xp' pre; auto.
           ++ rewrite Ekp. exact M.
           ++ eapply stack_keep; eauto. eapply TL; eauto. discriminate.
      * (* children done *)
        eapply stack_keep; eauto; [eapply stack_tail; eauto|]. eapply TL; eauto. discriminate.
      * (* child entered *)
        destruct (W _ _ H0) as (y' & Gy' & Es & _ & Eb & _). simpl in Es. rewrite Nat.eqb_refl in Es.
        pose proof (stack_frame _ _ _ _ S (or_introl eq_refl)) as (z & pre & Gz & Lz & Mz).
        destruct (W _ _ Gz) as (z' & Gz' & Esz & Ekz & _ & Ekdz & _).
        apply sk_push with z' pre; auto.
        -- exists y', []. repeat split; auto.
        -- simpl. congruence.
        -- assert (stack_ok st r (FKids b ks :: stk)) as S2.
           { inversion S as [|? Ef F|? p todo ? xp pre0 F Gp M S']; subst.
             - constructor; auto. exists z, (pre ++ [k]). rewrite <- app_assoc. auto.
             - apply sk_push with xp pre0; auto. exists z, (pre ++ [k]). rewrite <- app_assoc. auto. }
           eapply stack_keep; eauto. intros f x1 I G1. destruct I as [<-|I].
           ++ simpl in *. rewrite Gz' in G1. injection G1 as <-. congruence.
           ++ eapply TL; eauto. discriminate.
      * (* stopped child skipped *)
        pose proof (stack_frame _ _ _ _ S (or_introl eq_refl)) as (z & pre & Gz & Lz & Mz).
        assert (stack_ok st r (FKids b ks :: stk)) as S2.
        { inversion S as [|? Ef F|? p todo ? xp pre0 F Gp M S']; subst.
          - constructor; auto. exists z, (pre ++ [k]). rewrite <- app_assoc. auto.
          - apply sk_push with xp pre0; auto. exists z, (pre ++ [k]). rewrite <- app_assoc. auto. }
        eapply stack_keep; eauto. intros f x1 I G1. destruct (V _ _ G1) as (x2 & G2 & Es & Ek & _).
        pose proof (frame_lock _ _ _ (stack_frame _ _ _ f S2 I) G2). destruct f; simpl in *; auto; congruence.
      * (* return *)
        eapply stack_keep; eauto. intros f x1 I G1. destruct (V _ _ G1) as (x2 & G2 & Es & Ek & _).
        pose proof (frame_lock _ _ _ (stack_frame _ _ _ f S I) G2). destruct f; simpl in *; auto; congruence.
    + rewrite Er. eapply stack_keep; eauto using (k_stack st K). intros f x1 I G1. eapply OL; eauto. exists x0; auto.
  - intros r' x' c G' C. destruct (V _ _ G') as (x0 & G0 & _ & _ & _ & _ & Er). rewrite Er in *.
    destruct (Nat.eqb_spec r r') as [<-|Hne].
    + destruct R; simpl in C; try discriminate. simpl. eauto.
    + eapply (k_call st K); eauto.
  - intros i ds N. rewrite Edet in N. eapply dstack_keep; eauto using (k_dstack st K).
    intros f x' I G'. destruct (V _ _ G') as (x0 & G0 & _ & Ek & _).
    pose proof (dframe_lock _ _ _ (dstack_frame _ _ f (k_dstack st K _ _ N) I) G0) as L.
    destruct f as [b|b t]; simpl in *; auto. rewrite Ek. destruct (act_k act b (b_klock x0)) eqn:A; auto. exfalso.
    destruct (rel_k _ _ _ _ _ _ _ _ _ _ R L A) as (t' & I'). eapply (k_rd st K r i b t' t).
    + exists x; auto.
    + exists ds; auto.
  - intros b x' G' L. destruct (V _ _ G') as (x0 & G0 & Es & _). rewrite Es in L.
    destruct (b_slock x0) eqn:L0.
    + destruct (k_s st K _ _ G0 L0) as (r' & t & I). destruct (Nat.eq_dec r' r) as [->|Hne].
      * destruct I as (x1 & G1 & I). rewrite G in G1. injection G1 as <-.
        destruct (surv_s _ _ _ _ _ _ _ _ _ _ _ R I L) as (t' & I'). exists r, t'. apply IR. auto.
      * exists r', t. apply IO; auto.
    + destruct R; simpl in L; try discriminate.
      * destruct (Nat.eqb_spec r b) as [<-|]; [|discriminate]. exists r, (b_subs x). apply IR. simpl; auto.
      * destruct (Nat.eqb_spec b0 b); discriminate.
      * destruct (Nat.eqb_spec k b) as [<-|]; [|discriminate]. exists r, (b_subs y). apply IR. simpl; auto.
  - intros b x' G' L. destruct (V _ _ G') as (x0 & G0 & _ & Ek & _). rewrite Ek in L.
    destruct (b_klock x0) eqn:L0.
    + destruct (k_k st K _ _ G0 L0) as [(r' & t & I)|(i & t & I)].
      * left. destruct (Nat.eq_dec r' r) as [->|Hne].
        -- destruct I as (x1 & G1 & I). rewrite G in G1. injection G1 as <-.
           destruct (surv_k _ _ _ _ _ _ _ _ _ _ _ R I L) as (t' & I'). exists r, t'. apply IR. auto.
        -- exists r', t. apply IO; auto.
      * right. exists i, t. apply ID; auto.
    + destruct R; simpl in L; try discriminate.
      * destruct (Nat.eqb_spec b0 b) as [<-|]; [|discriminate]. left. eexists r, _. apply IR. simpl; eauto.
      * destruct (Nat.eqb_spec b0 b); discriminate.
  - intros r' i b t t' I J. apply ID in J. destruct (Nat.eq_dec r' r) as [->|Hne].
    + apply IR in I. destruct (born_k _ _ _ _ _ _ _ _ _ _ R I) as [(t2 & I2)|(z & Gz & Lz)].
      * eapply (k_rd st K r i b t2 t'); auto. exists x; auto.
      * destruct J as (ds & N & J). destruct (dstack_frame _ _ _ (k_dstack st K _ _ N) J) as (z' & pre & Gz' & Lz' & _). congruence.
    + apply IO in I; auto. eapply (k_rd st K); eauto.
  - intros i j b t t' I J. apply ID in I. apply ID in J. eapply (k_dd st K); eauto.
Qed.

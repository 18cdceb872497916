(** The bus hierarchy: child relation, ancestry, and the invariants of the tree,
    of subscriber ownership and of publishing functions. *)
From Coq Require Import String Ascii List Arith ZArith Bool Lia.
From Verif Require Import Prelude OMap DatagramModel DatagramSpec BusModel BusSpec BusProofs.
Import ListNotations.
Open Scope list_scope.

Lemma oinsert_fresh {V} k (v : V) m :
  olookup k m = None -> exists m1 m2, m = m1 ++ m2 /\ oinsert k v m = m1 ++ (k, v) :: m2.
Proof.
  induction m as [|[k' v'] m IH]; simpl; intros H.
  - exists [], []. auto.
  - destruct (String.eqb_spec k k') as [->|Hne]; [discriminate|].
    destruct (String.compare k k') eqn:C.
    + apply scompare_eq in C. congruence.
    + exists [], ((k', v') :: m). auto.
    + destruct (IH H) as (m1 & m2 & -> & E). exists ((k', v') :: m1), m2. simpl. rewrite E. auto.
Qed.

Lemma in_snd_insert {V} k (v w : V) m :
  olookup k m = None -> In w (map snd (oinsert k v m)) <-> w = v \/ In w (map snd m).
Proof.
  intros H. destruct (oinsert_fresh k v m H) as (m1 & m2 & -> & E).
  rewrite E, !map_app, !in_app_iff; simpl. intuition.
Qed.

Lemma NoDup_snd_insert {V} k (v : V) m :
  olookup k m = None -> ~ In v (map snd m) -> NoDup (map snd m) -> NoDup (map snd (oinsert k v m)).
Proof.
  intros H Hn Hd. destruct (oinsert_fresh k v m H) as (m1 & m2 & -> & E).
  rewrite E, map_app in *; simpl. apply NoDup_Add with (a := v) (l := map snd m1 ++ map snd m2); [|split; auto].
  apply Add_app.
Qed.

Record tree_inv (st : state) : Prop := mkTree {
  t_lt : forall b k, kid st b k -> b < k < length (s_buses st);
  t_one : forall b b' k, kid st b k -> kid st b' k -> b = b';
  t_sorted : forall b x, get_bus st b = Some x -> osorted (b_kids x) /\ NoDup (map snd (b_kids x));
  t_name : forall b x name k, get_bus st b = Some x -> olookup name (b_kids x) = Some k ->
    exists y, get_bus st k = Some y /\ b_name y = name /\ b_root y = false;
  t_target : forall b x r, get_bus st b = Some x -> b_fn x = Some (ToQueue r) ->
    below st r b /\ exists y, get_bus st r = Some y /\ b_root y = true;
  t_fnkid : forall b x k y t, get_bus st b = Some x -> kid st b k -> get_bus st k = Some y -> b_fn y = Some t -> b_fn x = Some t \/ b_fn x = None;
  t_root : forall b x, get_bus st b = Some x -> b_root x = true -> b_fn x = Some (ToQueue b) \/ b_fn x = None;
  t_runner : forall b x, get_bus st b = Some x -> b_runner x <> RIdle -> b_root x = true;
  t_sublt : forall b x s, get_bus st b = Some x -> In s (b_subs x) -> s < length (s_subs st);
  t_subnd : forall b x, get_bus st b = Some x -> NoDup (b_subs x);
  t_subone : forall b x b' x' s, get_bus st b = Some x -> get_bus st b' = Some x' -> In s (b_subs x) -> In s (b_subs x') -> b = b' }.

(** Backwards view of a step on the buses: every bus afterwards was there before, or is new. *)
Lemma step_back l st st' evs y x' :
  step l st = Some (st', evs) -> get_bus st' y = Some x' ->
  (exists x, get_bus st y = Some x /\ delta l st st' y x x') \/ get_bus st y = None.
Proof.
  intros H G. destruct (get_bus st y) as [x|] eqn:E; auto. left.
  destruct (step_delta _ _ _ _ _ _ H E) as (x2 & G2 & D). rewrite G in G2. injection G2 as <-. eauto.
Qed.

Lemma step_kid_mono l st st' evs b k : step l st = Some (st', evs) -> kid st b k -> kid st' b k.
Proof.
  intros H (x & G & I). destruct (step_delta _ _ _ _ _ _ H G) as (x' & G' & D).
  exists x'. split; auto. destruct (d_kids _ _ _ _ _ _ D) as [->|(n & _ & _ & _ & F & _ & -> & _)]; auto.
  apply in_snd_insert; auto.
Qed.

Lemma step_below_mono l st st' evs a b : step l st = Some (st', evs) -> below st a b -> below st' a b.
Proof. intros H. induction 1; econstructor; eauto using step_kid_mono. Qed.

Lemma below_trans st a b c : below st a b -> below st b c -> below st a c.
Proof. intros H. induction 1; auto. econstructor; eauto. Qed.

(** A child after a step: old, or just created by CreateChildBus on [b]. *)
Lemma step_kid_inv l st st' evs b k :
  step l st = Some (st', evs) -> kid st' b k ->
  kid st b k \/ (exists name x, l = LChild b name /\ get_bus st b = Some x /\ b_fn x <> None /\ olookup name (b_kids x) = None /\
                 k = length (s_buses st) /\ length (s_buses st') = S k).
Proof.
  intros H (x' & G' & I). destruct (step_back _ _ _ _ _ _ H G') as [(x & G & D)|N].
  - destruct (d_kids _ _ _ _ _ _ D) as [E|(n & L & _ & _ & F & Fn & E & Len)]; rewrite E in I.
    + left. exists x; auto.
    + apply in_snd_insert in I as [->|I]; auto; [right|left; exists x; auto]. exists n, x; auto 10.
  - destruct (step_new _ _ _ _ _ _ H N G') as (_ & _ & [(n & _ & _ & ->)|[(n & g & _ & _ & ->)|(b0 & xb & n & t & _ & _ & _ & _ & _ & ->)]]);
      simpl in I; contradiction.
Qed.

Lemma below_le st a b : tree_inv st -> below st a b -> a <= b.
Proof. intros T; induction 1; auto. apply (t_lt st T) in H0. lia. Qed.

Lemma below_old st a b : tree_inv st -> below st a b -> a = b \/ b < length (s_buses st).
Proof. intros T; induction 1; auto. right. apply (t_lt st T) in H0. lia. Qed.

(** Ancestry between buses that existed before the step is unchanged. *)
Lemma step_below_inv l st st' evs a b :
  tree_inv st -> step l st = Some (st', evs) -> b < length (s_buses st) -> below st' a b -> below st a b.
Proof.
  intros T H L B. revert L. induction B as [|b c B IH K]; intros L; [constructor|].
  destruct (step_kid_inv _ _ _ _ _ _ H K) as [K0|(n & x & _ & _ & _ & _ & -> & _)]; [|lia].
  econstructor; eauto. apply IH. apply (t_lt st T) in K0. lia.
Qed.

(** Two ancestors of a bus are related; two roots above the same bus are equal. *)
Lemma below_linear st a a' b : tree_inv st -> below st a b -> below st a' b -> below st a a' \/ below st a' a.
Proof.
  intros T H; revert a'; induction H as [|b c H IH K]; intros a' H'; auto.
  inversion H' as [|b' c' H2 K2]; subst.
  - left. econstructor; eauto.
  - assert (b' = b) as -> by (eapply (t_one st T); eauto). auto.
Qed.

Lemma root_no_parent st b k x : tree_inv st -> kid st b k -> get_bus st k = Some x -> b_root x = false.
Proof.
  intros T (y & G & I) Gk. apply in_map_iff in I as ([n k'] & E & I). simpl in E; subst.
  destruct (t_sorted st T _ _ G) as [S _]. apply in_olookup in I; auto.
  destruct (t_name st T _ _ _ _ G I) as (z & Gz & _ & R). congruence.
Qed.

Lemma below_root st a r x : tree_inv st -> below st a r -> get_bus st r = Some x -> b_root x = true -> a = r.
Proof.
  intros T H G R. inversion H as [|b c H2 K]; subst; auto.
  pose proof (root_no_parent _ _ _ _ T K G). congruence.
Qed.

Lemma roots_equal st r r' b x x' :
  tree_inv st -> below st r b -> below st r' b -> get_bus st r = Some x -> get_bus st r' = Some x' ->
  b_root x = true -> b_root x' = true -> r = r'.
Proof.
  intros T B B' G G' R R'. destruct (below_linear _ _ _ _ T B B') as [H|H].
  - eapply below_root; eauto.
  - symmetry. eapply below_root; eauto.
Qed.

Lemma filter_in_sub (f : nat -> bool) l s : In s (filter f l) -> In s l.
Proof. intros H; apply filter_In in H; tauto. Qed.

(** Subscribers listed after a step. *)
Lemma step_subs_inv l st st' evs b x' s :
  step l st = Some (st', evs) -> get_bus st' b = Some x' -> In s (b_subs x') ->
  (exists x, get_bus st b = Some x /\ In s (b_subs x) /\ l <> LDelSub b s) \/
  (exists x, get_bus st b = Some x /\ sub_creating l b /\ b_slock x = false /\ s = length (s_subs st) /\ length (s_subs st') = S s).
Proof.
  intros H G I. destruct (step_back _ _ _ _ _ _ H G) as [(x & G0 & D)|N].
  - destruct (d_subs _ _ _ _ _ _ D) as [E|[(C & L & E & Len)|(s0 & L & L2 & E)]].
    + left. exists x. rewrite <- E. repeat split; auto.
      intros ->. simpl in H. rewrite G0 in H. destruct (b_slock x); [discriminate|].
      unfold ok in H. destruct (set_cb _ _ _) as [st1|] eqn:C; [|discriminate].
      apply set_cb_inv in C as (z & _ & ->). injection H as <- <-.
      rewrite get_set_subs, get_set, Nat.eqb_refl, G0 in G. injection G as <-. simpl in I.
      apply filter_In in I as [_ I]. now rewrite Nat.eqb_refl in I.
    + rewrite E in I. apply in_app_iff in I as [I|[<-|[]]].
      * left. exists x. repeat split; auto. intros ->. simpl in C. contradiction.
      * right. exists x. auto.
    + rewrite E in I. apply filter_In in I as [I Q]. left. exists x; repeat split; auto.
      subst l. intros [= ->]. now rewrite Nat.eqb_refl in Q.
  - destruct (step_new _ _ _ _ _ _ H N G) as (_ & _ & [(n & _ & _ & ->)|[(n & g & _ & _ & ->)|(b0 & xb & n & t & _ & _ & _ & _ & _ & ->)]]);
      simpl in I; contradiction.
Qed.

(** Runners change only by runner labels. *)
Lemma step_runner_inv l st st' evs b x' :
  step l st = Some (st', evs) -> get_bus st' b = Some x' ->
  (exists x, get_bus st b = Some x /\ (b_runner x' = b_runner x \/ runner_label l b \/
     (l = LStart b /\ b_root x = true /\ b_runner x = RIdle /\ b_runner x' = RWait))) \/ b_runner x' = RIdle.
Proof.
  intros H G. destruct (step_back _ _ _ _ _ _ H G) as [(x & G0 & D)|N].
  - left. exists x. split; auto. apply (d_runner _ _ _ _ _ _ D).
  - right. destruct (step_new _ _ _ _ _ _ H N G) as (_ & _ & [(n & _ & _ & ->)|[(n & g & _ & _ & ->)|(b0 & xb & n & t & _ & _ & _ & _ & _ & ->)]]);
      reflexivity.
Qed.

Lemma runner_label_active l st st' evs b x :
  step l st = Some (st', evs) -> runner_label l b -> get_bus st b = Some x -> b_runner x <> RIdle.
Proof.
  intros H R G. destruct l; simpl in R; try contradiction; subst; simpl in H.
  - unfold run_step in H. rewrite G in H. intros E; now rewrite E in H.
  - unfold return_step in H. rewrite G in H. intros E; now rewrite E in H.
  - unfold throw_step in H. rewrite G in H. intros E; now rewrite E in H.
Qed.

Lemma tree_init : tree_inv init.
Proof.
  assert (forall b, get_bus init b = None) as N by (intros [|b]; reflexivity).
  assert (forall b k, ~ kid init b k) as K by (intros b k (x & G & _); rewrite N in G; discriminate).
  constructor; try (intros; rewrite N in *; discriminate).
  - intros b k H. destruct (K _ _ H).
  - intros b b' k H. destruct (K _ _ H).
Qed.

Lemma fn_back l st st' evs b x' t :
  step l st = Some (st', evs) -> get_bus st' b = Some x' -> b_fn x' = Some t ->
  (exists x, get_bus st b = Some x /\ b_fn x = Some t) \/
  (get_bus st b = None /\ b = length (s_buses st) /\
   ((exists name, l = LNewRoot name /\ t = ToQueue b /\ b_root x' = true) \/
    (exists name g, l = LNewCustom name (Some g) /\ t = ToClient g) \/
    (exists p xp name, l = LChild p name /\ get_bus st p = Some xp /\ b_fn xp = Some t /\ kid st' p b))).
Proof.
  intros H G F. destruct (step_back _ _ _ _ _ _ H G) as [(x & G0 & D)|N].
  - left. exists x. split; auto. destruct (d_fn _ _ _ _ _ _ D) as [E|[E _]]; congruence.
  - right. destruct (step_new _ _ _ _ _ _ H N G) as (E & _ & [(n & L & _ & X)|[(n & g & L & _ & X)|(b0 & xb & n & t0 & L & Gb & Hn & Ft & Lk & X)]]);
      (split; [auto|]; split; [auto|]); subst x'; simpl in F.
    + left. exists n. repeat split; auto; congruence.
    + right; left. exists n, g. split; auto; congruence.
    + right; right. exists b0, xb, n. repeat split; auto; [congruence|].
      destruct (step_delta _ _ _ _ _ _ H Gb) as (xb' & Gb' & D).
      exists xb'. split; auto.
      destruct (d_kids _ _ _ _ _ _ D) as [Ek|(n' & L' & _ & _ & Lk' & _ & Ek & _)].
      * exfalso. subst l. simpl in H. rewrite Gb in H. destruct (String.eqb n ""); [unfold raise in H; injection H as <- <-; congruence|].
        destruct (b_klock xb); [discriminate|]. rewrite Lk, Ft in H. unfold ok in H. injection H as <- <-.
        rewrite get_add, get_set in Gb'. simpl in Gb'. rewrite list_set_length in Gb'.
        apply get_lt in Gb as Lb. destruct (Nat.eqb_spec (length (s_buses st)) b0) as [Q|Q]; [lia|].
        rewrite Nat.eqb_refl, Gb in Gb'. injection Gb' as <-. simpl in Ek.
        apply (f_equal (olookup n)) in Ek. rewrite olookup_insert_eq' in Ek. congruence.
      * rewrite Ek. apply in_snd_insert; auto.
Qed.

Lemma step_keeps l st st' evs b x :
  step l st = Some (st', evs) -> get_bus st b = Some x ->
  exists x', get_bus st' b = Some x' /\ b_root x' = b_root x /\ b_name x' = b_name x.
Proof.
  intros H G. destruct (step_delta _ _ _ _ _ _ H G) as (x' & G' & D). exists x'. repeat split; auto; apply D.
Qed.

Lemma tree_step l st st' evs : tree_inv st -> step l st = Some (st', evs) -> tree_inv st'.
Proof.
  intros T H. destruct (step_len _ _ _ _ H) as (Lb & Ls & _).
  constructor.
  - intros b k K. destruct (step_kid_inv _ _ _ _ _ _ H K) as [K0|(n & x & _ & G & _ & _ & -> & ->)].
    + apply (t_lt st T) in K0. lia.
    + apply get_lt in G. lia.
  - intros b b' k K K'.
    destruct (step_kid_inv _ _ _ _ _ _ H K) as [K0|(n & x & L & G & _ & _ & E & _)];
    destruct (step_kid_inv _ _ _ _ _ _ H K') as [K0'|(n' & x' & L' & G' & _ & _ & E' & _)].
    + eapply (t_one st T); eauto.
    + apply (t_lt st T) in K0. lia.
    + apply (t_lt st T) in K0'. lia.
    + congruence.
  - intros b x' G. destruct (step_back _ _ _ _ _ _ H G) as [(x & G0 & D)|N].
    + destruct (t_sorted st T _ _ G0) as [S ND].
      destruct (d_kids _ _ _ _ _ _ D) as [->|(n & _ & _ & _ & Lk & _ & -> & _)]; auto.
      split; [now apply osorted_insert|]. apply NoDup_snd_insert; auto.
      intros I. assert (kid st b (length (s_buses st))) as K by (exists x; auto). apply (t_lt st T) in K. lia.
    + destruct (step_new _ _ _ _ _ _ H N G) as (_ & _ & [(n & _ & _ & ->)|[(n & g & _ & _ & ->)|(b0 & xb & n & t & _ & _ & _ & _ & _ & ->)]]);
        simpl; split; try apply osorted_nil; constructor.
  - intros b x' name k G Lk. destruct (step_back _ _ _ _ _ _ H G) as [(x & G0 & D)|N].
    + destruct (d_kids _ _ _ _ _ _ D) as [E|(n & L & Hn & Kl & Lk0 & Fn & E & Len)]; rewrite E in Lk.
      * destruct (t_name st T _ _ _ _ G0 Lk) as (y & Gy & Ny & Ry).
        destruct (step_keeps _ _ _ _ _ _ H Gy) as (y' & Gy' & Ry' & Ny'). exists y'. repeat split; congruence.
      * destruct (String.string_dec name n) as [->|Hne].
        -- rewrite olookup_insert_eq' in Lk. injection Lk as <-.
           destruct (nth_error (s_buses st') (length (s_buses st))) as [y|] eqn:Gy.
           2:{ apply nth_error_None in Gy. lia. }
           change (get_bus st' (length (s_buses st)) = Some y) in Gy.
           exists y. split; auto.
           assert (get_bus st (length (s_buses st)) = None) as N by (apply nth_error_None; lia).
           destruct (step_new _ _ _ _ _ _ H N Gy) as (_ & _ & [(n' & L' & _)|[(n' & g & L' & _)|(b0 & xb & n' & t & L' & _ & _ & _ & _ & ->)]]);
             rewrite L in L'; try discriminate. injection L' as -> ->. auto.
        -- rewrite olookup_insert_ne in Lk by congruence.
           destruct (t_name st T _ _ _ _ G0 Lk) as (y & Gy & Ny & Ry).
           destruct (step_keeps _ _ _ _ _ _ H Gy) as (y' & Gy' & Ry' & Ny'). exists y'. repeat split; congruence.
    + destruct (step_new _ _ _ _ _ _ H N G) as (_ & _ & [(n & _ & _ & ->)|[(n & g & _ & _ & ->)|(b0 & xb & n & t & _ & _ & _ & _ & _ & ->)]]);
        discriminate.
  - intros b x' r G F. destruct (fn_back _ _ _ _ _ _ _ H G F) as [(x & G0 & F0)|(N & E & [(n & L & [= ->] & R)|[(n & g & L & Q)|(p & xp & n & L & Gp & Fp & K)]])].
    + destruct (t_target st T _ _ _ G0 F0) as (B & y & Gy & Ry). split; [eapply step_below_mono; eauto|].
      destruct (step_keeps _ _ _ _ _ _ H Gy) as (y' & Gy' & Ry' & _). exists y'. split; congruence.
    + split; [constructor|]. exists x'; auto.
    + discriminate.
    + destruct (t_target st T _ _ _ Gp Fp) as (B & y & Gy & Ry).
      split; [eapply below_kid; [eapply step_below_mono; eauto|auto]|].
      destruct (step_keeps _ _ _ _ _ _ H Gy) as (y' & Gy' & Ry' & _). exists y'. split; congruence.
  - intros b x' k y' t G K Gk F. destruct (fn_back _ _ _ _ _ _ _ H Gk F) as [(y & Gk0 & F0)|(N & E & Q)].
    + destruct (step_kid_inv _ _ _ _ _ _ H K) as [K0|(n & x & L & G0 & _ & _ & E & _)].
      2:{ apply get_lt in Gk0. lia. }
      destruct K0 as (x & G0 & I).
      destruct (step_delta _ _ _ _ _ _ H G0) as (x2 & G2 & D). rewrite G in G2; injection G2 as <-.
      destruct (d_fn _ _ _ _ _ _ D) as [E|[E _]]; rewrite E; auto.
      apply (t_fnkid st T b x k y t); auto. exists x; auto.
    + destruct Q as [(n & L & _ & _)|[(n & g & L & _)|(p & xp & n & L & Gp & Fp & Kp)]];
      destruct (step_kid_inv _ _ _ _ _ _ H K) as [K0|(n' & x & L' & G0 & _ & _ & E' & _)];
      try (apply (t_lt st T) in K0; lia); try congruence.
      rewrite L in L'. injection L' as -> ->. 
      destruct (step_delta _ _ _ _ _ _ H G0) as (x2 & G2 & D). rewrite G in G2; injection G2 as <-.
      destruct (d_fn _ _ _ _ _ _ D) as [Ef|[Ef _]]; rewrite Ef; auto. left; congruence.
  - intros b x' G R. destruct (b_fn x') as [t|] eqn:F; auto. left.
    destruct (fn_back _ _ _ _ _ _ _ H G F) as [(x & G0 & F0)|(N & E & Q)].
    + destruct (step_keeps _ _ _ _ _ _ H G0) as (y' & Gy' & Ry' & _).
      destruct (t_root st T _ _ G0) as [E|E]; congruence.
    + destruct Q as [(n & L & -> & _)|[(n & g & L & _)|(p & xp & n & L & Gp & Fp & Kp)]]; auto.
      * destruct (step_new _ _ _ _ _ _ H N G) as (_ & _ & [(n' & L' & _ & X)|[(n' & g' & L' & _ & X)|(b0 & xb & n' & t' & L' & _ & _ & _ & _ & X)]]);
          rewrite L in L'; try discriminate. subst x'. discriminate.
      * destruct (step_new _ _ _ _ _ _ H N G) as (_ & _ & [(n' & L' & _ & X)|[(n' & g' & L' & _ & X)|(b0 & xb & n' & t' & L' & _ & _ & _ & _ & X)]]);
          rewrite L in L'; try discriminate. subst x'. discriminate.
  - intros b x' G R. destruct (step_runner_inv _ _ _ _ _ _ H G) as [(x & G0 & Q)|Q]; [|congruence].
    destruct (step_keeps _ _ _ _ _ _ H G0) as (y' & Gy' & Ry' & _).
    assert (b_root x = true) as Rx.
    { destruct Q as [Q|[Q|(_ & Q & _)]]; auto.
      - apply (t_runner st T b); auto. congruence.
      - apply (t_runner st T b); auto. eapply runner_label_active; eauto. }
    congruence.
  - intros b x' s G I. destruct (step_subs_inv _ _ _ _ _ _ _ H G I) as [(x & G0 & I0 & _)|(x & _ & _ & _ & -> & ->)]; [|lia].
    apply (t_sublt st T _ _ _ G0) in I0. lia.
  - intros b x' G. destruct (step_back _ _ _ _ _ _ H G) as [(x & G0 & D)|N].
    + pose proof (t_subnd st T _ _ G0) as ND. destruct (d_subs _ _ _ _ _ _ D) as [->|[(_ & _ & -> & _)|(s0 & _ & _ & ->)]]; auto.
      * apply NoDup_Add with (a := length (s_subs st)) (l := b_subs x ++ []).
        -- apply Add_app.
        -- rewrite app_nil_r. split; auto. intros I. apply (t_sublt st T _ _ _ G0) in I. lia.
      * now apply NoDup_filter.
    + destruct (step_new _ _ _ _ _ _ H N G) as (_ & _ & [(n & _ & _ & ->)|[(n & g & _ & _ & ->)|(b0 & xb & n & t & _ & _ & _ & _ & _ & ->)]]);
        constructor.
  - intros b x b' x' s G G' I I'.
    destruct (step_subs_inv _ _ _ _ _ _ _ H G I) as [(y & Gy & Iy & _)|(y & Gy & C & _ & Es & _)];
    destruct (step_subs_inv _ _ _ _ _ _ _ H G' I') as [(y' & Gy' & Iy' & _)|(y' & Gy' & C' & _ & Es' & _)].
    + eapply (t_subone st T); eauto.
    + apply (t_sublt st T _ _ _ Gy) in Iy. lia.
    + apply (t_sublt st T _ _ _ Gy') in Iy'. lia.
    + destruct l; simpl in C, C'; try contradiction; congruence.
Qed.

Lemma reach_tree st : reach st -> tree_inv st.
Proof. revert st. apply reach_ind; [apply tree_init|]. intros l st st' evs _ T H. eapply tree_step; eauto. Qed.

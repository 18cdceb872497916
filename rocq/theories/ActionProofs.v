(** Invariants of action providers and consumers. *)
From Coq Require Import String Ascii List Arith ZArith Bool Lia Sorted.
From Verif Require Import Prelude OMap DatagramModel DatagramSpec BusModel BusSpec BusProofs BusTree BusLocks BusLocks2 BusLocks3 BusDist BusAccount BusOnce BusServe BusFlight BusProgress BusDeliver ActionSpec.
Import ListNotations.
Open Scope list_scope.

(** ** Topics *)

Lemma append_snoc a b c : (a ++ String b c)%string = ((a ++ String b EmptyString) ++ c)%string.
Proof. induction a as [|x a IH]; simpl; [reflexivity|now rewrite IH]. Qed.

Lemma length_append a b : String.length (a ++ b) = String.length a + String.length b.
Proof. induction a as [|x a IH]; simpl; [reflexivity|now rewrite IH]. Qed.

(** Two strings ending in the same way up to the last character. *)
Lemma append_inj_len a b c d : String.length c = String.length d -> (a ++ c)%string = (b ++ d)%string -> c = d.
Proof.
  revert b. induction a as [|x a IH]; intros [|y b] L E; simpl in E; auto.
  - exfalso. subst c. simpl in L. rewrite length_append in L. lia.
  - exfalso. subst d. simpl in L. rewrite length_append in L. lia.
  - injection E as _ E. eauto.
Qed.

Lemma append_assoc a b c : ((a ++ b) ++ c)%string = (a ++ (b ++ c))%string.
Proof. induction a as [|x a IH]; simpl; [reflexivity|now rewrite IH]. Qed.

Lemma request_not_response a b : (a ++ "/request")%string <> (b ++ "/response")%string.
Proof.
  intros E. change "/request"%string with ("/reques" ++ "t")%string in E. change "/response"%string with ("/respons" ++ "e")%string in E.
  rewrite <- !append_assoc in E. apply append_inj_len in E; [discriminate|reflexivity].
Qed.
Lemma response_not_all a : (a ++ "/response")%string <> "/**/*"%string.
Proof.
  intros E. change "/response"%string with ("/respons" ++ "e")%string in E. change "/**/*"%string with ("/**/" ++ "*")%string in E.
  rewrite <- !append_assoc in E. apply append_inj_len in E; [discriminate|reflexivity].
Qed.
Lemma request_not_all a : (a ++ "/request")%string <> "/**/*"%string.
Proof.
  intros E. change "/request"%string with ("/reques" ++ "t")%string in E. change "/**/*"%string with ("/**/" ++ "*")%string in E.
  rewrite <- !append_assoc in E. apply append_inj_len in E; [discriminate|reflexivity].
Qed.

(** ** Steps *)

(** What a step does to an existing consumer. *)
Lemma step_cons l st st' evs c y :
  step l st = Some (st', evs) -> nth_error (s_conss st) c = Some y ->
  exists y', nth_error (s_conss st') c = Some y' /\ co_sub y' = co_sub y /\ co_pub y' = co_pub y /\
    (co_open y' = co_open y /\ (forall id d v, l <> LRequest c id d (Some v)) \/
     (exists id d v e, l = LRequest c id d (Some v) /\ co_open y' = oinsert id v (co_open y) /\ evs = EvRequest c id v d :: e) \/
     (exists r x m stk rest id u d, l = LReturn r /\ get_bus st r = Some x /\
        b_runner x = RDist m stk (Some (CallRequest c id u d)) rest /\ co_open y' = oremove id (co_open y))).
Proof.
  intros H N. pose proof (nth_error_Some_lt _ _ _ N) as L.
  destruct l; try (step_cases H; simpl; acc; simpl; exists y; repeat split; auto using nth_snoc_old; left; split; auto; discriminate).
  - simpl in H. destruct (nth_error (s_conss st) c0) as [x|] eqn:E; [|discriminate]. destruct u as [v|].
    + destruct (begin_publish (co_pub x) _ _) as [[st2 e2]|] eqn:B; [|discriminate]. injection H as <- <-.
      apply begin_publish_inv in B. destruct B as (q & _ & B).
      assert (s_conss st2 = list_set c0 (mkCons (co_sub x) (co_pub x) (oinsert id v (co_open x))) (s_conss st)) as Ec
        by (destruct B as [(_ & -> & _)|(_ & -> & _)]; reflexivity).
      rewrite Ec. destruct (Nat.eq_dec c0 c) as [->|Ne].
      * rewrite list_set_eq by auto. rewrite N in E. injection E as <-. eexists. split; [reflexivity|]. simpl. repeat split; auto.
        right; left. do 4 eexists. repeat split; reflexivity.
      * rewrite list_set_ne by auto. exists y. repeat split; auto. left. split; auto. congruence.
    + injection H as <- <-. exists y. repeat split; auto. left. split; auto. discriminate.
  - simpl in H. unfold return_step in H. destruct (get_bus st r) as [x|] eqn:G; [|discriminate].
    destruct (b_runner x) as [| | | |m stk [k|] rest] eqn:R; try discriminate. injection H as <- <-.
    unfold after_call. destruct k; rewrite ?conss_upd; try (exists y; repeat split; auto; left; split; auto; discriminate).
    destruct (nth_error (s_conss st) c0) as [q|] eqn:E; simpl; rewrite ?conss_upd; [|exists y; repeat split; auto; left; split; auto; discriminate].
    destruct (Nat.eq_dec c0 c) as [->|Ne].
    + rewrite list_set_eq by auto. rewrite N in E. injection E as <-. eexists. split; [reflexivity|]. simpl. repeat split; auto.
      right; right. do 8 eexists. repeat split; eauto.
    + rewrite list_set_ne by auto. exists y. repeat split; auto. left. split; auto. discriminate.
Qed.

(** New consumers and providers. *)
Lemma cons_new l st st' evs c y' :
  step l st = Some (st', evs) -> nth_error (s_conss st') c = Some y' -> nth_error (s_conss st) c = None ->
  exists b t, l = LConsumer b t /\ c = length (s_conss st) /\ co_open y' = [] /\
    nth_error (s_subs st') (co_sub y') = Some (mkSub (t ++ "/response") None) /\ co_sub y' = length (s_subs st) /\
    nth_error (s_pubs st') (co_pub y') = Some (mkPub (t ++ "/request") b true).
Proof.
  intros H N N0. assert (~ c < length (s_conss st)) as L by (apply nth_error_None in N0; lia).
  assert (c < length (s_conss st')) as L' by (apply nth_error_Some; congruence).
  destruct l; try (exfalso; step_cases H; simpl in L'; revert L'; acc; simpl; acc; simpl; intros; contradiction).
  - step_cases H. simpl in *. revert N. acc. simpl. intros N. apply nth_snoc_inv in N. destruct N as [N|[-> ->]]; [congruence|].
    exists b, topic. simpl. rewrite !nth_snoc_new. repeat split; auto.
  - exfalso. simpl in H. unfold return_step in H. destruct (get_bus st r) as [x|] eqn:G; [|discriminate].
    destruct (b_runner x) as [| | | |m stk [k|] rest] eqn:R; try discriminate. injection H as <- <-.
    rewrite conss_len_after_call in L'. revert L'. acc. auto.
Qed.

(** What a step does to an existing provider. *)
Lemma step_prov l st st' evs p y :
  step l st = Some (st', evs) -> nth_error (s_provs st) p = Some y ->
  exists y', nth_error (s_provs st') p = Some y' /\ pr_sub y' = pr_sub y /\ pr_pub y' = pr_pub y /\
    (pr_cb y' = pr_cb y \/ l = LResetProvider p /\ pr_cb y' = None).
Proof.
  intros H N. pose proof (nth_error_Some_lt _ _ _ N) as L.
  destruct l; try (step_cases H; simpl; acc; simpl; exists y; repeat split; auto using nth_snoc_old; fail).
  step_cases H. simpl. destruct (Nat.eq_dec p0 p) as [->|Ne].
  - rewrite list_set_eq by auto. rewrite N in *. match goal with E : Some _ = Some _ |- _ => injection E as <- end.
    eexists. split; [reflexivity|]. auto.
  - rewrite list_set_ne by auto. exists y. auto.
Qed.

Lemma prov_new l st st' evs p y' :
  step l st = Some (st', evs) -> nth_error (s_provs st') p = Some y' -> nth_error (s_provs st) p = None ->
  exists b t u, l = LProvider b t u /\ p = length (s_provs st) /\ pr_cb y' = u /\
    nth_error (s_subs st') (pr_sub y') = Some (mkSub (t ++ "/request") None) /\ pr_sub y' = length (s_subs st) /\
    nth_error (s_pubs st') (pr_pub y') = Some (mkPub (t ++ "/response") b true).
Proof.
  intros H N N0. assert (~ p < length (s_provs st)) as L by (apply nth_error_None in N0; lia).
  assert (p < length (s_provs st')) as L' by (apply nth_error_Some; congruence).
  destruct l; try (exfalso; step_cases H; simpl in L'; revert L'; acc; simpl; acc; simpl; intros; contradiction).
  step_cases H. simpl in *. revert N. acc. simpl. intros N. apply nth_snoc_inv in N. destruct N as [N|[-> ->]]; [congruence|].
  exists b, topic, u. simpl. rewrite !nth_snoc_new. repeat split; auto.
Qed.

(** Every new subscriber has no callback or one of the client. *)
Lemma sub_new l st st' evs s q :
  step l st = Some (st', evs) -> nth_error (s_subs st') s = Some q -> nth_error (s_subs st) s = None ->
  (s_cb q = None \/ exists u, s_cb q = Some (CbData u)).
Proof.
  intros H N N0. assert (~ s < length (s_subs st)) as L by (apply nth_error_None in N0; lia).
  assert (s < length (s_subs st')) as L' by (apply nth_error_Some; congruence).
  destruct l; try (exfalso; step_cases H; simpl in L'; revert L'; acc; simpl; acc; simpl; intros; contradiction).
  - step_cases H. simpl in *. revert N. acc. simpl. intros N. apply nth_snoc_inv in N. destruct N as [N|[_ ->]]; [congruence|].
    simpl. destruct cb; simpl; eauto.
  - step_cases H. simpl in *. revert N. acc. simpl. intros N. apply nth_snoc_inv in N. destruct N as [N|[_ ->]]; [congruence|]. auto.
  - step_cases H. simpl in *. revert N. acc. simpl. intros N. apply nth_snoc_inv in N. destruct N as [N|[_ ->]]; [congruence|]. auto.
Qed.

(** ** Wiring *)

Record wired (st : state) : Prop := mkWired {
  w_cons : forall c y, nth_error (s_conss st) c = Some y -> osorted (co_open y) /\ exists t q z,
     nth_error (s_subs st) (co_sub y) = Some q /\ s_topic q = (t ++ "/response")%string /\
     nth_error (s_pubs st) (co_pub y) = Some z /\ p_topic z = (t ++ "/request")%string;
  w_prov : forall p y, nth_error (s_provs st) p = Some y -> exists t q z,
     nth_error (s_subs st) (pr_sub y) = Some q /\ s_topic q = (t ++ "/request")%string /\
     nth_error (s_pubs st) (pr_pub y) = Some z /\ p_topic z = (t ++ "/response")%string;
  w_ccb : forall s q c, nth_error (s_subs st) s = Some q -> s_cb q = Some (CbConsumer c) ->
     exists y, nth_error (s_conss st) c = Some y /\ co_sub y = s;
  w_pcb : forall s q p, nth_error (s_subs st) s = Some q -> s_cb q = Some (CbProvider p) ->
     exists y, nth_error (s_provs st) p = Some y /\ pr_sub y = s }.

Lemma wired_step l st st' evs : wired st -> step l st = Some (st', evs) -> wired st'.
Proof.
  intros [A B C D] H. constructor.
  - intros c y' N'. destruct (nth_error (s_conss st) c) as [y|] eqn:N.
    + destruct (A _ _ N) as (S & t & q & z & N1 & T1 & N2 & T2).
      destruct (step_cons _ _ _ _ _ _ H N) as (y2 & N3 & E1 & E2 & E3). rewrite N' in N3. injection N3 as <-. rewrite E1, E2. split.
      * destruct E3 as [(-> & _)|[(id & d & v & e & _ & -> & _)|(r & x & m & stk & rest & id & u & d & _ & _ & _ & ->)]]; auto using osorted_insert, osorted_remove.
      * destruct (step_sub _ _ _ _ _ _ H N1) as (q' & Q1 & Q2 & _). destruct (step_pub _ _ _ _ _ _ H N2) as (z' & Z1 & Z2 & _).
        exists t, q', z'. repeat split; auto; congruence.
    + destruct (cons_new _ _ _ _ _ _ H N' N) as (b & t & _ & _ & -> & N1 & _ & N2). split; [constructor|].
      do 3 eexists. repeat split; [exact N1| |exact N2|]; reflexivity.
  - intros p y' N'. destruct (nth_error (s_provs st) p) as [y|] eqn:N.
    + destruct (B _ _ N) as (t & q & z & N1 & T1 & N2 & T2).
      destruct (step_prov _ _ _ _ _ _ H N) as (y2 & N3 & E1 & E2 & _). rewrite N' in N3. injection N3 as <-. rewrite E1, E2.
      destruct (step_sub _ _ _ _ _ _ H N1) as (q' & Q1 & Q2 & _). destruct (step_pub _ _ _ _ _ _ H N2) as (z' & Z1 & Z2 & _).
      exists t, q', z'. repeat split; auto; congruence.
    + destruct (prov_new _ _ _ _ _ _ H N' N) as (b & t & u & _ & _ & _ & N1 & _ & N2).
      do 3 eexists. repeat split; [exact N1| |exact N2|]; reflexivity.
  - intros s q' c N' Ec. destruct (nth_error (s_subs st) s) as [q|] eqn:N.
    + destruct (step_sub _ _ _ _ _ _ H N) as (q2 & N2 & _ & E). rewrite N' in N2. injection N2 as <-.
      assert (exists y, nth_error (s_conss st) c = Some y /\ co_sub y = s) as (y & Ny & Es).
      { destruct E as [E|[(u & _ & E)|[(u & _ & E)|[(b & _ & E)|[(p & z & _ & _ & _ & E)|(c' & z & _ & Nz & Ez & E)]]]]]; rewrite Ec in E;
          try discriminate; eauto.
        - destruct u; discriminate.
        - injection E as <-. eauto. }
      destruct (step_cons _ _ _ _ _ _ H Ny) as (y' & Ny' & E1 & _). exists y'. split; auto; congruence.
    + destruct (sub_new _ _ _ _ _ _ H N' N) as [E|(u & E)]; congruence.
  - intros s q' p N' Ec. destruct (nth_error (s_subs st) s) as [q|] eqn:N.
    + destruct (step_sub _ _ _ _ _ _ H N) as (q2 & N2 & _ & E). rewrite N' in N2. injection N2 as <-.
      assert (exists y, nth_error (s_provs st) p = Some y /\ pr_sub y = s) as (y & Ny & Es).
      { destruct E as [E|[(u & _ & E)|[(u & _ & E)|[(b & _ & E)|[(p' & z & _ & Nz & Ez & E)|(c' & z & _ & _ & _ & E)]]]]]; rewrite Ec in E;
          try discriminate; eauto.
        - destruct u; discriminate.
        - injection E as <-. eauto. }
      destruct (step_prov _ _ _ _ _ _ H Ny) as (y' & Ny' & E1 & _). exists y'. split; auto; congruence.
    + destruct (sub_new _ _ _ _ _ _ H N' N) as [E|(u & E)]; congruence.
Qed.

Lemma reach_wired st : reach st -> wired st.
Proof.
  apply reach_ind.
  - constructor; intros [|?]; simpl; discriminate.
  - intros l s s' evs _ R H. eapply wired_step; eauto.
Qed.

(** ** Events *)

Lemma requests_app c t1 t2 : requests c (t1 ++ t2) = requests c t1 ++ requests c t2.
Proof. apply flat_map_app. Qed.
Lemma answered_app c t1 t2 : answered c (t1 ++ t2) = answered c t1 ++ answered c t2.
Proof. apply flat_map_app. Qed.

Lemma latest_app id l1 l2 : latest id (l1 ++ l2) = match latest id l2 with Some v => Some v | None => latest id l1 end.
Proof. induction l1 as [|[i u] l1 IH]; simpl; [destruct (latest id l2); auto|]. rewrite IH. destruct (latest id l2); auto. Qed.

Lemma latest_in id l u : latest id l = Some u -> In (id, u) l.
Proof.
  induction l as [|[i v] l IH]; simpl; [discriminate|]. destruct (latest id l) as [w|].
  - intros E. right. auto.
  - destruct (String.eqb_spec id i) as [->|]; [|discriminate]. intros [= ->]. auto.
Qed.

Lemma run_no_request st r x l old rn act evs c :
  rcase st r x l old rn act evs -> requests c evs = [].
Proof. intros R. inversion R; subst; auto; unfold requests; simpl; rewrite ?flat_map_app; simpl; rewrite !flat_lost; auto. Qed.

Lemma step_requests l st st' evs c :
  step l st = Some (st', evs) ->
  (exists id d u, l = LRequest c id d (Some u) /\ requests c evs = [(id, u)]) \/
  (requests c evs = [] /\ forall id d u, l <> LRequest c id d (Some u)).
Proof.
  intros H. destruct l; try (right; split; [|discriminate]; step_cases H; reflexivity).
  - right; split; [|discriminate]. destruct (detach_inv _ _ _ _ H) as (ds & ds' & a & _ & D & _). destruct D; auto. destruct stk; auto.
  - simpl in H. destruct (nth_error (s_conss st) c0) as [x|] eqn:E; [|discriminate]. destruct u as [v|].
    + destruct (begin_publish (co_pub x) _ _) as [[st2 e2]|] eqn:B; [|discriminate]. injection H as <- <-.
      apply begin_publish_inv in B. destruct B as (q & _ & B).
      assert (requests c e2 = []) as E2 by (destruct B as [(_ & _ & ->)|(_ & _ & ->)]; reflexivity).
      destruct (Nat.eq_dec c0 c) as [->|Ne].
      * left. do 3 eexists. split; [reflexivity|]. unfold requests in *. simpl. rewrite Nat.eqb_refl, E2. reflexivity.
      * right. split; [|congruence]. unfold requests in *. simpl. apply Nat.eqb_neq in Ne. rewrite Ne, E2. reflexivity.
    + injection H as <- <-. right. split; [reflexivity|discriminate].
  - right; split; [|discriminate]. destruct (run_inv' _ r _ _ _ H eq_refl) as (x & rn & act & G & RC & E). eapply run_no_request; eauto.
  - right; split; [|discriminate]. destruct (run_inv' _ r _ _ _ H eq_refl) as (x & rn & act & G & RC & E). eapply run_no_request; eauto.
Qed.

(** A callback is entered by one step of the bus thread. *)
Lemma invoke_inv l st st' evs r s m k :
  step l st = Some (st', evs) -> In (EvInvoke r s m k) evs ->
  exists x b ss stk rest y x', l = LRun r /\ get_bus st r = Some x /\ b_runner x = RDist m (FSubs b (s :: ss) :: stk) None rest /\
    nth_error (s_subs st) s = Some y /\ accepts (s_topic y) (bm_topic (snd m)) /\ receive st s (snd m) = InvCall k /\
    evs = [EvReceive r b s m; EvInvoke r s m k] /\ get_bus st' r = Some x' /\ b_runner x' = RDist m (FSubs b ss :: stk) (Some k) rest /\
    s_conss st' = s_conss st.
Proof.
  intros H I. assert (about r (EvInvoke r s m k) = true) as Ab by (simpl; apply Nat.eqb_refl).
  destruct (runner_label_dec l r) as [RL|RL]; [|rewrite (other_events _ _ _ _ _ _ H RL I) in Ab; discriminate].
  destruct (run_inv' _ _ _ _ _ H RL) as (x & rn & act & G & RC & E).
  inversion RC; subst l rn act evs; cbn [In] in I; try contradiction;
    repeat match goal with H : _ \/ _ |- _ => destruct H as [I|I]; try discriminate I; try contradiction end.
  - injection I as <- <- <-. exists x, b, ss, stk, rest, y.
    match goal with Q : _ = b_runner x |- _ => rename Q into R0 end.
    rewrite E. rewrite run_view, G. simpl. rewrite Nat.eqb_refl. eexists. rewrite <- R0. split; [reflexivity|]. split; [reflexivity|]. split; [reflexivity|]. split; [assumption|].
    split; [apply ant_accepts; assumption|]. split; [assumption|]. split; [reflexivity|]. split; [reflexivity|]. split; [reflexivity|].
    unfold after_run. simpl. now rewrite conss_upd.
  - exfalso. apply in_app_iff in I as [I|[I|[]]]; [|discriminate]. apply in_map_iff in I as (? & I & _). discriminate.
  - exfalso. apply in_app_iff in I as [I|[I|[]]]; [|discriminate]. apply in_map_iff in I as (? & I & _). discriminate.
Qed.

Lemma answered_inv l st st' evs c id u :
  step l st = Some (st', evs) -> In (id, u) (answered c evs) -> exists r s m d, In (EvInvoke r s m (CallRequest c id u d)) evs.
Proof.
  intros _ I. unfold answered in I. apply in_flat_map in I as (e & I & J). destruct e; try contradiction. destruct c0; try contradiction.
  destruct (Nat.eqb_spec c0 c) as [->|]; [|contradiction]. destruct J as [J|[]]. injection J as -> ->. eauto 10.
Qed.

(** What invoking a request callback says about the state. *)
Lemma receive_request st s m c id u d :
  receive st s m = InvCall (CallRequest c id u d) ->
  exists q y, nth_error (s_subs st) s = Some q /\ s_cb q = Some (CbConsumer c) /\ nth_error (s_conss st) c = Some y /\
    olookup id (co_open y) = Some u /\ answer (bm_data m) id d.
Proof.
  unfold receive. destruct (nth_error (s_subs st) s) as [q|]; [|discriminate].
  destruct (s_cb q) as [[v|[v|]|p|c']|] eqn:Ec; try discriminate.
  - destruct (envelope_id (bm_data m)); [|discriminate]. destruct (nth_error (s_provs st) p) as [y|]; [|discriminate]. destruct (pr_cb y); discriminate.
  - destruct (envelope_id (bm_data m)) as [i|] eqn:Ei; [|discriminate]. destruct (nth_error (s_conss st) c') as [y|] eqn:Ny; [|discriminate].
    destruct (olookup i (co_open y)) as [v|] eqn:Eo; [|discriminate]. intros [= -> -> -> <-]. exists q, y. repeat split; auto.
    unfold envelope_id in Ei. destruct (bm_data m) as [| | |kvs]; try discriminate. exists kvs. split; auto. simpl.
    destruct (olookup "invocationId" kvs) as [[|[]| |]|]; try discriminate. injection Ei as ->. split; auto. destruct (olookup "response" kvs); auto.
Qed.

Lemma receive_provider st s m p id u d :
  receive st s m = InvCall (CallProvider p id u d) ->
  exists q y, nth_error (s_subs st) s = Some q /\ s_cb q = Some (CbProvider p) /\ nth_error (s_provs st) p = Some y /\
    pr_cb y = Some u /\ d = bm_data m /\ has_id d id.
Proof.
  unfold receive. destruct (nth_error (s_subs st) s) as [q|]; [|discriminate].
  destruct (s_cb q) as [[v|[v|]|p'|c']|] eqn:Ec; try discriminate.
  - destruct (envelope_id (bm_data m)) as [i|] eqn:Ei; [|discriminate]. destruct (nth_error (s_provs st) p') as [y|] eqn:Ny; [|discriminate].
    destruct (pr_cb y) as [v|] eqn:Eo; [|discriminate]. intros [= -> -> -> <-]. exists q, y. repeat split; auto.
    unfold envelope_id in Ei. destruct (bm_data m) as [| | |kvs]; try discriminate. exists kvs. split; auto.
    destruct (olookup "invocationId" kvs) as [[|[]| |]|]; try discriminate. now injection Ei as ->.
  - destruct (envelope_id (bm_data m)); [|discriminate]. destruct (nth_error (s_conss st) c') as [y|]; [|discriminate]. destruct (olookup _ (co_open y)); discriminate.
Qed.

(** ** Open requests come from requests *)

Lemma open_registered c ls st tr : exec ls init = Some (st, tr) ->
  forall y id u, nth_error (s_conss st) c = Some y -> olookup id (co_open y) = Some u -> latest id (requests c tr) = Some u.
Proof.
  revert ls st tr. apply (exec_trace_ind init (fun st _ tr => forall y id u, nth_error (s_conss st) c = Some y -> olookup id (co_open y) = Some u -> latest id (requests c tr) = Some u)).
  - intros y id u N. destruct c; discriminate.
  - intros ls l st st' tr evs X IH H y' id u N' O. assert (reach st) as Rc by (exists ls, tr; auto). rewrite requests_app, latest_app.
    destruct (nth_error (s_conss st) c) as [y|] eqn:N.
    + destruct (step_cons _ _ _ _ _ _ H N) as (y2 & N2 & _ & _ & E). rewrite N' in N2. injection N2 as <-.
      destruct (w_cons _ (reach_wired _ Rc) _ _ N) as (S & _).
      destruct (step_requests _ _ _ _ c H) as [(i & d & v & El & Er)|(Er & Nl)]; rewrite Er; simpl.
      * destruct E as [(E & Nl)|[(i' & d' & v' & e & El' & E & _)|(r & x & m & stk & rest & i' & u' & d' & El' & _)]]; [exfalso; eapply Nl; eauto| |congruence].
        rewrite El in El'. injection El' as <- <- <-. rewrite E in O. destruct (String.eqb_spec id i) as [->|Ne].
        -- rewrite olookup_insert_eq in O by auto. congruence.
        -- rewrite olookup_insert_ne in O by auto. eauto.
      * destruct E as [(E & _)|[(i' & d' & v' & e & El' & E & _)|(r & x & m & stk & rest & i' & u' & d' & _ & _ & _ & E)]].
        -- rewrite E in O. eauto.
        -- exfalso. eapply Nl; eauto.
        -- rewrite E in O. destruct (String.eqb_spec i' id) as [->|Ne].
           ++ rewrite olookup_remove_eq in O by auto. discriminate.
           ++ rewrite olookup_remove_ne in O by auto. eauto.
    + destruct (cons_new _ _ _ _ _ _ H N' N) as (b & t & _ & _ & E & _). rewrite E in O. discriminate.
Qed.

(** ** Provenance *)

(** Messages that can be on their way in [ls]. *)
Definition sent (ls : list label) (m : bmsg) : Prop :=
  published ls m \/
  (responded ls m /\ exists t, bm_topic m = (t ++ "/response")%string) \/
  (requested ls m /\ exists t, bm_topic m = (t ++ "/request")%string).

Lemma sent_mono ls l m : sent ls m -> sent (ls ++ [l]) m.
Proof.
  intros [[(p & I)|(b & I)]|[((p & id & d & I & E) & T)|((c & id & d & u & I & E) & T)]].
  - left; left. exists p. apply in_app_iff; auto.
  - left; right. exists b. apply in_app_iff; auto.
  - right; left. split; auto. exists p, id, d. split; auto. apply in_app_iff; auto.
  - right; right. split; auto. exists c, id, d, u. split; auto. apply in_app_iff; auto.
Qed.

Definition origin (ls : list label) (st : state) (tr : list event) : Prop :=
  (forall i p d, nth_error (s_flights st) i = Some (FlyPub p d) ->
     exists y, nth_error (s_pubs st) p = Some y /\ forall s, sent ls (mkM s (p_topic y) d)) /\
  (forall i b m, nth_error (s_flights st) i = Some (FlyBus b m) -> sent ls m) /\
  (forall r i m, In (EvAccept r i m) tr -> sent ls (snd m)).

(** Which publications a step adds. *)
Lemma begun_flight l st st' evs i f : wired st -> step l st = Some (st', evs) ->
  nth_error (s_flights st') i = Some f -> nth_error (s_flights st) i = None ->
  match f with
  | FlyPub p d => exists y, nth_error (s_pubs st) p = Some y /\ forall ls s, sent (ls ++ [l]) (mkM s (p_topic y) d)
  | FlyBus b m => forall ls, sent (ls ++ [l]) m
  | FlyDone => True
  end.
Proof.
  intros W H N' N. assert (~ i < length (s_flights st)) as L by (apply nth_error_None in N; lia).
  assert (i < length (s_flights st')) as L' by (apply nth_error_Some; congruence).
  assert (forall x (l0 : list label), In x (l0 ++ [x])) as Hin by (intros; apply in_app_iff; right; now left).
  destruct l; try (exfalso; step_cases H; simpl in L'; revert L'; acc; simpl; acc; simpl; rewrite ?list_set_length; intros; contradiction).
  - cbn [step] in H. destruct (begin_publish_inv _ _ _ _ _ H) as (y & Ny & [(F & -> & ->)|(F & -> & ->)]); simpl in N'; apply nth_snoc_inv in N';
      destruct N' as [N'|[_ ->]]; try congruence; auto.
    exists y. split; auto. intros ls s. left; left. exists p. apply Hin.
  - simpl in H. destruct (get_bus st b) as [x|] eqn:G; [|discriminate]. unfold test_bus_fn in H. rewrite G in H.
    destruct (b_fn x); injection H as <- <-; simpl in N'; apply nth_snoc_inv in N'; destruct N' as [N'|[_ ->]]; try congruence; auto.
    intros ls. left; right. exists b. apply Hin.
  - simpl in H. destruct (nth_error (s_conss st) c) as [x|] eqn:E; [|discriminate]. destruct u as [v|].
    + destruct (begin_publish (co_pub x) _ _) as [[st2 e2]|] eqn:B; [|discriminate]. injection H as <- <-.
      apply begin_publish_inv in B. destruct B as (q & Nq & B). simpl in Nq.
      destruct (w_cons _ W _ _ E) as (_ & t & q0 & z & _ & _ & Nz & Tz). assert (q = z) as -> by congruence.
      destruct B as [(F & -> & ->)|(F & -> & ->)]; simpl in N'; apply nth_snoc_inv in N'; destruct N' as [N'|[_ ->]]; try congruence; auto.
      exists z. split; auto. intros ls s. right; right. split; [|simpl; eauto]. exists c, id, d, v. split; [apply Hin|reflexivity].
    + injection H as <- <-. congruence.
  - simpl in H. destruct (nth_error (s_provs st) p) as [x|] eqn:E; [|discriminate].
    apply begin_publish_inv in H. destruct H as (q & Nq & B).
    destruct (w_prov _ W _ _ E) as (t & q0 & z & _ & _ & Nz & Tz). assert (q = z) as -> by congruence.
    destruct B as [(F & -> & ->)|(F & -> & ->)]; simpl in N'; apply nth_snoc_inv in N'; destruct N' as [N'|[_ ->]]; try congruence; auto.
    exists z. split; auto. intros ls s. right; left. split; [|simpl; eauto]. exists p, id, d. split; [apply Hin|reflexivity].
Qed.

Lemma origin_all ls st tr : exec ls init = Some (st, tr) -> origin ls st tr.
Proof.
  revert ls st tr. apply (exec_trace_ind init (fun st ls tr => origin ls st tr)).
  - split; [|split]; [intros [|?]; discriminate|intros [|?]; discriminate|intros ? ? ? []].
  - intros ls l st st' tr evs X (A & B & C) H. assert (reach st) as Rc by (exists ls, tr; auto). pose proof (reach_wired _ Rc) as W.
    split; [|split].
    + intros i p d N'. destruct (nth_error (s_flights st) i) as [f|] eqn:N.
      * destruct (step_flight _ _ _ _ _ _ H N) as [->|(E & _)].
        -- exfalso. pose proof (nth_error_Some_lt _ _ _ N) as L.
           destruct (fly_inv _ _ _ _ H) as [(p0 & d0 & xp & y & m & N0 & Np & F & Gy & Em & [(Fn & -> & ->)|(Fn & -> & ->)])|[(p0 & d0 & xp & N0 & Np & F & -> & ->)|(b & m & y & N0 & Gy & [(Fn & -> & ->)|[(g & Fn & -> & ->)|[(r0 & z & Fn & Gz & -> & ->)|(r0 & Fn & Gz & -> & ->)]]])]];
             simpl in N'; rewrite list_set_eq in N' by auto; discriminate.
        -- assert (f = FlyPub p d) as -> by congruence. destruct (A _ _ _ N) as (y & Ny & S).
           destruct (step_pub _ _ _ _ _ _ H Ny) as (y' & Ny' & Et & _). exists y'. split; auto. intros s. rewrite Et. apply sent_mono, S.
      * destruct (begun_flight _ _ _ _ _ _ W H N' N) as (y & Ny & S).
        destruct (step_pub _ _ _ _ _ _ H Ny) as (y' & Ny' & Et & _). exists y'. split; auto. intros s. rewrite Et. apply S.
    + intros i b m N'. destruct (nth_error (s_flights st) i) as [f|] eqn:N.
      * destruct (step_flight _ _ _ _ _ _ H N) as [->|(E & _)].
        -- apply sent_mono. pose proof (nth_error_Some_lt _ _ _ N) as L.
           destruct (fly_inv _ _ _ _ H) as [(p0 & d0 & xp & y & m0 & N0 & Np & F & Gy & Em & [(Fn & -> & ->)|(Fn & -> & ->)])|[(p0 & d0 & xp & N0 & Np & F & -> & ->)|(b0 & m0 & y & N0 & Gy & [(Fn & -> & ->)|[(g & Fn & -> & ->)|[(r0 & z & Fn & Gz & -> & ->)|(r0 & Fn & Gz & -> & ->)]]])]];
             simpl in N'; rewrite list_set_eq in N' by auto; try discriminate.
           injection N' as <- <-. destruct (A _ _ _ N0) as (xp' & Nx & S). assert (xp' = xp) as -> by congruence. rewrite Em. apply S.
        -- assert (f = FlyBus b m) as -> by congruence. apply sent_mono. eauto.
      * apply (begun_flight _ _ _ _ _ _ W H N' N).
    + intros r i m I. apply in_app_iff in I as [I|I]; [apply sent_mono; eauto|].
      assert (In m (accepted r evs)) as Ia. { unfold accepted. apply in_flat_map. eexists. split; [exact I|]. simpl. rewrite Nat.eqb_refl. now left. }
      assert ((exists j, l = LFly j) \/ forall j, l <> LFly j) as [(j & ->)|NF] by (destruct l; try (right; discriminate); left; eauto).
      2: { rewrite (accept_label _ _ _ _ r H NF) in Ia. contradiction. }
      apply sent_mono.
      destruct (fly_inv _ _ _ _ H) as [(p0 & d0 & xp & y & m0 & N0 & Np & F & Gy & Em & [(Fn & -> & ->)|(Fn & -> & ->)])|[(p0 & d0 & xp & N0 & Np & F & -> & ->)|(b0 & m0 & y & N0 & Gy & [(Fn & -> & ->)|[(g & Fn & -> & ->)|[(r0 & z & Fn & Gz & -> & ->)|(r0 & Fn & Gz & -> & ->)]]])]];
        simpl in I; repeat match goal with J : _ \/ _ |- _ => destruct J as [J|J]; try discriminate; try contradiction end; try contradiction.
      injection I as <- <- <-. simpl. eauto.
Qed.

(** A message in hand was accepted. *)
Lemma current_sent ls st tr r x m : exec ls init = Some (st, tr) -> get_bus st r = Some x -> In m (current x) ->
  In m (accepted r tr) /\ sent ls (snd m).
Proof.
  intros X G I. pose proof (account_all r _ _ _ X) as A. unfold account in A. rewrite G in A. destruct A as (A & _).
  assert (In m (accepted r tr)) as J. { rewrite A, !in_app_iff. auto. }
  split; auto. unfold accepted in J. apply in_flat_map in J as (e & J & K). destruct e; try contradiction.
  destruct (root =? r); [|contradiction]. destruct K as [<-|[]]. destruct (origin_all _ _ _ X) as (_ & _ & O). eauto.
Qed.

(** ** One request callback per consumer at a time *)

Definition sub_held (st : state) : Prop := forall r b c id u d, calling st r b (CallRequest c id u d) ->
  exists x y, nth_error (s_conss st) c = Some y /\ get_bus st b = Some x /\ In (co_sub y) (b_subs x).

Lemma sub_held_step l st st' evs : reach st -> sub_held st -> step l st = Some (st', evs) -> sub_held st'.
Proof.
  intros Rc A H r b c id u d (x' & m & ss & stk & rest & G' & R').
  pose proof (reach_tree _ Rc) as T. pose proof (reach_lock _ Rc) as K. pose proof (reach_wired _ Rc) as W.
  destruct (get_bus st r) as [x|] eqn:G.
  2: { exfalso. assert (reach st') as Rc' by (eapply reach_step; eauto).
       assert (b_runner x' = RIdle) as E; [|congruence].
       destruct (step_new _ _ _ _ _ _ H G G') as (_ & _ & [(n & _ & _ & ->)|[(n & g & _ & _ & ->)|(b0 & xb & n & t & _ & _ & _ & _ & _ & ->)]]); reflexivity. }
  destruct (runner_label_dec l r) as [RL|RL].
  - destruct (run_inv' _ _ _ _ _ H RL) as (x0 & rn & act & G0 & RC & E). rewrite G in G0. injection G0 as <-.
    rewrite E, run_view, G in G'. simpl in G'. injection G' as <-. simpl in R'. rewrite Nat.eqb_refl in R'. subst rn.
    inversion RC; subst.
    match goal with Q : _ = b_runner x |- _ => rename Q into R0 end. match goal with Q : receive _ _ _ = _ |- _ => rename Q into Rv end.
    destruct (receive_request _ _ _ _ _ _ _ Rv) as (q & y0 & Nq & Ec & Ny & _).
    destruct (w_ccb _ W _ _ _ Nq Ec) as (y1 & Ny1 & Es). assert (y1 = y0) as -> by congruence.
    pose proof (k_stack _ K _ _ G) as Sk. rewrite <- R0 in Sk. simpl in Sk.
    destruct (stack_frame _ _ _ _ Sk (or_introl eq_refl)) as (z & pre & Gz & _ & Ez).
    rewrite run_view, Gz. simpl. do 2 eexists. split; [|split; [reflexivity|]].
    + unfold after_run. simpl. rewrite conss_upd. exact Ny.
    + simpl. rewrite Ez, Es. apply in_app_iff. right. now left.
  - assert (b_runner x = b_runner x') as ER.
    { destruct (step_delta _ _ _ _ _ _ H G) as (x2 & G2 & D). rewrite G' in G2. injection G2 as <-.
      destruct (d_runner _ _ _ _ _ _ D) as [E|[E|(_ & _ & _ & E)]]; [auto|contradiction|congruence]. }
    assert (calling st r b (CallRequest c id u d)) as Ca by (exists x, m, ss, stk, rest; split; auto; congruence).
    destruct (A _ _ _ _ _ _ Ca) as (z & y & Ny & Gz & I).
    destruct (step_cons _ _ _ _ _ _ H Ny) as (y' & Ny' & Es & _).
    destruct (step_delta _ _ _ _ _ _ H Gz) as (z' & Gz' & D). exists z', y'. split; auto. split; auto. rewrite Es.
    pose proof (k_stack _ K _ _ G) as Sk. rewrite ER, R' in Sk. simpl in Sk.
    destruct (stack_frame _ _ _ _ Sk (or_introl eq_refl)) as (z0 & pre & Gz0 & L & _). assert (z0 = z) as -> by congruence.
    destruct (d_subs _ _ _ _ _ _ D) as [->|[(_ & Q & _)|(s & _ & Q & _)]]; auto; congruence.
Qed.

Lemma reach_sub_held st : reach st -> sub_held st.
Proof.
  apply (reach_ind sub_held).
  - intros r b c id u d (x & m & ss & stk & rest & G & _). destruct r; discriminate.
  - intros l s s' evs Rc A H. eapply sub_held_step; eauto.
Qed.

Lemma one_request st r r' b b' c id id' u u' d d' :
  reach st -> calling st r b (CallRequest c id u d) -> calling st r' b' (CallRequest c id' u' d') -> r = r'.
Proof.
  intros Rc C C'. pose proof (reach_tree _ Rc) as T. pose proof (reach_lock _ Rc) as K. pose proof (reach_sub_held _ Rc) as S.
  destruct (S _ _ _ _ _ _ C) as (x & y & Ny & G & I). destruct (S _ _ _ _ _ _ C') as (x' & y' & Ny' & G' & I').
  assert (y' = y) as -> by congruence. assert (b = b') as <- by (eapply (t_subone _ T); eauto).
  destruct C as (z & m & ss & stk & rest & Gz & R), C' as (z' & m' & ss' & stk' & rest' & Gz' & R').
  apply (in_stack_unique st r r' (FSubs b ss) (FSubs b ss') T K); auto.
  - exists z. split; auto. rewrite R. now left.
  - exists z'. split; auto. rewrite R'. now left.
Qed.

(** The thread that is about to call a request callback of [c] is the only one that can be inside one. *)
Lemma no_other_request st r x m b s ss stk rest c id u d r' b' id' u' d' :
  reach st -> get_bus st r = Some x -> b_runner x = RDist m (FSubs b (s :: ss) :: stk) None rest ->
  receive st s (snd m) = InvCall (CallRequest c id u d) -> ~ calling st r' b' (CallRequest c id' u' d').
Proof.
  intros Rc G R Rv C'. pose proof (reach_tree _ Rc) as T. pose proof (reach_lock _ Rc) as K. pose proof (reach_sub_held _ Rc) as S.
  destruct (S _ _ _ _ _ _ C') as (x' & y' & Ny' & G' & I').
  destruct (receive_request _ _ _ _ _ _ _ Rv) as (q & y0 & Nq & Ec & Ny & _). assert (y' = y0) as -> by congruence.
  destruct (w_ccb _ (reach_wired _ Rc) _ _ _ Nq Ec) as (y1 & Ny1 & Es). assert (y1 = y0) as -> by congruence.
  pose proof (k_stack _ K _ _ G) as Sk. rewrite R in Sk. simpl in Sk.
  destruct (stack_frame _ _ _ _ Sk (or_introl eq_refl)) as (z & pre & Gz & _ & Ez).
  assert (b = b') as <-. { eapply (t_subone _ T b z b' x' s); eauto; [rewrite Ez; apply in_app_iff; right; now left|congruence]. }
  destruct C' as (z' & m' & ss' & stk' & rest' & Gz' & R').
  assert (r = r') as <-.
  { apply (in_stack_unique st r r' (FSubs b (s :: ss)) (FSubs b ss') T K); auto.
    - exists x. split; auto. rewrite R. now left.
    - exists z'. split; auto. rewrite R'. now left. }
  congruence.
Qed.

(** Returning from a request callback. *)
Lemma return_request st r b c id u d : reach st -> calling st r b (CallRequest c id u d) ->
  exists st' y y', step (LReturn r) st = Some (st', []) /\ nth_error (s_conss st) c = Some y /\ nth_error (s_conss st') c = Some y' /\
    co_sub y' = co_sub y /\ co_pub y' = co_pub y /\ co_open y' = oremove id (co_open y) /\
    (forall c', c' <> c -> nth_error (s_conss st') c' = nth_error (s_conss st) c').
Proof.
  intros Rc Ca. destruct (reach_sub_held _ Rc _ _ _ _ _ _ Ca) as (z & y & Ny & _).
  destruct Ca as (x & m & ss & stk & rest & G & R). simpl. unfold return_step. rewrite G, R. simpl. rewrite conss_upd, Ny.
  do 3 eexists. split; [reflexivity|]. simpl. split; [reflexivity|]. rewrite list_set_eq by (eapply nth_error_Some_lt; eauto).
  split; [reflexivity|]. simpl. repeat split; auto. intros c' Ne. now rewrite list_set_ne by auto.
Qed.

(** ** At most once *)

Definition fresh_answers (c : nat) (st : state) (tr : list event) : Prop :=
  NoDup (map fst (answered c tr)) /\
  (forall id, In id (map fst (answered c tr)) -> In id (map fst (requests c tr))) /\
  (forall id u, open_request st c id u -> In id (map fst (answered c tr)) -> exists r b u' d, calling st r b (CallRequest c id u' d)).

Lemma never_throws_init c ls l : never_throws c (ls ++ [l]) -> never_throws c ls.
Proof. intros N ls1 r e ls2 st1 tr1 -> X. apply (N ls1 r e (ls2 ++ [l]) st1 tr1); auto. now rewrite <- app_assoc. Qed.

Lemma NoDup_app_l {A} (l1 l2 : list A) : NoDup (l1 ++ l2) -> NoDup l1.
Proof. induction l1 as [|a l1 IH]; simpl; intros N; [constructor|]. inversion N; subst. constructor; auto. intros I. apply H1. apply in_app_iff; auto. Qed.

Lemma NoDup_snoc {A} (l : list A) a : NoDup l -> ~ In a l -> NoDup (l ++ [a]).
Proof. intros N I. apply NoDup_rev in N. rewrite <- (rev_involutive (l ++ [a])). apply NoDup_rev. rewrite rev_app_distr. simpl. constructor; auto. now rewrite <- in_rev. Qed.

Lemma fresh_all c ls st tr : exec ls init = Some (st, tr) -> never_throws c ls -> NoDup (map fst (requests c tr)) -> fresh_answers c st tr.
Proof.
  revert ls st tr. apply (exec_trace_ind init (fun st ls tr => never_throws c ls -> NoDup (map fst (requests c tr)) -> fresh_answers c st tr)).
  - intros _ _. split; [constructor|]. split; [intros id []|intros id u _ []].
  - intros ls l st st' tr evs X IH H NT ND. assert (reach st) as Rc by (exists ls, tr; auto).
    rewrite requests_app, map_app in ND. destruct (IH (never_throws_init _ _ _ NT) (NoDup_app_l _ _ ND)) as (A & B & C). clear IH.
    pose proof (open_registered c _ _ _ X) as OR.
    assert (forall id u, open_request st c id u -> In id (map fst (requests c tr))) as OR'.
    { intros id u (y & Ny & O). apply (in_map fst _ (id, u)), latest_in. eauto. }
    unfold fresh_answers. rewrite !answered_app, !requests_app, !map_app.
    destruct (answered c evs) as [|[id u] l0] eqn:Ea.
    + simpl. rewrite app_nil_r. split; [auto|]. split; [intros id I; apply in_app_iff; auto|].
      intros id u (y' & Ny' & O) I.
      destruct (nth_error (s_conss st) c) as [y|] eqn:Ny.
      2: { destruct (cons_new _ _ _ _ _ _ H Ny' Ny) as (? & ? & _ & _ & E & _). rewrite E in O. discriminate. }
      destruct (w_cons _ (reach_wired _ Rc) _ _ Ny) as (So & _).
      destruct (step_cons _ _ _ _ _ _ H Ny) as (y2 & Ny2 & _ & _ & E). rewrite Ny' in Ny2. injection Ny2 as <-.
      assert (open_request st c id u \/ exists d, l = LRequest c id d (Some u)) as [Oq|(d & ->)].
      { destruct E as [(E & _)|[(i & d & v & e & El & E & _)|(r & x & m & stk & rest & i & v & d & _ & _ & _ & E)]]; rewrite E in O.
        - left. exists y. auto.
        - destruct (String.eqb_spec i id) as [->|Ne].
          + rewrite olookup_insert_eq in O by auto. injection O as ->. right; eauto.
          + rewrite olookup_insert_ne in O by auto. left. exists y. auto.
        - destruct (String.eqb_spec i id) as [->|Ne].
          + rewrite olookup_remove_eq in O by auto. discriminate.
          + rewrite olookup_remove_ne in O by auto. left. exists y. auto. }
      2: { exfalso. destruct (step_requests _ _ _ _ c H) as [(i & d' & v & El & Er)|(_ & Nl)]; [|eapply Nl; reflexivity].
           injection El as <- <- <-. rewrite Er in ND. simpl in ND. apply NoDup_remove_2 in ND. apply ND. rewrite app_nil_r. auto. }
      destruct (C _ _ Oq I) as (r & b & u' & d & Ca).
      assert (l <> LReturn r) as N1.
      { intros ->. destruct (return_request _ _ _ _ _ _ _ Rc Ca) as (s2 & y3 & y4 & H2 & Ny3 & Ny4 & _ & _ & E4 & _).
        rewrite H in H2. injection H2 as <- _. assert (y4 = y') as -> by congruence. assert (y3 = y) as -> by congruence.
        rewrite E4, olookup_remove_eq in O by auto. discriminate. }
      assert (forall e, l <> LThrow r e) as N2. { intros e ->. apply (NT ls r e [] st tr eq_refl X b id u' d Ca). }
      exists r, b, u', d. destruct Ca as (x & m & ss & stk & rest & G & R).
      destruct (call_stays [l] st st' evs r x) as (x' & G' & R'); auto.
      * cbn [exec]. rewrite H. now rewrite app_nil_r.
      * rewrite R. discriminate.
      * exists x', m, ss, stk, rest. split; auto. congruence.
    + assert (In (id, u) (answered c evs)) as Ia by (rewrite Ea; now left).
      destruct (answered_inv _ _ _ _ _ _ _ H Ia) as (r & s & m & d & Ii).
      destruct (invoke_inv _ _ _ _ _ _ _ _ H Ii) as (x & b & ss & stk & rest & q & x' & -> & G & R & Nq & _ & Rv & -> & G' & R' & Ec).
      simpl in Ea. rewrite Nat.eqb_refl in Ea. injection Ea as <-.
      destruct (receive_request _ _ _ _ _ _ _ Rv) as (q0 & y & _ & _ & Ny & O & _).
      assert (open_request st c id u) as Oq by (exists y; auto).
      assert (~ In id (map fst (answered c tr))) as Fr.
      { intros I. destruct (C _ _ Oq I) as (r' & b' & u' & d' & Ca). eapply no_other_request; eauto. }
      simpl. split; [apply NoDup_snoc; auto|]. split.
      * intros i. rewrite !in_app_iff. intros [I|[<-|[]]]; left; auto. eauto.
      * intros i v (y' & Ny' & O') I. apply in_app_iff in I as [I|[<-|[]]].
        -- exfalso. rewrite Ec in Ny'. destruct (C i v) as (r' & b' & u' & d' & Ca); [exists y'; auto|auto|]. eapply no_other_request; eauto.
        -- exists r, b, u, d, x', m, ss, stk, rest. auto.
Qed.

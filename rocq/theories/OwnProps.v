(** C72, C73: what keeps what alive, and which raw pointers dangle. *)
From Coq Require Import List Arith Bool Lia Relations.
From Verif Require Import Prelude OwnModel OwnProofs.
Import ListNotations.
Open Scope list_scope.

(** States a client can bring about. *)
Definition ran (os : list oop) (st : own) : Prop := oexec os own0 = Some st.
Definition alive (x : nat) (st : own) : Prop := get x (w_heap st) <> Dead.
(** [x] has a shared_ptr to [y]. *)
Definition points (st : own) (x y : nat) : Prop := In y (refs (get x (w_heap st))).

Lemma ran_ok os st : ran os st -> oinv st /\ settled st.
Proof. intros R. destruct oinv0. eapply oexec_ok; eauto. Qed.

(** ** C72 *)

(** Reference counting: an object is there exactly as long as something that is there points to it. *)
Theorem C72_counted os st x : ran os st -> (alive x st <-> In x (w_held st) \/ exists y, alive y st /\ points st y x).
Proof.
  intros R. destruct (ran_ok _ _ R) as (I & Sd). split.
  - intros L. destruct (Sd x L) as [J|(y & J)]; auto. right. exists y. split; auto. intros D. rewrite D in J. contradiction.
  - intros [J|(y & _ & J)]; apply (oi_ref _ I); eauto.
Qed.
Print Assumptions C72_counted.

(** A provider or consumer, with its subscriber and its publisher, is there for ever. *)
Theorem C72_never_released os1 os2 st1 st2 a s p : ran os1 st1 -> oexec os2 st1 = Some st2 ->
  (exists caps, get a (w_heap st1) = ProvO s p caps) \/ (exists open, get a (w_heap st1) = ConsO s p open) ->
  alive a st2 /\ alive s st2 /\ alive p st2.
Proof.
  intros R H A. destruct (ran_ok _ _ R) as (I & Sd). destruct (oexec_ok _ _ _ H I Sd) as (I2 & S2). destruct (oexec_evo _ _ _ H I Sd) as (_ & A2).
  specialize (A2 a s p A). destruct (oi_priv _ I2 _ _ _ A2) as (Es & (b & Ep) & _). split; [|split]; unfold alive; try congruence.
  intros D. rewrite D in A2. eapply not_action_dead; eauto.
Qed.
Print Assumptions C72_never_released.

(** What an execution is: the calls one after the other, none of them undefined; refused ones are followed by others. *)
Inductive runs : own -> list oop -> own -> Prop :=
| runs_end st : runs st [] st
| runs_call st o st1 r os st2 : ostep o st = Some (st1, r) -> r <> Undef -> runs st1 os st2 -> runs st (o :: os) st2.
Theorem C72_runs os st st' : oexec os st = Some st' <-> runs st os st'.
Proof.
  split.
  - revert st. induction os as [|o os IH]; intros st H; simpl in H; [injection H as ->; constructor|].
    destruct (ostep o st) as [[st1 r]|] eqn:S; [|discriminate]. apply (runs_call _ _ _ r) with (1 := S); [intros ->; discriminate|]. apply IH. destruct r; auto; discriminate.
  - intros R. induction R as [|st o st1 r os st2 S N _ IH]; simpl; auto. rewrite S. destruct r; auto. congruence.
Qed.
Print Assumptions C72_runs.

(** Which calls can be refused or undefined: creating a child of a detached bus, which is always refused, looking for a child that
    is not there; and publishing. A refused call changes nothing. *)
Theorem C72_results os st o st' r : ran os st -> ostep o st = Some (st', r) ->
  (r = Refused <-> (exists b k ps, o = NewChild b /\ get b (w_heap st) = BusO None k ps) \/ (exists b k, o = FindChild b k /\ forall f ks ps, get b (w_heap st) = BusO f ks ps -> ~ In k ks)) /\
  (r = Refused -> st' = st) /\
  (r = Undef -> (exists p, o = Publish p) \/ (exists a, o = Respond a) \/ exists c caps, o = Request c caps).
Proof.
  intros R H. assert (forall o', o = o' -> match o' with PublishBus _ => r = Fine | _ => True end) as PB.
  { intros o' <-. destruct o; auto. destruct (ran_ok _ _ R) as (I & _). simpl in H. destruct (is_bus b st) eqn:B; [|discriminate]. injection H as <- <-. apply is_bus_get in B as (_ & f & k & ps & E).
    unfold publish_bus. rewrite E. destruct f as [r|]; auto. pose proof (root_live _ I _ _ _ _ E) as L. apply allocated_get in L. now rewrite L. }
  specialize (PB _ eq_refl).
  assert (forall h p, publish h p <> Refused) as NP. { intros h p. unfold publish, publish_bus. destruct (get p h) as [| |[b|]| | |]; try discriminate. destruct (get b h) as [[q|]| | | | |]; try discriminate. destruct (allocated q h); discriminate. }
  destruct o; simpl in H; repeat match type of H with
    | (if ?c then _ else _) = _ => destruct c eqn:?; try discriminate
    | match get ?b ?h with _ => _ end = _ => destruct (get b h) eqn:?; try discriminate
    | match ?f with Some _ => _ | None => _ end = _ => destruct f eqn:?; try discriminate
    end; injection H as <- <-; (split; [split|split]); intros Q; try discriminate Q; auto; try (exfalso; exact (NP _ _ Q)); try (exfalso; congruence);
    try (left; eauto; fail); try (right; left; eauto; fail); try (right; right; eauto; fail);
    try (destruct Q as [(? & ? & ? & X & Y)|(? & ? & X & Y)]; try discriminate X; try injection X as <-; try congruence; try injection X as <- <-).
  all: try (left; do 3 eexists; split; [reflexivity|eassumption]).
  all: try (apply is_bus_get in Heqb0; destruct Heqb0 as (_ & f & k & ps & E); congruence).
  - exfalso. subst x0. apply (Y _ _ _ Heqo). apply existsb_exists in Heqb1 as (z & Z & E). apply Nat.eqb_eq in E. now subst z.
  - right. exists b, k. split; auto. intros f ks ps E J. rewrite Heqo in E. injection E as <- <- <-.
    assert (mem k kids = true); [|congruence]. apply existsb_exists. exists k. split; auto. apply Nat.eqb_refl.
Qed.
Print Assumptions C72_results.

Example C72_results_case : exists st, ran [NewBus; NewChild 0; Detach 0; NewChild 0; NewCons 1; Reset 4] st /\
  get 1 (w_heap st) = BusO None [] [3; 2; 4] /\ ostep (NewChild 1) st = Some (st, Refused) /\ ostep (FindChild 0 4) st = Some (st, Refused) /\
  (exists st', ostep (FindChild 0 1) st = Some (st', New 1)) /\ ostep (Reset 4) st = Some (st, Fine).
Proof. eexists. split; [vm_compute; reflexivity|]. split; [reflexivity|]. split; [reflexivity|]. split; [reflexivity|]. split; [eexists; reflexivity|reflexivity]. Qed.

(** What a callback captured is there as long as the object that has the callback, until a call that lets go of it. *)
Definition capturing (o : oop) (x : nat) (caps : list nat) (r : ores) : Prop :=
  (exists b, o = NewSub b caps /\ r = New x) \/ (exists b, o = NewProv b caps /\ r = New x) \/ o = Request x caps \/ o = SetCallback x caps.
Theorem C72_captured os1 os2 st st1 st2 o r x caps y : ran os1 st -> ostep o st = Some (st1, r) -> capturing o x caps r -> oexec os2 st1 = Some st2 ->
  alive x st2 -> In y caps ->
  (forall i, ~ In (Answer x i) os2) -> (forall cs, ~ In (SetCallback x cs) os2) -> ~ In (Reset x) os2 -> (forall b, ~ In (DeleteSub b x) os2) ->
  alive y st2.
Proof.
  intros R H C H2 L Y N1 N2 N3 N4. destruct (ran_ok _ _ R) as (I & Sd). destruct (ostep_ok _ _ _ _ H I Sd) as (I1 & S1). destruct (oexec_ok _ _ _ H2 I1 S1) as (I2 & S2).
  destruct (oexec_evo _ _ _ H2 I1 S1) as (Ev & _). destruct (ostep_evo _ _ _ _ H I Sd) as ((Le & _) & _).
  assert (forall b l, length (add_part b l (w_heap st)) = length (w_heap st)) as La.
  { intros b l. unfold add_part. destruct (get b (w_heap st)); auto. apply list_set_length. }
  assert (x < length (w_heap st1) /\ (get x (w_heap st1) <> Dead -> In y (captures (get x (w_heap st1))))) as (Lx & Cy).
  { destruct C as [(b & -> & ->)|[(b & -> & ->)|[->| ->]]]; simpl in H.
    - destruct (is_bus b st && subset caps st); [|discriminate]. injection H as <- <-. simpl. rewrite app_length, La. simpl. split; [lia|]. intros _.
      pose proof (get_app2 0 (add_part b [length (w_heap st)] (w_heap st)) [SubO caps]) as G. rewrite La, Nat.add_0_r in G. rewrite G. exact Y.
    - destruct (is_bus b st && subset caps st); [|discriminate]. injection H as <- <-. simpl. rewrite app_length, La. simpl. split; [lia|]. intros _.
      match goal with |- In y (captures (get _ (?h ++ ?l))) => pose proof (get_app2 2 h l) as G end. rewrite La in G. replace (length (w_heap st) + 2) with (S (S (length (w_heap st)))) in G by lia.
      rewrite G. exact Y.
    - destruct (holds x st && subset caps st); [|discriminate]. destruct (get x (w_heap st)) as [| | | |s p op|] eqn:Ec; try discriminate. injection H as <- <-.
      assert (x < length (w_heap st)) as Lx by (apply get_live; congruence). simpl. rewrite list_set_length. split; auto. intros _.
      rewrite get_list_set, Nat.eqb_refl. destruct (Nat.ltb_spec x (length (w_heap st))); [|lia]. simpl. rewrite concat_app. apply in_or_app. right. simpl. now rewrite app_nil_r.
    - destruct (holds x st && subset caps st); [|discriminate]. destruct (get x (w_heap st)) as [|c0| | | |] eqn:Ec; try discriminate. injection H as <- <-.
      assert (x < length (w_heap st)) as Lx by (apply get_live; congruence). split; [lia|]. intros D. unfold settle in *.
      apply (collect_captures _ (mkOwn (list_set x (SubO caps) (w_heap st)) (w_held st)) x D). simpl. rewrite get_list_set, Nat.eqb_refl.
      destruct (Nat.ltb_spec x (length (w_heap st))); [exact Y|lia]. }
  assert (get x (w_heap st1) <> Dead) as L1 by (intros D; apply L; eapply evo_dead; eauto).
  apply (oi_ref _ I2). right. exists x. apply captures_refs. apply (oexec_captures os2 st1 st2 x H2 I1 S1 L1 L); auto.
  intros o' J [(i & ->)|[(cs & ->)|[->|(b & ->)]]]; [eapply N1|eapply N2|eapply N3|eapply N4]; eauto.
Qed.
Print Assumptions C72_captured.
(** A request that captured the bus keeps it until it is answered. *)
Example C72_captured_case : exists st st2, ran [NewBus; NewCons 0; Request 3 [0]; Drop 3; Drop 0] st /\ w_held st = [] /\ alive 0 st /\
  oexec [Answer 3 0] st = Some st2 /\ ~ alive 0 st2.
Proof. do 2 eexists. split; [vm_compute; reflexivity|]. split; [reflexivity|]. split; [discriminate|]. split; [vm_compute; reflexivity|]. intros L. apply L. reflexivity. Qed.
Example C72_captured_provider : exists st, ran [NewBus; NewProv 0 [0]; Drop 0] st /\ alive 0 st /\ exists st2, oexec [Reset 3] st = Some st2 /\ ~ alive 0 st2.
Proof. eexists. split; [vm_compute; reflexivity|]. split; [discriminate|]. eexists. split; [vm_compute; reflexivity|]. intros L. apply L. reflexivity. Qed.
Example C72_captured_subscriber : exists st, ran [NewBus; NewBus; NewSub 0 [1]; Drop 1] st /\ alive 1 st /\ exists st2, oexec [SetCallback 2 [0]] st = Some st2 /\ ~ alive 1 st2.
Proof. eexists. split; [vm_compute; reflexivity|]. split; [discriminate|]. eexists. split; [vm_compute; reflexivity|]. intros L. apply L. reflexivity. Qed.

(** A participant is made for its bus and the client; once deleted the bus does not point to it any more. *)
Theorem C72_made os st o b st1 x : ran os st -> (o = NewPub b \/ exists caps, o = NewSub b caps) -> ostep o st = Some (st1, New x) ->
  alive x st1 /\ In x (w_held st1) /\ forall y, points st1 y x -> y = b.
Proof.
  intros R Ho H. destruct (ran_ok _ _ R) as (I & Sd). destruct (ostep_ok _ _ _ _ H I Sd) as (I1 & S1).
  assert (exists o1 held, is_bus b st = true /\ incl (refs o1) (w_held st) /\ x = length (w_heap st) /\ st1 = mkOwn (add_part b [length (w_heap st)] (w_heap st) ++ [o1]) held /\ In x held) as (o1 & held & B & Rf & -> & -> & Hx).
  { destruct Ho as [->|(caps & ->)]; simpl in H.
    - destruct (is_bus b st); [|discriminate]. injection H as <- <-. do 2 eexists. split; auto. split; [|split; [reflexivity|split; [reflexivity|apply in_or_app; simpl; auto]]]. intros y [].
    - destruct (is_bus b st); [|discriminate]. destruct (subset caps st) eqn:Su; [|discriminate]. injection H as <- <-. do 2 eexists. split; auto.
      split; [|split; [reflexivity|split; [reflexivity|apply in_or_app; simpl; auto]]]. intros y J. eapply subset_in; eauto. }
  split; [apply (oi_ref _ I1); auto|]. split; auto. intros y J. unfold points in J. simpl in J. apply is_bus_get in B as (_ & f & k & ps & E). unfold add_part in J. rewrite E in J.
  destruct (Nat.eq_dec y b) as [|Ny]; auto. exfalso.
  assert (forall z, get z (w_heap st) <> Dead -> z < length (w_heap st)) as Lv by (intros; now apply get_live).
  destruct (Nat.lt_ge_cases y (length (w_heap st))) as [Ly|Gy].
  - rewrite get_app1 in J by now rewrite list_set_length. rewrite get_list_set in J. destruct (Nat.eqb_spec b y); [congruence|].
    assert (get (length (w_heap st)) (w_heap st) <> Dead) as X by (apply (oi_ref _ I); eauto). apply Lv in X. lia.
  - replace y with (length (list_set b (BusO f k (ps ++ [length (w_heap st)])) (w_heap st)) + (y - length (w_heap st))) in J by (rewrite list_set_length; lia).
    rewrite get_app2 in J. destruct (sing_cases o1 (y - length (w_heap st))) as [(X & _)|X]; rewrite X in J; [|contradiction].
    apply Rf in J. assert (get (length (w_heap st)) (w_heap st) <> Dead) as X' by (apply (oi_ref _ I); auto). apply Lv in X'. lia.
Qed.
Print Assumptions C72_made.
Theorem C72_deleted os st o b x st1 r : ran os st -> (o = DeleteSub b x \/ o = DeletePub b x) -> ostep o st = Some (st1, r) ->
  alive x st1 /\ ~ points st1 b x /\ captures (get x (w_heap st1)) = [].
Proof.
  intros R Ho H. destruct (ran_ok _ _ R) as (I & Sd). destruct (ostep_ok _ _ _ _ H I Sd) as (I1 & S1). destruct (ostep_evo _ _ _ _ H I Sd) as (Ev & _).
  assert (forall n st, w_held (collect n st) = w_held st) as Hh.
  { clear. induction n as [|n IH]; intros st; simpl; auto. destruct (garbage st); auto. rewrite IH; auto. }
  assert (exists f k ps o1, get b (w_heap st) = BusO f k ps /\ In b (w_held st) /\ In x (w_held st) /\ x <> b /\ x < length (w_heap st) /\ captures o1 = [] /\ (o1 = SubO [] \/ o1 = PubO None) /\
    st1 = settle (mkOwn (list_set x o1 (list_set b (BusO f k (remove_all x ps)) (w_heap st))) (w_held st))) as (f & k & ps & o1 & Eb & Hb & Hx & Nx & Lx & C1 & Ho1 & ->).
  { destruct Ho as [->| ->]; simpl in H.
    - destruct (is_bus b st) eqn:B; [|discriminate]. destruct (holds x st) eqn:Hx; [|discriminate]. apply is_bus_get in B as (Hb & f & k & ps & Eb). apply holds_in in Hx. simpl in H. rewrite Eb in H.
      destruct (get x (w_heap st)) eqn:Es; try discriminate. injection H as <- <-. exists f, k, ps, (SubO []). split; auto. split; auto. split; auto.
      split; [intros ->; congruence|]. split; [apply get_live; congruence|]. auto.
    - destruct (is_bus b st) eqn:B; [|discriminate]. destruct (holds x st) eqn:Hx; [|discriminate]. apply is_bus_get in B as (Hb & f & k & ps & Eb). apply holds_in in Hx. simpl in H. rewrite Eb in H.
      destruct (get x (w_heap st)) eqn:Es; try discriminate. injection H as <- <-. exists f, k, ps, (PubO None). split; auto. split; auto. split; auto.
      split; [intros ->; congruence|]. split; [apply get_live; congruence|]. auto. }
  assert (b < length (w_heap st)) as Lb by (apply get_live; congruence).
  assert (forall z, In z (w_held st) -> get z (w_heap (settle (mkOwn (list_set x o1 (list_set b (BusO f k (remove_all x ps)) (w_heap st))) (w_held st)))) <> Dead) as Al.
  { intros z J. apply (oi_ref _ I1). left. unfold settle. rewrite Hh; auto. }
  set (st2 := mkOwn (list_set x o1 (list_set b (BusO f k (remove_all x ps)) (w_heap st))) (w_held st)) in *.
  assert (get b (w_heap st2) = BusO f k (remove_all x ps)) as E2.
  { simpl. rewrite get_list_set. destruct (Nat.eqb_spec x b); [congruence|]. rewrite get_list_set, Nat.eqb_refl. destruct (Nat.ltb_spec b (length (w_heap st))); [auto|lia]. }
  assert (get x (w_heap st2) = o1) as X2.
  { simpl. rewrite get_list_set, Nat.eqb_refl, list_set_length. destruct (Nat.ltb_spec x (length (w_heap st))); [auto|lia]. }
  (* collecting changes neither *)
  assert (forall n s y, get y (w_heap (collect n s)) = Dead \/ refs (get y (w_heap (collect n s))) = refs (get y (w_heap s)) /\ captures (get y (w_heap (collect n s))) = captures (get y (w_heap s))) as Cr.
  { clear. assert (forall n b h y, refs (get y (detach n b h)) = refs (get y h) /\ captures (get y (detach n b h)) = captures (get y h)) as Dt.
    { clear. induction n as [|n IH]; intros b h y; simpl; auto. destruct (get b h) as [f k ps| | | | |] eqn:E; auto.
      assert (refs (get y (list_set b (BusO None k ps) h)) = refs (get y h) /\ captures (get y (list_set b (BusO None k ps) h)) = captures (get y h)) as (A & B).
      { rewrite get_list_set. destruct (Nat.eqb_spec b y) as [->|]; auto. assert (y < length h) by (apply get_live; congruence). destruct (Nat.ltb_spec y (length h)); [rewrite E; auto|lia]. }
      rewrite <- A, <- B. generalize (list_set b (BusO None k ps) h). clear -IH. induction k as [|z k IHk]; intros h; simpl; auto.
      destruct (IHk (detach n z h)) as (C & D). destruct (IH z h y) as (E & F). rewrite C, D. auto. }
    assert (forall x h y, y <> x -> refs (get y (free x h)) = refs (get y h) /\ captures (get y (free x h)) = captures (get y h)) as Ft.
    { intros x h y N. unfold free. rewrite get_list_set. destruct (Nat.eqb_spec x y); [congruence|]. destruct (get x h) as [f k ps| | | | |]; auto.
      generalize (length h). intros m. revert h. induction k as [|z k IHk]; intros h; simpl; auto. destruct (IHk (detach m z h)) as (C & D). destruct (Dt m z h y) as (E & F). rewrite C, D. auto. }
    induction n as [|n IH]; intros s y; simpl; auto. destruct (garbage s) as [x|]; auto. destruct (Nat.eq_dec y x) as [->|N].
    - left. apply collect_dead. simpl. apply free_self.
    - destruct (IH (mkOwn (free x (w_heap s)) (w_held s)) y) as [D|(C & D)]; auto. right. rewrite C, D. simpl. now apply Ft. }
  split; [now apply Al|]. split.
  - unfold points. destruct (Cr (length (w_heap st2)) st2 b) as [D|(D & _)]; [exfalso; eapply (Al b); eauto|]. unfold settle. rewrite D, E2. simpl. intros J. apply in_app_iff in J as [J|J].
    + destruct (oi_kid _ I _ _ _ _ _ Eb J) as (f' & k' & ps' & X).
      destruct Ho as [->| ->]; simpl in H; destruct (is_bus b st); try discriminate; destruct (holds x st); try discriminate; simpl in H; rewrite Eb, X in H; discriminate.
    + unfold remove_all in J. apply filter_In in J as (_ & J). rewrite Nat.eqb_refl in J. discriminate.
  - unfold settle. destruct (Cr (length (w_heap st2)) st2 x) as [D|(_ & D)]; [exfalso; eapply (Al x); eauto|]. rewrite D, X2. auto.
Qed.
Print Assumptions C72_deleted.
Example C72_deleted_case : exists st, ran [NewBus; NewSub 0 []; NewPub 0; DeleteSub 0 1; Drop 1; DeletePub 0 2; Drop 2] st /\ w_heap st = [BusO (Some 0) [] []; Dead; Dead].
Proof. eexists. split; [vm_compute; reflexivity|reflexivity]. Qed.
(** Several pointers to one object count. *)
Example C72_copies_case : exists st, ran [NewBus; NewChild 0; FindChild 0 1; Copy 0; Drop 0; Drop 1] st /\ w_held st = [1; 0] /\ w_heap st = [BusO (Some 0) [1] []; BusO (Some 0) [] []].
Proof. eexists. split; [vm_compute; reflexivity|]. split; reflexivity. Qed.

(** Without actions and without callbacks that captured anything, everything there is can be reached from what the client holds. *)
Theorem C72_released os st : ran os st -> (forall a, captures (get a (w_heap st)) = [] /\ forall s p, ~ is_action (get a (w_heap st)) s p) ->
  forall x, alive x st -> exists y, In y (w_held st) /\ clos_refl_trans nat (points st) y x.
Proof.
  intros R N. destruct (ran_ok _ _ R) as (I & Sd). induction x as [x IH] using (well_founded_induction lt_wf). intros L.
  destruct (Sd x L) as [J|(y & J)]; [exists x; split; auto; apply rt_refl|].
  assert (exists f k ps, get y (w_heap st) = BusO f k ps) as (f & k & ps & E).
  { destruct (N y) as (C & A). destruct (get y (w_heap st)) as [f k ps|c|f|s p c|s p op|] eqn:E; simpl in *; eauto; try contradiction.
    - subst c. contradiction.
    - exfalso. apply (A s p). left. eauto.
    - exfalso. apply (A s p). right. eauto. }
  assert (y < x) as Lt by (apply (oi_up _ I _ _ _ _ _ E); rewrite E in J; exact J).
  destruct (IH y Lt) as (z & Hz & P); [unfold alive; congruence|]. exists z. split; auto. eapply rt_trans; [exact P|]. apply rt_step. exact J.
Qed.
Print Assumptions C72_released.
Corollary C72_released_all os st : ran os st -> (forall a, captures (get a (w_heap st)) = [] /\ forall s p, ~ is_action (get a (w_heap st)) s p) ->
  w_held st = [] -> forall x, ~ alive x st.
Proof. intros R N H x L. destruct (C72_released _ _ R N x L) as (y & J & _). rewrite H in J. contradiction. Qed.
Print Assumptions C72_released_all.

(** One bus with a child and a participant of each kind; everything let go. What is left: the two actions. *)
Definition plain_ops : list oop := [NewBus; NewChild 0; NewPub 1; NewSub 1 []].
Definition drop_plain : list oop := [Drop 3; Drop 2; Drop 1; Drop 0].
Example C72_plain_case : exists st, ran (plain_ops ++ drop_plain) st /\ w_held st = [] /\ w_heap st = [Dead; Dead; Dead; Dead].
Proof. eexists. split; [vm_compute; reflexivity|]. split; reflexivity. Qed.
Example C72_plain_meets : exists st, ran plain_ops st /\ alive 3 st /\
  (forall a, captures (get a (w_heap st)) = [] /\ forall s p, ~ is_action (get a (w_heap st)) s p).
Proof.
  eexists. split; [vm_compute; reflexivity|]. split; [discriminate|]. intros [|[|[|[|a]]]]; (split; [try reflexivity|intros s p [(c & X)|(c & X)]; try discriminate X]).
  - unfold get. simpl. now destruct a.
  - unfold get in X. simpl in X. destruct a; discriminate X.
  - unfold get in X. simpl in X. destruct a; discriminate X.
Qed.
Example C72_action_case : exists st, ran [NewBus; NewProv 0 []; NewCons 0; Request 6 [0]; Answer 6 0; Drop 6; Reset 3; Drop 3; Drop 0] st /\ w_held st = [] /\
  w_heap st = [Dead; SubO [3]; PubO (Some 0); ProvO 1 2 []; SubO [6]; PubO (Some 0); ConsO 4 5 []].
Proof. eexists. split; [vm_compute; reflexivity|]. split; reflexivity. Qed.

(** That everything goes once nothing is held is not so: a callback that captured its own bus is enough. *)
Theorem C72_everything_released_refuted :
  ~ (forall os st, ran os st -> w_held st = [] -> (forall a s p, ~ is_action (get a (w_heap st)) s p) -> forall x, ~ alive x st).
Proof.
  intros H. specialize (H [NewBus; NewSub 0 [0]; Drop 1; Drop 0] (mkOwn [BusO (Some 0) [] [1]; SubO [0]] []) eq_refl eq_refl). apply (H) with (x := 0); [|discriminate].
  intros [|[|a]] s p [(c & X)|(c & X)]; unfold get in X; simpl in X; try discriminate X; destruct a; discriminate X.
Qed.
Print Assumptions C72_everything_released_refuted.
(** Deleting the subscriber first lets go of the bus. *)
Example C72_delete_case : exists st, ran [NewBus; NewSub 0 [0]; DeleteSub 0 1; Drop 1; Drop 0] st /\ w_heap st = [Dead; Dead].
Proof. eexists. split; [vm_compute; reflexivity|reflexivity]. Qed.

(** ** C73 *)

(** Publishing directly on a bus one has never goes wrong, whatever became of its parents. *)
Theorem C73_bus os st b st' r : ran os st -> ostep (PublishBus b) st = Some (st', r) -> r = Fine.
Proof.
  intros R H. destruct (ran_ok _ _ R) as (I & _). simpl in H. destruct (is_bus b st) eqn:B; [|discriminate]. injection H as <- <-. apply is_bus_get in B as (_ & f & k & ps & E).
  unfold publish_bus. rewrite E. destruct f as [r|]; auto. pose proof (root_live _ I _ _ _ _ E) as L. apply allocated_get in L. now rewrite L.
Qed.
Print Assumptions C73_bus.

(** Publishing through a publisher goes wrong exactly if its bus is gone and the publisher was neither reset nor deleted. *)
Theorem C73_publisher os1 os2 st st1 st2 b p st' r : ran os1 st -> ostep (NewPub b) st = Some (st1, New p) -> oexec os2 st1 = Some st2 ->
  ostep (Publish p) st2 = Some (st', r) ->
  (r = Undef <-> ~ alive b st2 /\ ~ In (Reset p) os2 /\ forall b', ~ In (DeletePub b' p) os2) /\ (r <> Undef -> r = Fine).
Proof.
  intros R Hn H Hp. destruct (ran_ok _ _ R) as (I & Sd). destruct (ostep_ok _ _ _ _ Hn I Sd) as (I1 & S1). destruct (oexec_ok _ _ _ H I1 S1) as (I2 & S2).
  destruct (oexec_evo _ _ _ H I1 S1) as (Ev & _).
  simpl in Hn. destruct (is_bus b st) eqn:B; [|discriminate]. injection Hn as <- <-. apply is_bus_get in B as (_ & f & k & ps & E).
  assert (b < length (w_heap st)) as Lb by (apply get_live; congruence).
  assert (get (length (w_heap st)) (add_part b [length (w_heap st)] (w_heap st) ++ [PubO (Some b)]) = PubO (Some b)) as E1.
  { unfold add_part. rewrite E. rewrite <- (list_set_length b (BusO f k (ps ++ [length (w_heap st)])) (w_heap st)) at 1. apply get_end. }
  assert (get b (add_part b [length (w_heap st)] (w_heap st) ++ [PubO (Some b)]) = BusO f k (ps ++ [length (w_heap st)])) as Eb1.
  { unfold add_part. rewrite E. rewrite get_app1 by now rewrite list_set_length. rewrite get_list_set, Nat.eqb_refl. destruct (Nat.ltb_spec b (length (w_heap st))); [auto|lia]. }
  set (p := length (w_heap st)) in *.
  simpl in Hp. destruct (holds p st2) eqn:Hh; [|discriminate]. apply holds_in in Hh. destruct (get p (w_heap st2)) as [| |g| | |] eqn:Ep; try discriminate. injection Hp as <- <-.
  assert (get b (w_heap st2) = Dead \/ exists f k ps, get b (w_heap st2) = BusO f k ps) as Cb.
  { destruct Ev as (Le & Ev). simpl in Ev, Le. destruct (Ev b) as [D|D]; auto; [rewrite app_length; unfold add_part; rewrite E, list_set_length; lia|].
    rewrite Eb1 in D. destruct (get b (w_heap st2)); simpl in D; try contradiction. right. eauto. }
  destruct (oexec_pub _ _ _ _ _ H I1 S1 E1) as (Tt & Tf); [congruence|]. simpl in Tt, Tf.
  assert (publish (w_heap st2) p <> Undef -> publish (w_heap st2) p = Fine) as Fi.
  { unfold publish. rewrite Ep. destruct g; auto. unfold publish_bus. destruct (get n (w_heap st2)) as [[r|] ? ?| | | | |]; try congruence. destruct (allocated r (w_heap st2)); congruence. }
  split; auto. split.
  - intros U. assert (~ touch os2 p) as NT. { intros T. apply Tt in T. unfold publish in U. rewrite T in U. discriminate. }
    pose proof (Tf NT) as G. unfold publish in U. rewrite G in U. apply (publish_bus_spec _ _ I2) in U. split.
    + intros L. destruct Cb as [D|D]; auto.
    + split; [intros J; apply NT; exists (Reset p); split; auto; now left|]. intros b' J. apply NT. exists (DeletePub b' p). split; auto. right. eauto.
  - intros (D & N1 & N2). assert (~ touch os2 p) as NT. { intros (o & J & [->|(b' & ->)]); [auto|eapply N2; eauto]. }
    unfold publish. rewrite (Tf NT). apply (publish_bus_spec _ _ I2). intros (f' & k' & ps' & X). apply D. unfold alive. congruence.
Qed.
Print Assumptions C73_publisher.

(** Holding the bus is enough. *)
Theorem C73_holding os1 os2 st st1 st2 b p st' r : ran os1 st -> ostep (NewPub b) st = Some (st1, New p) -> oexec os2 st1 = Some st2 ->
  In b (w_held st2) -> ostep (Publish p) st2 = Some (st', r) -> r = Fine.
Proof.
  intros R Hn H Hb Hp. destruct (C73_publisher _ _ _ _ _ _ _ _ _ R Hn H Hp) as ((A & _) & F).
  destruct (ran_ok _ _ R) as (I & Sd). destruct (ostep_ok _ _ _ _ Hn I Sd) as (I1 & S1). destruct (oexec_ok _ _ _ H I1 S1) as (I2 & S2).
  destruct r; try (apply F; discriminate). exfalso. apply (proj1 (A eq_refl)). apply (oi_ref _ I2). auto.
Qed.
Print Assumptions C73_holding.

(** A provider or consumer made on [b] works exactly as long as [b] is there; no call makes it safe again. *)
Theorem C73_action os1 os2 st st1 st2 b caps a s p o st' r : ran os1 st ->
  ostep (NewProv b caps) st = Some (st1, New a) \/ ostep (NewCons b) st = Some (st1, New a) ->
  (exists c, get a (w_heap st1) = ProvO s p c) \/ (exists c, get a (w_heap st1) = ConsO s p c) ->
  oexec os2 st1 = Some st2 ->
  (o = Respond a \/ exists cs, o = Request a cs) -> ostep o st2 = Some (st', r) ->
  (r = Undef <-> ~ alive b st2) /\ (r <> Undef -> r = Fine).
Proof.
  intros R Hn A H Ho Hp. destruct (ran_ok _ _ R) as (I & Sd).
  assert (exists o', ostep o' st = Some (st1, New a) /\ get p (w_heap st1) = PubO (Some b) /\ b < length (w_heap st1) /\ exists f k ps, get b (w_heap st1) = BusO f k ps) as (o' & Hn' & E1 & Lb1 & f1 & k1 & ps1 & Eb1).
  { assert (forall l l', is_bus b st = true -> length (add_part b l (w_heap st)) = length (w_heap st) /\ b < length (add_part b l (w_heap st) ++ l') /\ exists f k ps, get b (add_part b l (w_heap st) ++ l') = BusO f k ps) as Hb.
    { intros l l' B. apply is_bus_get in B as (_ & f & k & ps & E). assert (b < length (w_heap st)) as Lb by (apply get_live; congruence).
      unfold add_part. rewrite E, app_length, list_set_length. split; auto. split; [lia|]. exists f, k, (ps ++ l). rewrite get_app1 by now rewrite list_set_length.
      rewrite get_list_set, Nat.eqb_refl. destruct (Nat.ltb_spec b (length (w_heap st))); [auto|lia]. }
    destruct Hn as [Hn|Hn]; [exists (NewProv b caps)|exists (NewCons b)]; (split; [exact Hn|]); simpl in Hn.
    - destruct (is_bus b st) eqn:B; [|discriminate]. destruct (subset caps st); [|discriminate]. injection Hn as <- <-. simpl in *.
      destruct (Hb [length (w_heap st); S (length (w_heap st)); S (S (length (w_heap st)))] [SubO [S (S (length (w_heap st)))]; PubO (Some b); ProvO (length (w_heap st)) (S (length (w_heap st))) caps] eq_refl) as (L & Lb & Eb).
      split; [|split; auto]. set (h := add_part b [length (w_heap st); S (length (w_heap st)); S (S (length (w_heap st)))] (w_heap st)) in *. set (l := [SubO _; _; _]) in *.
      assert (S (S (length (w_heap st))) = length h + 2) as L2 by lia. rewrite L2, get_app2 in A. unfold l in A. unfold get in A at 1 2. simpl in A.
      assert (p = length h + 1) as ->. { destruct A as [(c & A)|(c & A)]; inversion A. lia. } rewrite get_app2. reflexivity.
    - destruct (is_bus b st) eqn:B; [|discriminate]. injection Hn as <- <-. simpl in *.
      destruct (Hb [S (length (w_heap st)); length (w_heap st); S (S (length (w_heap st)))] [SubO [S (S (length (w_heap st)))]; PubO (Some b); ConsO (length (w_heap st)) (S (length (w_heap st))) []] eq_refl) as (L & Lb & Eb).
      split; [|split; auto]. set (h := add_part b [S (length (w_heap st)); length (w_heap st); S (S (length (w_heap st)))] (w_heap st)) in *. set (l := [SubO _; _; _]) in *.
      assert (S (S (length (w_heap st))) = length h + 2) as L2 by lia. rewrite L2, get_app2 in A. unfold l in A. unfold get in A at 1 2. simpl in A.
      assert (p = length h + 1) as ->. { destruct A as [(c & A)|(c & A)]; inversion A. lia. } rewrite get_app2. reflexivity. }
  destruct (ostep_ok _ _ _ _ Hn' I Sd) as (I1 & S1). destruct (oexec_ok _ _ _ H I1 S1) as (I2 & S2). destruct (oexec_evo _ _ _ H I1 S1) as (Ev & _).
  destruct (oexec_action_pub _ _ _ _ _ _ _ H I1 S1 A E1) as (A2 & E2).
  assert (r = publish_bus (w_heap st2) b) as ->.
  { assert (publish (w_heap st2) p = publish_bus (w_heap st2) b) as <- by (unfold publish; now rewrite E2).
    destruct Ho as [->|(cs & ->)]; simpl in Hp.
    - destruct (holds a st2); [|discriminate]. destruct A2 as [(c & A2)|(c & A2)]; rewrite A2 in Hp; [|discriminate]. congruence.
    - destruct (holds a st2 && subset cs st2); [|discriminate]. destruct A2 as [(c & A2)|(c & A2)]; rewrite A2 in Hp; [discriminate|]. congruence. }
  split.
  - rewrite (publish_bus_spec _ _ I2). unfold alive. destruct Ev as (_ & Ev). destruct (Ev b Lb1) as [D|D].
    + rewrite D. split; [auto|]. intros _ (f & k & ps & X). discriminate.
    + rewrite Eb1 in D. destruct (get b (w_heap st2)); simpl in D; try contradiction. split; [intros N _; apply N; eauto|]. intros N. exfalso. apply N. discriminate.
  - unfold publish_bus. destruct (get b (w_heap st2)) as [[q|] ? ?| | | | |]; try congruence. destruct (allocated q (w_heap st2)); congruence.
Qed.
Print Assumptions C73_action.

(** Concrete cases: the bus goes, the publisher stays. *)
Definition gone : list oop := [NewBus; NewPub 0; Drop 0].
Example C73_gone : exists st, ran gone st /\ w_heap st = [Dead; PubO (Some 0)] /\ ostep (Publish 1) st = Some (st, Undef) /\
  exists st1, ostep (Reset 1) st = Some (st1, Fine) /\ ostep (Publish 1) st1 = Some (st1, Fine).
Proof. eexists. split; [vm_compute; reflexivity|]. split; [reflexivity|]. split; [reflexivity|]. eexists. split; reflexivity. Qed.
(** A child outlives its parent: publishing on it is harmless; its publisher works as long as the child is there. *)
Example C73_child : exists st, ran [NewBus; NewChild 0; NewPub 1; Drop 0] st /\ w_heap st = [Dead; BusO None [] [2]; PubO (Some 1)] /\
  ostep (PublishBus 1) st = Some (st, Fine) /\ ostep (Publish 2) st = Some (st, Fine) /\
  exists st1, ostep (Drop 1) st = Some (st1, Fine) /\ ostep (Publish 2) st1 = Some (st1, Undef).
Proof. eexists. split; [vm_compute; reflexivity|]. split; [reflexivity|]. split; [reflexivity|]. split; [reflexivity|]. eexists. split; reflexivity. Qed.
Example C73_respond : exists st, ran [NewBus; NewProv 0 []; Drop 0] st /\ ostep (Respond 3) st = Some (st, Undef).
Proof. eexists. split; [vm_compute; reflexivity|reflexivity]. Qed.
(** That every call on something one holds is defined is not so. *)
Theorem C73_always_defined_refuted : ~ (forall os st o st' r, ran os st -> ostep o st = Some (st', r) -> r <> Undef).
Proof. intros H. eapply (H gone (mkOwn [Dead; PubO (Some 0)] [1]) (Publish 1)); reflexivity. Qed.
Print Assumptions C73_always_defined_refuted.

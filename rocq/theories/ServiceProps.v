(** C62: the statuses the Windows service reports. C68: how the service ends. *)
From Coq Require Import List Arith NArith Bool Lia.
From Verif Require Import LifeModel ServiceModel.
Import ListNotations.

(** * Specification *)

(** The statuses the control manager is told, in order. *)
Fixpoint reports (evs : list sevent) : list status :=
  match evs with
  | [] => []
  | Reported f :: evs' => f :: reports evs'
  | _ :: evs' => reports evs'
  end.

Definition pending (f : status) : bool :=
  match st_state f with StartPending | StopPending => true | Running | Stopped => false end.

(** The checkpoints of the pending states, in order. *)
Definition checks (evs : list sevent) : list N := map st_check (filter pending (reports evs)).

(** A thread has begun a call of ReportStatus and has not finished it. *)
Definition begun (r : rpc) : Prop := r <> RState.
Definition main_inside (s : service) : Prop := exists x r k, sv_main s = MReport x r k /\ begun r.
Definition hand_inside (s : service) : Prop := exists x r k, sv_hand s = HReport x r k /\ begun r.

(** The two threads are never inside ReportStatus at the same time. *)
Definition apart (ls : list slabel) : Prop :=
  forall n s evs, sexec (firstn n ls) service_init = Some (s, evs) -> ~ (main_inside s /\ hand_inside s).

(** * Executions *)

Lemma sexec_app ls1 ls2 s :
  sexec (ls1 ++ ls2) s =
  match sexec ls1 s with
  | Some (s1, e1) => match sexec ls2 s1 with Some (s2, e2) => Some (s2, e1 ++ e2) | None => None end
  | None => None
  end.
Proof.
  revert s; induction ls1 as [|l ls1 IH]; intros s; cbn [app sexec].
  - destruct (sexec ls2 s) as [[? ?]|]; reflexivity.
  - destruct (sstep l s) as [[[s1 e1]|]|]; auto. rewrite IH.
    destruct (sexec ls1 s1) as [[s2 e2]|]; auto.
    destruct (sexec ls2 s2) as [[s3 e3]|]; auto. now rewrite app_assoc.
Qed.

Lemma sexec_snoc ls l s s2 evs :
  sexec (ls ++ [l]) s = Some (s2, evs) ->
  exists s1 e1 e2, sexec ls s = Some (s1, e1) /\ sstep l s1 = Some (Some (s2, e2)) /\ evs = e1 ++ e2.
Proof.
  rewrite sexec_app. destruct (sexec ls s) as [[s1 e1]|]; [|discriminate]. cbn [sexec].
  destruct (sstep l s1) as [[[s3 e3]|]|] eqn:E; try discriminate. intros [= <- <-].
  exists s1, e1, e3. now rewrite app_nil_r.
Qed.

Lemma apart_snoc ls l : apart (ls ++ [l]) -> apart ls.
Proof.
  intros A n s evs X.
  destruct (le_lt_dec n (length ls)) as [L|L].
  - apply (A n s evs). rewrite firstn_app. replace (n - length ls) with 0 by lia. now rewrite firstn_O, app_nil_r.
  - apply (A (length ls) s evs). rewrite firstn_app, Nat.sub_diag, firstn_O, app_nil_r, firstn_all.
    rewrite firstn_all2 in X by lia. exact X.
Qed.

Lemma apart_now ls s evs : apart ls -> sexec ls service_init = Some (s, evs) -> ~ (main_inside s /\ hand_inside s).
Proof. intros A X. apply (A (length ls) s evs). now rewrite firstn_all. Qed.

Lemma reports_app e1 e2 : reports (e1 ++ e2) = reports e1 ++ reports e2.
Proof. induction e1 as [|[]]; cbn [app reports]; auto. now rewrite IHe1. Qed.

Lemma checks_app e1 e2 : checks (e1 ++ e2) = checks e1 ++ checks e2.
Proof. unfold checks. now rewrite reports_app, filter_app, map_app. Qed.

Lemma reports_none es : reports (map App es) = [].
Proof. induction es; auto. Qed.

(** * Steps *)

Definition mmove (nx : option rpc) (x : svc) (k : mnext) : mpc :=
  match nx with Some r' => MReport x r' k | None => after_main k end.
Definition hmove (nx : option rpc) (x : svc) (k : hnext) : hpc :=
  match nx with Some r' => HReport x r' k | None => after_hand k end.

Inductive scase (s s2 : service) (evs : list sevent) : Prop :=
| CMainReport x r k f c nx :
    sv_main s = MReport x r k -> report_step x r (sv_status s) (sv_count s) = (f, c, evs, nx) ->
    s2 = with_main (mmove nx x k) (with_report f c s) -> scase s s2 evs
| CHandReport x r k f c nx :
    sv_hand s = HReport x r k -> report_step x r (sv_status s) (sv_count s) = (f, c, evs, nx) ->
    s2 = with_hand (hmove nx x k) (with_report f c s) -> scase s s2 evs
| CMainOther :
    (forall x r k, sv_main s <> MReport x r k) -> (forall x r k, sv_main s2 = MReport x r k -> r = RState) ->
    sv_hand s2 = sv_hand s -> sv_status s2 = sv_status s -> sv_count s2 = sv_count s -> reports evs = [] -> scase s s2 evs
| CHandOther :
    (forall x r k, sv_hand s <> HReport x r k) -> (forall x r k, sv_hand s2 = HReport x r k -> r = RState) ->
    sv_main s2 = sv_main s -> sv_status s2 = sv_status s -> sv_count s2 = sv_count s -> evs = [] -> scase s s2 evs
| CApp :
    sv_main s2 = sv_main s -> sv_hand s2 = sv_hand s -> sv_status s2 = sv_status s -> sv_count s2 = sv_count s ->
    reports evs = [] -> scase s s2 evs.

Lemma sstep_cases l s s2 evs : sstep l s = Some (Some (s2, evs)) -> scase s s2 evs.
Proof.
  intros H. destruct l as [|ok| | |l]; cbn [sstep] in H.
  - destruct (sv_main s) as [x r k| | | | | | |] eqn:M; try discriminate.
    + destruct (report_step x r (sv_status s) (sv_count s)) as [[[f c] es] nx] eqn:R.
      injection H as <- <-. eapply CMainReport; eauto.
    + injection H as <- <-. apply CMainOther; cbn; auto; congruence.
    + injection H as <- <-. apply CMainOther; cbn; auto; destruct (is_stopped (sv_life s)); congruence.
    + destruct (sv_event s) as [[]|]; try discriminate. injection H as <- <-.
      apply CMainOther; cbn; auto; congruence.
    + destruct (lstep LStop (sv_life s)) as [[[l' e]|]|]; try discriminate. injection H as <- <-.
      apply CMainOther; cbn; auto; congruence.
    + destruct (lf_phase (sv_life s)); try discriminate. destruct (sv_spawned s); try discriminate.
      injection H as <- <-. apply CMainOther; cbn; auto; congruence.
  - destruct (sv_main s) as [x r k| | | | | | |] eqn:M; try discriminate.
    destruct ok; injection H as <- <-; apply CMainOther; cbn; auto; congruence.
  - destruct (sv_hand s) as [|x r k| |] eqn:M; try discriminate. injection H as <- <-.
    apply CHandOther; cbn; auto; congruence.
  - destruct (sv_hand s) as [|x r k| |] eqn:M; try discriminate.
    + destruct (report_step x r (sv_status s) (sv_count s)) as [[[f c] es] nx] eqn:R.
      injection H as <- <-. eapply CHandReport; eauto.
    + injection H as <- <-. apply CHandOther; cbn; auto; congruence.
    + injection H as <- <-. apply CHandOther; cbn; auto; congruence.
  - assert (forall b l', match lstep l' (sv_life s) with
            | Some (Some (f, es)) => Some (Some (with_life b f s, map App es))
            | Some None => Some None | None => None end = Some (Some (s2, evs)) -> scase s s2 evs) as A.
    { intros b l' X. destruct (lstep l' (sv_life s)) as [[[f es]|]|]; try discriminate.
      injection X as <- <-. apply CApp; cbn; auto. apply reports_none. }
    destruct l; try discriminate; try (now apply (A _ _ H)).
    destruct (sv_spawned s); [|discriminate]. now apply (A _ _ H).
Qed.

(** * The statuses *)

Definition numbered (k : nat) : N := dword (N.of_nat k).

(** A thread is at [r] of ReportStatus(x) and has been alone since it began; [n] pending states have been reported. *)
Definition ok_at (x : svc) (r : rpc) (f : status) (c : N) (n : nat) : Prop :=
  match r with
  | RState => c = numbered (S n)
  | RControls => c = numbered (S n) /\ st_state f = x
  | RCheck => c = numbered (S n) /\ st_state f = x /\ st_accept f = negb (starting x)
  | RSend => st_state f = x /\ st_accept f = negb (starting x) /\
             if settled x then st_check f = 0%N /\ c = numbered (S n)
             else st_check f = numbered (S n) /\ c = numbered (S (S n))
  end.

Definition good (f : status) : Prop :=
  (pending f = false -> st_check f = 0%N) /\ (st_accept f = true <-> st_state f <> StartPending).

Record sinv (s : service) (evs : list sevent) : Prop := {
  si_good : Forall good (reports evs);
  si_checks : checks evs = map numbered (seq 1 (length (checks evs)));
  si_main : forall x r k, sv_main s = MReport x r k -> begun r -> ok_at x r (sv_status s) (sv_count s) (length (checks evs));
  si_hand : forall x r k, sv_hand s = HReport x r k -> begun r -> ok_at x r (sv_status s) (sv_count s) (length (checks evs));
  si_count : ~ main_inside s -> ~ hand_inside s -> sv_count s = numbered (S (length (checks evs)))
}.

Lemma next_number n : dword (numbered n + 1) = numbered (S n).
Proof.
  unfold numbered, dword. rewrite N.add_mod_idemp_l by discriminate. f_equal. lia.
Qed.

(** A step of a report by a thread that is alone. *)
Lemma report_ok x r f c n f' c' evs nx :
  ok_at x r f c n -> report_step x r f c = (f', c', evs, nx) ->
  Forall good (reports evs) /\
  checks evs = map numbered (seq (S n) (length (checks evs))) /\
  match nx with
  | Some r' => begun r' /\ ok_at x r' f' c' (n + length (checks evs))
  | None => c' = numbered (S (n + length (checks evs)))
  end.
Proof.
  intros O R. destruct r; cbn [report_step] in R.
  - injection R as <- <- <- <-. cbn. rewrite Nat.add_0_r. repeat split; auto. discriminate.
  - injection R as <- <- <- <-. destruct O as [-> O]. cbn. rewrite Nat.add_0_r. repeat split; auto. discriminate.
  - destruct O as (-> & O1 & O2). destruct (settled x) eqn:D; injection R as <- <- <- <-; cbn; rewrite Nat.add_0_r, D.
    + repeat split; auto; discriminate.
    + rewrite next_number. repeat split; auto; discriminate.
  - injection R as <- <- <- <-. destruct O as (O1 & O2 & O3). unfold checks. cbn [reports filter].
    assert (good f /\ pending f = negb (settled x)) as [GF PF].
    { unfold good, pending. rewrite O1, O2. destruct x; cbn in O3 |- *; destruct O3 as [O3 _]; rewrite ?O3;
        repeat split; congruence. }
    rewrite PF. split; [constructor; auto|].
    destruct (settled x); destruct O3 as [O3 ->]; cbn; rewrite ?O3, ?Nat.add_0_r, ?Nat.add_1_r; auto.
Qed.

Lemma grow l2 evs n :
  n = length (checks evs) -> checks evs = map numbered (seq 1 n) ->
  checks l2 = map numbered (seq (S n) (length (checks l2))) ->
  checks (evs ++ l2) = map numbered (seq 1 (length (checks (evs ++ l2)))).
Proof.
  intros -> E1 E2. rewrite checks_app, app_length, seq_app, map_app, <- E1. f_equal. exact E2.
Qed.

Lemma quiet evs e : reports e = [] -> reports (evs ++ e) = reports evs /\ checks (evs ++ e) = checks evs.
Proof.
  intros E. rewrite checks_app, reports_app. unfold checks at 2. rewrite E. cbn. now rewrite !app_nil_r.
Qed.

Lemma sinv_holds ls s evs : apart ls -> sexec ls service_init = Some (s, evs) -> sinv s evs.
Proof.
  revert s evs. induction ls as [|l ls IH] using rev_ind; intros s2 evs A X.
  - injection X as <- <-. constructor; cbn; auto; try discriminate.
    intros x r k [= <- <- <-] B. now destruct B.
  - pose proof (apart_now _ _ _ A X) as NOW2.
    destruct (sexec_snoc _ _ _ _ _ X) as (s & e1 & e2 & X1 & ST & ->).
    pose proof (apart_snoc _ _ A) as A1. pose proof (apart_now _ _ _ A1 X1) as NOW1.
    destruct (IH s e1 A1 X1) as [G C M H N].
    destruct (sstep_cases _ _ _ _ ST) as [x r k f c nx E R ->|x r k f c nx E R ->|E1 E2 E3 E4 E5 E6|E1 E2 E3 E4 E5 E6|E1 E2 E3 E4 E5].
    + assert (~ hand_inside s) as NH.
      { intros HI. destruct r; [|apply NOW1|apply NOW1|apply NOW1]; try (split; auto; exists x; do 2 eexists; split; [exact E|discriminate]).
        apply NOW2. cbn in R. injection R as <- <- <- <-. split; [|exact HI].
        exists x, RControls, k. split; [reflexivity|discriminate]. }
      assert (ok_at x r (sv_status s) (sv_count s) (length (checks e1))) as O.
      { destruct r; try (now apply (M _ _ _ E); discriminate). cbn. apply N; auto.
        intros (x' & r' & k' & E' & B). rewrite E in E'. injection E' as <- <- <-. now apply B. }
      destruct (report_ok _ _ _ _ _ _ _ _ _ O R) as (O1 & O2 & O3).
      constructor.
      * rewrite reports_app. apply Forall_app; auto.
      * eapply grow; eauto.
      * rewrite checks_app, app_length. cbn. intros x' r' k' E' B.
        destruct nx as [r2|]; cbn in E'.
        -- injection E' as <- <- <-. apply O3.
        -- destruct k; discriminate.
      * intros x' r' k' E' B. cbn in E'. exfalso. apply NH. exists x', r', k'. auto.
      * rewrite checks_app, app_length. cbn. intros NM _. destruct nx as [r2|]; [|exact O3].
        exfalso. apply NM. exists x, r2, k. split; [reflexivity|apply O3].
    + assert (~ main_inside s) as NH.
      { intros HI. destruct r; [|apply NOW1|apply NOW1|apply NOW1]; try (split; auto; exists x; do 2 eexists; split; [exact E|discriminate]).
        apply NOW2. cbn in R. injection R as <- <- <- <-. split; [exact HI|].
        exists x, RControls, k. split; [reflexivity|discriminate]. }
      assert (ok_at x r (sv_status s) (sv_count s) (length (checks e1))) as O.
      { destruct r; try (now apply (H _ _ _ E); discriminate). cbn. apply N; auto.
        intros (x' & r' & k' & E' & B). rewrite E in E'. injection E' as <- <- <-. now apply B. }
      destruct (report_ok _ _ _ _ _ _ _ _ _ O R) as (O1 & O2 & O3).
      constructor.
      * rewrite reports_app. apply Forall_app; auto.
      * eapply grow; eauto.
      * intros x' r' k' E' B. cbn in E'. exfalso. apply NH. exists x', r', k'. auto.
      * rewrite checks_app, app_length. cbn. intros x' r' k' E' B.
        destruct nx as [r2|]; cbn in E'.
        -- injection E' as <- <- <-. apply O3.
        -- destruct k; discriminate.
      * rewrite checks_app, app_length. cbn. intros _ NM. destruct nx as [r2|]; [|exact O3].
        exfalso. apply NM. exists x, r2, k. split; [reflexivity|apply O3].
    + destruct (quiet e1 e2 E6) as [Q1 Q2]. constructor; rewrite ?Q1, ?Q2, ?E3, ?E4, ?E5; auto.
      * intros x r k E B. apply E2 in E. now destruct B.
      * intros _ NH. apply N; [intros (x & r & k & E & _); now apply E1 in E|].
        intros (x & r & k & E & B). apply NH. exists x, r, k. rewrite E3. auto.
    + subst e2. rewrite app_nil_r. constructor; rewrite ?E3, ?E4, ?E5; auto.
      * intros x r k E B. apply E2 in E. now destruct B.
      * intros NM _. apply N; [|intros (x & r & k & E & _); now apply E1 in E].
        intros (x & r & k & E & B). apply NM. exists x, r, k. rewrite E3. auto.
    + destruct (quiet e1 e2 E5) as [Q1 Q2]. constructor; rewrite ?Q1, ?Q2, ?E1, ?E2, ?E3, ?E4; auto.
      intros NM NH. apply N; intros (x & r & k & E & B); [apply NM|apply NH]; exists x, r, k; rewrite ?E1, ?E2; auto.
Qed.

(** C62: while the two threads' reports do not overlap, the checkpoint is 0 for running and stopped, the k-th pending
    report has the number k modulo 2^32, and the stop control is accepted in every state but START_PENDING. *)
Theorem C62_reports_partial : forall ls s evs,
  sexec ls service_init = Some (s, evs) -> apart ls ->
  (forall f, In f (reports evs) ->
     (st_state f = Running \/ st_state f = Stopped -> st_check f = 0%N) /\
     (st_accept f = true <-> st_state f <> StartPending)) /\
  (forall k c, nth_error (checks evs) k = Some c -> c = (N.of_nat (S k) mod 2 ^ 32)%N).
Proof.
  intros ls s evs X A. destruct (sinv_holds _ _ _ A X) as [G C _ _ _]. split.
  - intros f I. rewrite Forall_forall in G. destruct (G f I) as [G1 G2]. split; auto.
    intros D. apply G1. unfold pending. now destruct D as [-> | ->].
  - intros k c E. rewrite C in E. rewrite nth_error_map in E.
    destruct (nth_error (seq 1 (length (checks evs))) k) as [m|] eqn:F; [|discriminate].
    cbn in E. injection E as <-.
    assert (k < length (seq 1 (length (checks evs)))) as L by (apply nth_error_Some; congruence).
    rewrite seq_length in L. apply (nth_error_nth _ _ 0) in F. rewrite seq_nth in F by exact L. now subst m.
Qed.
Print Assumptions C62_reports_partial.

(** C62: so the numbers of the pending reports increase strictly, up to the 2^32-th. *)
Theorem C62_increasing_partial : forall ls s evs,
  sexec ls service_init = Some (s, evs) -> apart ls ->
  forall i j c d, i < j -> (N.of_nat (S j) < 2 ^ 32)%N ->
  nth_error (checks evs) i = Some c -> nth_error (checks evs) j = Some d -> (c < d)%N.
Proof.
  intros ls s evs X A i j c d L B E F. destruct (C62_reports_partial _ _ _ X A) as [_ P].
  apply P in E. apply P in F. subst. rewrite !N.mod_small by lia. lia.
Qed.
Print Assumptions C62_increasing_partial.

(** * The application *)

Definition busy (p : phase) : Prop := match p with Check | Wait | Test | Work _ => True | _ => False end.

(** Nobody has asked the application to stop. *)
Definition going (b : bool) (l : life) : Prop :=
  lf_made l = true /\ lf_bus l = true /\ lf_run l <> RsStopped /\
  (lf_phase l = Idle /\ b = true \/ b = false /\ (lf_phase l = Setup \/ busy (lf_phase l) /\ lf_should l = true)).

Definition fresh (b : bool) (l : life) : Prop := b = false /\ l = mkLife true Idle true false RsUnknown.

(** The main thread's place, what it reports there, and the application. *)
Definition placed (s : service) (evs : list sevent) : Prop :=
  match sv_main s with
  | MReport x _ ToCreate => x = StartPending /\ fresh (sv_spawned s) (sv_life s)
  | MCreate => fresh (sv_spawned s) (sv_life s)
  | MReport x _ ToSpawn => x = Running /\ fresh (sv_spawned s) (sv_life s)
  | MReport x _ ToEnd => x = Stopped /\ fresh (sv_spawned s) (sv_life s)
  | MSpawn => fresh (sv_spawned s) (sv_life s)
  | MTest | MWait => going (sv_spawned s) (sv_life s)
  | MReport x _ ToStop => x = Stopped /\ going (sv_spawned s) (sv_life s)
  | MStop => going (sv_spawned s) (sv_life s)
  | MJoin | MEnd => True
  end /\
  (In (App EvBusEnded) evs -> In AppStop evs).

Definition active (p : mpc) : Prop := match p with MJoin | MEnd => False | _ => True end.

Lemma busy_step l s s2 es b :
  going b s -> lstep l s = Some (Some (s2, es)) -> l <> LMake -> l <> LStop -> (forall x, l <> LRaise x) -> (l = LStart -> b = true) ->
  going (match l with LStart => false | _ => b end) s2 /\ ~ In EvBusEnded es.
Proof.
  intros (G1 & G2 & G3 & G4) H N1 N2 N3 N4. destruct s as [m p bu sh rn]. cbn in *. subst m bu.
  destruct l; try congruence; destruct p as [| | | | |[|n']| | | |]; try discriminate; cbn in H;
    try (destruct G4 as [[G4 G5]|[G4 [G5|[G5 G6]]]]; try discriminate; cbn in G5; try tauto; subst).
  all: try (destruct sh; try discriminate); injection H as <- <-; unfold going; cbn;
    repeat split; auto; try congruence; try (intros [Z|Z]; [discriminate|tauto]); try tauto.
Qed.

(** Nothing but [LStart], which needs the thread, moves a fresh application. *)
Lemma fresh_stuck l s2 es : l <> LMake -> l <> LStart -> l <> LStop ->
  lstep l (mkLife true Idle true false RsUnknown) = Some (Some (s2, es)) -> False.
Proof. intros A B C H. destruct l; cbn in H; congruence. Qed.

Lemma app_inv l s s2 evs :
  sstep (SApp l) s = Some (Some (s2, evs)) ->
  exists f es, lstep l (sv_life s) = Some (Some (f, es)) /\ l <> LMake /\ l <> LStop /\ (forall x, l <> LRaise x) /\
    (l = LStart -> sv_spawned s = true) /\ evs = map App es /\
    s2 = with_life (match l with LStart => false | _ => sv_spawned s end) f s.
Proof.
  intros H. cbn [sstep] in H. destruct l; try discriminate;
    try (destruct (sv_spawned s) eqn:SP; [|discriminate]);
    match type of H with context [lstep ?l ?x] => destruct (lstep l x) as [[[f es]|]|] eqn:E end; try discriminate;
    injection H as <- <-; exists f, es; repeat split; auto; try discriminate; congruence.
Qed.

Lemma in_app_map e es : In (App e) (map App es) <-> In e es.
Proof. split; [|apply in_map]. rewrite in_map_iff. now intros (? & [= ->] & ?). Qed.

Definition pinv (s : service) (evs : list sevent) : Prop :=
  placed s evs /\ (active (sv_main s) -> ~ In AppStop evs) /\ (sv_main s = MJoin -> In AppStop evs) /\
  (sv_main s = MEnd -> In AppStop evs \/ fresh (sv_spawned s) (sv_life s)).

Lemma pinv_quiet s s2 e1 e2 :
  (~ In AppStop e2) -> (~ In (App EvBusEnded) e2) -> pinv s e1 ->
  match sv_main s2 with
  | MReport x _ ToCreate => x = StartPending /\ fresh (sv_spawned s2) (sv_life s2)
  | MCreate => fresh (sv_spawned s2) (sv_life s2)
  | MReport x _ ToSpawn => x = Running /\ fresh (sv_spawned s2) (sv_life s2)
  | MReport x _ ToEnd => x = Stopped /\ fresh (sv_spawned s2) (sv_life s2)
  | MSpawn => fresh (sv_spawned s2) (sv_life s2)
  | MTest | MWait => going (sv_spawned s2) (sv_life s2)
  | MReport x _ ToStop => x = Stopped /\ going (sv_spawned s2) (sv_life s2)
  | MStop => going (sv_spawned s2) (sv_life s2)
  | MJoin | MEnd => True
  end ->
  (active (sv_main s2) -> active (sv_main s)) -> (sv_main s2 = MJoin -> sv_main s = MJoin) ->
  (sv_main s2 = MEnd -> In AppStop e1 \/ fresh (sv_spawned s2) (sv_life s2)) -> pinv s2 (e1 ++ e2).
Proof.
  intros N1 N2 ((P & Q) & A & B & C) P2 X Y Z. unfold pinv, placed. rewrite !in_app_iff. tauto.
Qed.

Lemma pinv_holds ls s evs : sexec ls service_init = Some (s, evs) -> pinv s evs.
Proof.
  revert s evs. induction ls as [|l ls IH] using rev_ind; intros s2 evs X.
  - injection X as <- <-. unfold pinv, placed, fresh. cbn. repeat split; auto; discriminate.
  - destruct (sexec_snoc _ _ _ _ _ X) as (s & e1 & e2 & X1 & ST & ->).
    pose proof (IH _ _ X1) as I. clear IH X X1.
    destruct l as [|ok| | |l].
    + cbn [sstep] in ST. destruct (sv_main s) as [x r k| | | | | | |] eqn:M; try discriminate.
      * destruct (report_step x r (sv_status s) (sv_count s)) as [[[f c] es] nx] eqn:R. injection ST as <- <-.
        assert (forall e, In e es -> exists f, e = Reported f) as ES.
        { destruct r; cbn in R; [| |destruct (settled x)|]; injection R as <- <- <- <-; cbn; intros e; try tauto.
          intros [<-|[]]. eauto. }
        apply (pinv_quiet s).
        -- intros Z. apply ES in Z. destruct Z; discriminate.
        -- intros Z. apply ES in Z. destruct Z; discriminate.
        -- exact I.
        -- destruct I as ((P & _) & _). rewrite M in P. cbn. destruct nx; destruct k; cbn; tauto.
        -- rewrite M. cbn. auto.
        -- cbn. destruct nx; destruct k; discriminate.
        -- cbn. destruct I as ((P & _) & _). rewrite M in P. destruct nx; destruct k; cbn; try discriminate. tauto.
      * injection ST as <- <-. apply (pinv_quiet s); cbn; auto; rewrite ?M; cbn; auto; try discriminate.
        destruct I as ((P & _) & _). rewrite M in P. destruct P as [_ ->]. unfold going. cbn.
        repeat split; auto. discriminate.
      * injection ST as <- <-. destruct I as ((P & PQ) & PR). pose proof P as G. rewrite M in G.
        assert (is_stopped (sv_life s) = false) as ->.
        { destruct G as (_ & _ & G & _). unfold is_stopped. destruct (lf_run (sv_life s)); congruence. }
        apply (pinv_quiet s); cbn; auto; rewrite ?M; cbn; auto; try discriminate. split; [split|]; auto.
      * destruct (sv_event s) as [[]|]; try discriminate. injection ST as <- <-.
        apply (pinv_quiet s); cbn; auto; rewrite ?M; cbn; auto; try discriminate.
        destruct I as ((P & _) & _). rewrite M in P. auto.
      * destruct (lstep LStop (sv_life s)) as [[[l' e]|]|]; try discriminate. injection ST as <- <-.
        unfold pinv, placed. cbn. rewrite !in_app_iff. cbn. tauto.
      * destruct (lf_phase (sv_life s)); try discriminate. destruct (sv_spawned s); try discriminate.
        injection ST as <- <-. assert (In AppStop e1) as IA by (now apply I).
        apply (pinv_quiet s); cbn; auto; rewrite ?M; cbn; auto; try discriminate; intros [Z|[]]; discriminate.
    + cbn [sstep] in ST. destruct (sv_main s) as [x r k| | | | | | |] eqn:M; try discriminate.
      assert (fresh (sv_spawned s) (sv_life s)) as F. { destruct I as ((P & _) & _). now rewrite M in P. }
      destruct ok; injection ST as <- <-; apply (pinv_quiet s); cbn; auto; rewrite ?M; cbn; auto; discriminate.
    + cbn [sstep] in ST. destruct (sv_hand s); try discriminate. injection ST as <- <-.
      apply (pinv_quiet s); cbn; auto; apply I.
    + cbn [sstep] in ST. destruct (sv_hand s) as [|x r k| |] eqn:M; try discriminate.
      * destruct (report_step x r (sv_status s) (sv_count s)) as [[[f c] es] nx] eqn:R. injection ST as <- <-.
        assert (forall e, In e es -> exists f, e = Reported f) as ES.
        { destruct r; cbn in R; [| |destruct (settled x)|]; injection R as <- <- <- <-; cbn; intros e; try tauto.
          intros [<-|[]]. eauto. }
        apply (pinv_quiet s); cbn; auto.
        -- intros Z. apply ES in Z. destruct Z; discriminate.
        -- intros Z. apply ES in Z. destruct Z; discriminate.
        -- apply I.
        -- apply I.
      * injection ST as <- <-. apply (pinv_quiet s); cbn; auto; apply I.
      * injection ST as <- <-. apply (pinv_quiet s); cbn; auto; apply I.
    + destruct (app_inv _ _ _ _ ST) as (f & es & L & N1 & N2 & N3 & N4 & -> & ->).
      assert (~ In AppStop (map App es)) as NA. { rewrite in_map_iff. now intros (? & ? & _). }
      assert (forall b, b = sv_spawned s -> fresh b (sv_life s) -> False) as FR.
      { intros b -> [F1 F2]. rewrite F2 in L. destruct l; try congruence; try discriminate.
        specialize (N4 eq_refl). congruence. }
      assert (going (sv_spawned s) (sv_life s) -> 
              going (match l with LStart => false | _ => sv_spawned s end) f /\ ~ In EvBusEnded es) as GO.
      { intros G. eapply busy_step; eauto. }
      destruct I as ((P & Q) & A & B & C). unfold pinv, placed. cbn. rewrite !in_app_iff, in_app_map.
      destruct (sv_main s) as [x r []| | | | | | |] eqn:M; cbn in *;
        try (exfalso; now apply (FR _ eq_refl P)); try (exfalso; now apply (FR _ eq_refl (proj2 P)));
        try (assert (going (sv_spawned s) (sv_life s)) as G by tauto; destruct (GO G);
             (split; [split; [first [split; [apply P|assumption]|assumption]|tauto]|split; [tauto|split; discriminate]])).
      * assert (In AppStop e1) by auto. repeat split; try tauto; try discriminate.
      * assert (In AppStop e1) by (destruct (C eq_refl) as [Z|Z]; auto; destruct (FR _ eq_refl Z)).
        repeat split; try tauto. all: try discriminate.
Qed.

(** * The order of events *)

Lemma one_event l s s2 evs : sstep l s = Some (Some (s2, evs)) -> evs = [] \/ exists e, evs = [e].
Proof.
  intros H. destruct l as [|ok| | |l].
  - cbn [sstep] in H. destruct (sv_main s) as [x r k| | | | | | |]; try discriminate.
    + destruct r; cbn [report_step] in H; [| |destruct (settled x)|]; injection H as <- <-; eauto.
    + injection H as <- <-; eauto.
    + injection H as <- <-; eauto.
    + destruct (sv_event s) as [[]|]; try discriminate. injection H as <- <-; eauto.
    + destruct (lstep LStop (sv_life s)) as [[[l' e]|]|]; try discriminate. injection H as <- <-; eauto.
    + destruct (lf_phase (sv_life s)); try discriminate. destruct (sv_spawned s); try discriminate.
      injection H as <- <-; eauto.
  - cbn [sstep] in H. destruct (sv_main s); try discriminate. destruct ok; injection H as <- <-; eauto.
  - cbn [sstep] in H. destruct (sv_hand s); try discriminate. injection H as <- <-; eauto.
  - cbn [sstep] in H. destruct (sv_hand s) as [|x r k| |]; try discriminate.
    + destruct r; cbn [report_step] in H; [| |destruct (settled x)|]; injection H as <- <-; eauto.
    + injection H as <- <-; eauto.
    + injection H as <- <-; eauto.
  - destruct (app_inv _ _ _ _ H) as (f & es & L & _ & _ & _ & _ & -> & _).
    destruct (sv_life s) as [m p b sh rn]. destruct l, p as [| | | | |[|n']| | | |]; cbn in L; try discriminate;
      repeat match type of L with context [if ?c then _ else _] => destruct c end; try discriminate;
      injection L as <- <-; cbn; eauto.
Qed.

(** The events up to any one of them are those of a shorter execution, and the event is its last step's. *)
Lemma cut_at ls s evs pre e post :
  sexec ls service_init = Some (s, evs) -> evs = pre ++ e :: post ->
  exists ls1 l ls2 s1 s2, ls = ls1 ++ l :: ls2 /\ sexec ls1 service_init = Some (s1, pre) /\ sstep l s1 = Some (Some (s2, [e])).
Proof.
  revert s evs post. induction ls as [|l ls IH] using rev_ind; intros s evs post X E.
  - injection X as <- <-. now destruct pre.
  - destruct (sexec_snoc _ _ _ _ _ X) as (s1 & e1 & e2 & X1 & ST & ->).
    assert (forall post', e1 = pre ++ e :: post' -> exists ls1 l0 ls2 s1 s2, ls ++ [l] = ls1 ++ l0 :: ls2 /\
              sexec ls1 service_init = Some (s1, pre) /\ sstep l0 s1 = Some (Some (s2, [e]))) as REC.
    { intros post' E'. destruct (IH _ _ _ X1 E') as (a & b & c & d & f & -> & H1 & H2).
      exists a, b, (c ++ [l]), d, f. rewrite <- app_assoc. auto. }
    destruct (one_event _ _ _ _ ST) as [-> | [x ->]].
    + rewrite app_nil_r in E. eauto.
    + destruct (@exists_last _ (e :: post)) as (q & y & Q); [discriminate|].
      rewrite Q, app_assoc in E. apply app_inj_tail in E. destruct E as [E ->].
      destruct q as [|e' q'].
      * injection Q as -> ->. rewrite app_nil_r in E. subst. exists ls, l, [], s1, s. auto.
      * cbn in Q. injection Q as <- ->. eauto.
Qed.

Lemma apart_prefix ls1 ls2 : apart (ls1 ++ ls2) -> apart ls1.
Proof.
  intros A n s evs X. destruct (le_lt_dec n (length ls1)) as [L|L].
  - apply (A n s evs). rewrite firstn_app. replace (n - length ls1) with 0 by lia. now rewrite firstn_O, app_nil_r.
  - apply (A (length ls1) s evs). rewrite firstn_app, Nat.sub_diag, firstn_O, app_nil_r, firstn_all.
    rewrite firstn_all2 in X by lia. exact X.
Qed.

Lemma told_stopped ls s evs :
  apart ls -> sexec ls service_init = Some (s, evs) -> sv_main s = MStop ->
  exists f, In f (reports evs) /\ st_state f = Stopped.
Proof.
  revert s evs. induction ls as [|l ls IH] using rev_ind; intros s2 evs A X M.
  - injection X as <- <-. discriminate.
  - pose proof (apart_snoc _ _ A) as A1.
    destruct (sexec_snoc _ _ _ _ _ X) as (s & e1 & e2 & X1 & ST & ->).
    assert (sv_main s = MStop -> exists f, In f (reports (e1 ++ e2)) /\ st_state f = Stopped) as OLD.
    { intros M'. destruct (IH _ _ A1 X1 M') as (f & I & E). exists f. rewrite reports_app, in_app_iff. auto. }
    pose proof (sinv_holds _ _ _ A1 X1) as SI. pose proof (pinv_holds _ _ _ X1) as ((P & _) & _).
    destruct l as [|ok| | |l].
    + cbn [sstep] in ST. destruct (sv_main s) as [x r k| | | | | | |] eqn:MM; try discriminate.
      * destruct r; cbn [report_step] in ST; [| |destruct (settled x)|]; injection ST as <- <-; try discriminate.
        destruct k; try discriminate. destruct P as [-> _].
        destruct (si_main _ _ SI _ _ _ MM ltac:(discriminate)) as (E & _).
        exists (sv_status s). rewrite reports_app, in_app_iff. cbn. auto.
      * injection ST as <- <-. discriminate.
      * injection ST as <- <-. cbn in M. destruct (is_stopped (sv_life s)) eqn:ST; [|discriminate].
        destruct P as (_ & _ & P & _). unfold is_stopped in ST. destruct (lf_run (sv_life s)); congruence.
      * destruct (sv_event s) as [[]|]; try discriminate. injection ST as <- <-. discriminate.
      * destruct (lstep LStop (sv_life s)) as [[[l' e]|]|]; try discriminate. injection ST as <- <-. discriminate.
      * destruct (lf_phase (sv_life s)); try discriminate. destruct (sv_spawned s); try discriminate.
        injection ST as <- <-. discriminate.
    + cbn [sstep] in ST. destruct (sv_main s); try discriminate. destruct ok; injection ST as <- <-; discriminate.
    + cbn [sstep] in ST. destruct (sv_hand s); try discriminate. injection ST as <- <-. now apply OLD.
    + cbn [sstep] in ST. destruct (sv_hand s) as [|x r k| |]; try discriminate.
      * destruct (report_step x r (sv_status s) (sv_count s)) as [[[f c] es] nx]. injection ST as <- <-. now apply OLD.
      * injection ST as <- <-. now apply OLD.
      * injection ST as <- <-. now apply OLD.
    + destruct (app_inv _ _ _ _ ST) as (f & es & L & _ & _ & _ & _ & -> & ->). now apply OLD.
Qed.

(** C62: the application's bus ends only after the service has asked the application to stop, and (while the threads'
    reports do not overlap) the service asks only after it has reported STOPPED. *)
Theorem C62_early_partial : forall ls s evs,
  sexec ls service_init = Some (s, evs) -> apart ls ->
  (forall pre post, evs = pre ++ AppStop :: post -> exists f, In f (reports pre) /\ st_state f = Stopped) /\
  (forall pre post, evs = pre ++ App EvBusEnded :: post -> In AppStop pre).
Proof.
  intros ls s evs X A. split; intros pre post E.
  - destruct (cut_at _ _ _ _ _ _ X E) as (ls1 & l & ls2 & s1 & s2 & -> & X1 & ST).
    apply apart_prefix in A. apply (told_stopped _ _ _ A X1).
    destruct l as [|ok| | |l]; cbn [sstep] in ST.
    + destruct (sv_main s1) as [x r k| | | | | | |]; try discriminate; auto.
      * destruct r; cbn [report_step] in ST; [| |destruct (settled x)|]; discriminate.
      * destruct (sv_event s1) as [[]|]; discriminate.
      * destruct (lf_phase (sv_life s1)); try discriminate. destruct (sv_spawned s1); discriminate.
    + destruct (sv_main s1); try discriminate. destruct ok; discriminate.
    + destruct (sv_hand s1); discriminate.
    + destruct (sv_hand s1) as [|x r k| |]; try discriminate.
      destruct r; cbn [report_step] in ST; [| |destruct (settled x)|]; discriminate.
    + destruct (app_inv _ _ _ _ ST) as (f & es & _ & _ & _ & _ & _ & Z & _). now destruct es.
  - destruct (cut_at _ _ _ _ _ _ X E) as (ls1 & l & ls2 & s1 & s2 & -> & X1 & ST).
    assert (sexec (ls1 ++ [l]) service_init = Some (s2, pre ++ [App EvBusEnded])) as X2.
    { rewrite sexec_app, X1. cbn [sexec]. rewrite ST. reflexivity. }
    destruct (pinv_holds _ _ _ X2) as ((_ & Q) & _). rewrite !in_app_iff in Q.
    destruct Q as [Q|[Q|[]]]; cbn; auto. discriminate.
Qed.
Print Assumptions C62_early_partial.

(** The service starts, is told to stop, reports it, and the application ends. *)
Definition normal_run : list slabel :=
  repeat SMain 4 ++ [SCreate true] ++ repeat SMain 4 ++ [SMain; SMain; SApp LStart; SApp LBus; SApp LCheck] ++
  [SControl] ++ repeat SHand 10 ++ [SMain] ++ repeat SMain 4 ++ [SMain; SApp LWake; SApp (LTest 0); SApp LDetach; SApp LUnload; SApp LClear;
  SApp LReturn; SMain].

Example C62_case :
  exists s, sexec normal_run service_init =
    Some (s, [Reported (mkStatus StartPending false 1); Reported (mkStatus Running true 0); App EvBusStarted;
              Reported (mkStatus StopPending true 2); Reported (mkStatus StopPending true 3); Reported (mkStatus Stopped true 0);
              AppStop; App EvBusEnded; App EvDetached; App EvUnloaded; App EvCleared; App EvReturned; Joined]) /\
  sv_main s = MEnd.
Proof. eexists. split; vm_compute; reflexivity. Qed.

Fixpoint apartb (ls : list slabel) (s : service) : bool :=
  negb (match sv_main s, sv_hand s with
        | MReport _ r _, HReport _ r' _ => match r, r' with RState, _ | _, RState => false | _, _ => true end
        | _, _ => false
        end) &&
  match ls with
  | [] => true
  | l :: ls' => match sstep l s with Some (Some (s1, _)) => apartb ls' s1 | _ => true end
  end.

Lemma apartb_ok ls : apartb ls service_init = true -> apart ls.
Proof.
  unfold apart. generalize service_init. induction ls as [|l ls IH]; intros s0 B n s evs X [(x & r & k & M & R1) (x' & r' & k' & H & R2)].
  - rewrite firstn_nil in X. injection X as <- <-. cbn in B. rewrite M, H in B. destruct r, r'; try discriminate; congruence.
  - cbn [apartb] in B. apply andb_prop in B. destruct B as [B1 B2]. destruct n as [|n].
    + injection X as <- <-. rewrite M, H in B1. destruct r, r'; try discriminate; congruence.
    + cbn [firstn sexec] in X. destruct (sstep l s0) as [[[s1 e1]|]|]; try discriminate.
      destruct (sexec (firstn n ls) s1) as [[s2 e2]|] eqn:Y; [|discriminate]. injection X as <- <-.
      apply (IH _ B2 n _ _ Y). split; do 3 eexists; eauto.
Qed.

Example C62_case_apart : apart normal_run.
Proof. apply apartb_ok. reflexivity. Qed.

(** C62 is false when the reports overlap: the control manager is told STOPPED with a checkpoint that is not 0, and
    START_PENDING with the stop control accepted. *)
Theorem C62_overlap_refuted :
  (exists ls s evs f, sexec ls service_init = Some (s, evs) /\ In f (reports evs) /\ st_state f = Stopped /\ st_check f = 3%N) /\
  (exists ls s evs f, sexec ls service_init = Some (s, evs) /\ In f (reports evs) /\ st_state f = StartPending /\ st_accept f = true).
Proof.
  split.
  - exists (repeat SMain 4 ++ [SCreate true] ++ repeat SMain 4 ++ [SMain; SMain; SControl] ++ repeat SHand 6 ++ [SMain; SHand; SHand; SMain; SMain; SMain; SHand; SHand]).
    do 2 eexists. exists (mkStatus Stopped true 3). split; [vm_compute; reflexivity|]. cbn. auto 10.
  - exists ([SControl; SHand; SMain; SMain; SHand; SHand; SHand]). do 2 eexists. exists (mkStatus StartPending true 1). 
    split; [vm_compute; reflexivity|]. cbn. auto 10.
Qed.
Print Assumptions C62_overlap_refuted.

(** * How the service ends *)

Lemma app_started l s s2 es b :
  going b s -> lstep l s = Some (Some (s2, es)) -> l <> LMake -> l <> LStop -> (forall x, l <> LRaise x) -> (l = LStart -> b = true) ->
  busy (lf_phase s2) -> busy (lf_phase s) \/ In EvBusStarted es.
Proof.
  intros (G1 & G2 & G3 & G4) H N1 N2 N3 N4 B. destruct s as [m p bu sh rn]. cbn in *. subst m bu.
  destruct l; try congruence; destruct p as [| | | | |[|n']| | | |]; try discriminate; cbn in H |- *; auto;
    try (destruct sh; try discriminate); injection H as <- <-; cbn in *; tauto.
Qed.

(** Before the service asks, the application is in its bus only if the bus has started. *)
Definition noted (s : service) (evs : list sevent) : Prop :=
  active (sv_main s) -> busy (lf_phase (sv_life s)) -> In (App EvBusStarted) evs.

Lemma active_back l s s2 evs : sstep l s = Some (Some (s2, evs)) -> active (sv_main s2) -> active (sv_main s).
Proof.
  intros H. destruct l as [|ok| | |l].
  - cbn [sstep] in H. destruct (sv_main s) as [x r k| | | | | | |]; cbn; auto; try discriminate.
    destruct (lf_phase (sv_life s)); try discriminate. destruct (sv_spawned s); try discriminate.
    injection H as <- <-. auto.
  - cbn [sstep] in H. destruct (sv_main s); cbn; auto; discriminate.
  - cbn [sstep] in H. destruct (sv_hand s); try discriminate. injection H as <- <-. auto.
  - cbn [sstep] in H. destruct (sv_hand s) as [|x r k| |]; try discriminate.
    + destruct (report_step x r (sv_status s) (sv_count s)) as [[[f c] es] nx]. injection H as <- <-. auto.
    + injection H as <- <-. auto.
    + injection H as <- <-. auto.
  - destruct (app_inv _ _ _ _ H) as (f & es & _ & _ & _ & _ & _ & _ & ->). auto.
Qed.

Lemma life_same l s s2 evs :
  sstep l s = Some (Some (s2, evs)) ->
  (lf_phase (sv_life s2) = lf_phase (sv_life s) /\ lf_bus (sv_life s2) = lf_bus (sv_life s)) \/ exists l', l = SApp l'.
Proof.
  intros H. destruct l as [|ok| | |l]; eauto; left.
  - cbn [sstep] in H. destruct (sv_main s) as [x r k| | | | | | |]; try discriminate.
    + destruct (report_step x r (sv_status s) (sv_count s)) as [[[f c] es] nx]. injection H as <- <-. auto.
    + injection H as <- <-. auto.
    + injection H as <- <-. auto.
    + destruct (sv_event s) as [[]|]; try discriminate. injection H as <- <-. auto.
    + destruct (lstep LStop (sv_life s)) as [[[l' e]|]|] eqn:L; try discriminate. injection H as <- <-.
      cbn in L |- *. destruct (lf_made (sv_life s) && lf_bus (sv_life s)); try discriminate.
      injection L as <- <-. auto.
    + destruct (lf_phase (sv_life s)) eqn:PH; try discriminate. destruct (sv_spawned s); try discriminate.
      injection H as <- <-. cbn. auto.
  - cbn [sstep] in H. destruct (sv_main s); try discriminate. destruct ok; injection H as <- <-; auto.
  - cbn [sstep] in H. destruct (sv_hand s); try discriminate. injection H as <- <-. auto.
  - cbn [sstep] in H. destruct (sv_hand s) as [|x r k| |]; try discriminate.
    + destruct (report_step x r (sv_status s) (sv_count s)) as [[[f c] es] nx]. injection H as <- <-. auto.
    + injection H as <- <-. auto.
    + injection H as <- <-. auto.
Qed.

Lemma going_at s evs l f es :
  pinv s evs -> active (sv_main s) -> lstep l (sv_life s) = Some (Some (f, es)) ->
  l <> LMake -> l <> LStop -> (l = LStart -> sv_spawned s = true) -> going (sv_spawned s) (sv_life s).
Proof.
  intros ((P & _) & _) A L N1 N2 N3.
  assert (fresh (sv_spawned s) (sv_life s) -> False) as FR.
  { intros [F1 F2]. rewrite F2 in L. destruct l; try congruence; try discriminate. specialize (N3 eq_refl). congruence. }
  destruct (sv_main s) as [x r []| | | | | | |]; cbn in A; tauto.
Qed.

Lemma noted_holds ls s evs : sexec ls service_init = Some (s, evs) -> noted s evs.
Proof.
  revert s evs. induction ls as [|l ls IH] using rev_ind; intros s2 evs X.
  - injection X as <- <-. intros _ [].
  - destruct (sexec_snoc _ _ _ _ _ X) as (s & e1 & e2 & X1 & ST & ->). intros A B. rewrite in_app_iff.
    pose proof (active_back _ _ _ _ ST A) as A1.
    destruct (life_same _ _ _ _ ST) as [[E _]|[l' ->]].
    + left. apply (IH _ _ X1); auto. now rewrite <- E.
    + destruct (app_inv _ _ _ _ ST) as (f & es & L & N1 & N2 & N3 & N4 & -> & ->). cbn in B. rewrite in_app_map.
      pose proof (going_at _ _ _ _ _ (pinv_holds _ _ _ X1) A1 L N1 N2 N4) as G.
      destruct (app_started _ _ _ _ _ G L N1 N2 N3 N4 B) as [Z|Z]; auto. left. now apply (IH _ _ X1).
Qed.

Lemma sexec_from ls1 l ls2 s0 s1 e1 s2 e s evs :
  sexec ls1 s0 = Some (s1, e1) -> sstep l s1 = Some (Some (s2, e)) -> sexec (ls1 ++ l :: ls2) s0 = Some (s, evs) ->
  exists e2, sexec ls2 s2 = Some (s, e2) /\ evs = e1 ++ e ++ e2.
Proof.
  intros X1 ST X. rewrite sexec_app, X1 in X. cbn [sexec] in X. rewrite ST in X.
  destruct (sexec ls2 s2) as [[s' e2]|]; [|discriminate]. injection X as <- <-. eauto.
Qed.

Lemma main_at_stop l s1 s2 : sstep l s1 = Some (Some (s2, [AppStop])) ->
  l = SMain /\ sv_main s1 = MStop /\ sv_main s2 = MJoin /\ sv_hand s2 = sv_hand s1 /\ sv_spawned s2 = sv_spawned s1 /\
  exists es, lstep LStop (sv_life s1) = Some (Some (sv_life s2, es)).
Proof.
  intros ST. destruct l as [|ok| | |l]; cbn [sstep] in ST.
  - destruct (sv_main s1) as [x r k| | | | | | |] eqn:M; try discriminate; auto.
    + destruct r; cbn [report_step] in ST; [| |destruct (settled x)|]; discriminate.
    + destruct (sv_event s1) as [[]|]; discriminate.
    + destruct (lstep LStop (sv_life s1)) as [[[l' e]|]|] eqn:L; try discriminate. injection ST as <-.
      cbn. repeat split; eauto.
    + destruct (lf_phase (sv_life s1)); try discriminate. destruct (sv_spawned s1); discriminate.
  - destruct (sv_main s1); try discriminate. destruct ok; discriminate.
  - destruct (sv_hand s1); discriminate.
  - destruct (sv_hand s1) as [|x r k| |]; try discriminate.
    destruct r; cbn [report_step] in ST; [| |destruct (settled x)|]; discriminate.
  - destruct (app_inv _ _ _ _ ST) as (f & es & _ & _ & _ & _ & _ & Z & _). now destruct es.
Qed.

(** The main thread is in join; only the application's steps matter. *)
Lemma join_step l s s2 evs :
  sstep l s = Some (Some (s2, evs)) -> sv_main s = MJoin ->
  (l = SMain /\ lf_phase (sv_life s) = Idle /\ sv_spawned s = false /\ sv_main s2 = MEnd /\ evs = [Joined]) \/
  (sv_main s2 = MJoin /\ ~ In Joined evs /\
   (sv_life s2 = sv_life s /\ sv_spawned s2 = sv_spawned s \/
    exists l' es, l = SApp l' /\ lstep l' (sv_life s) = Some (Some (sv_life s2, es)) /\
      l' <> LMake /\ l' <> LStop /\ (forall x, l' <> LRaise x) /\ (l' = LStart -> sv_spawned s = true) /\
      sv_spawned s2 = match l' with LStart => false | _ => sv_spawned s end)).
Proof.
  intros H M. destruct l as [|ok| | |l].
  - cbn [sstep] in H. rewrite M in H. left. destruct (lf_phase (sv_life s)); try discriminate.
    destruct (sv_spawned s); try discriminate. injection H as <- <-. auto.
  - cbn [sstep] in H. rewrite M in H. discriminate.
  - cbn [sstep] in H. destruct (sv_hand s); try discriminate. injection H as <- <-. right. cbn. auto 10.
  - cbn [sstep] in H. destruct (sv_hand s) as [|x r k| |]; try discriminate.
    + destruct r; cbn [report_step] in H; [| |destruct (settled x)|]; injection H as <- <-; cbn; right;
        split; auto; split; auto; intros [Z|[]]; discriminate.
    + injection H as <- <-. right. cbn. auto 10.
    + injection H as <- <-. right. cbn. auto 10.
  - right. destruct (app_inv _ _ _ _ H) as (f & es & L & N1 & N2 & N3 & N4 & -> & ->). cbn. split; auto. split.
    + rewrite in_map_iff. now intros (? & ? & _).
    + right. exists l, es. repeat split; auto.
Qed.

Lemma hangs ls s s2 evs :
  sexec ls s = Some (s2, evs) -> sv_main s = MJoin -> going (sv_spawned s) (sv_life s) -> ~ In Joined evs /\ sv_main s2 = MJoin.
Proof.
  revert s evs. induction ls as [|l ls IH]; intros s evs X M G.
  - injection X as <- <-. auto.
  - cbn [sexec] in X. destruct (sstep l s) as [[[s1 e1]|]|] eqn:ST; try discriminate.
    destruct (sexec ls s1) as [[s' e2]|] eqn:X1; [|discriminate]. injection X as <- <-.
    destruct (join_step _ _ _ _ ST M) as [(-> & I & SP & _)|(M1 & NJ & D)].
    + destruct G as (_ & _ & _ & [[_ G]|[_ [G|[G _]]]]); try congruence. now rewrite I in G.
    + assert (going (sv_spawned s1) (sv_life s1)) as G1.
      { destruct D as [[-> ->]|(l' & es & -> & L & N1 & N2 & N3 & N4 & ->)]; auto.
        now apply (busy_step _ _ _ _ _ G L N1 N2 N3 N4). }
      destruct (IH _ _ X1 M1 G1). rewrite in_app_iff. tauto.
Qed.

(** C68: if the service asks the application to stop before the application's bus has started, the request is lost and
    the service's main thread never ends, whatever happens. *)
Theorem C68_hang : forall ls s evs pre post,
  sexec ls service_init = Some (s, evs) -> evs = pre ++ AppStop :: post -> ~ In (App EvBusStarted) pre ->
  ~ In Joined evs /\ sv_main s = MJoin.
Proof.
  intros ls s evs pre post X E NB.
  destruct (cut_at _ _ _ _ _ _ X E) as (ls1 & l & ls2 & s1 & s2 & -> & X1 & ST).
  destruct (sexec_from _ _ _ _ _ _ _ _ _ _ X1 ST X) as (e2 & X2 & ->).
  destruct (main_at_stop _ _ _ ST) as (-> & M1 & M2 & _ & SP & es & L).
  pose proof (pinv_holds _ _ _ X1) as ((P & _) & _). rewrite M1 in P.
  pose proof (noted_holds _ _ _ X1) as NO. unfold noted in NO. rewrite M1 in NO.
  destruct P as (P1 & P2 & P3 & P4). cbn in L. rewrite P1, P2 in L. cbn in L. injection L as L _.
  assert (going (sv_spawned s2) (sv_life s2)) as G.
  { rewrite SP, <- L. unfold going. cbn. repeat split; auto.
    destruct P4 as [P4|[P4 [P5|[P5 _]]]]; auto. exfalso. apply NB. apply NO; cbn; auto. }
  destruct (hangs _ _ _ _ X2 M2 G) as [NJ M]. split; auto. rewrite !in_app_iff. cbn.
  intros [Z|[[Z|[]]|Z]]; try discriminate; auto.
  (* before the request nothing is joined *)
  apply in_split in Z. destruct Z as (p1 & p2 & ->).
  destruct (cut_at _ _ _ _ _ _ X1 eq_refl) as (l1 & l' & l2 & s3 & s4 & -> & X3 & ST').
  assert (sv_main s3 = MJoin) as M3.
  { destruct l' as [|ok| | |l']; cbn [sstep] in ST'.
    - destruct (sv_main s3) as [x r k| | | | | | |] eqn:M3; try discriminate; auto.
      + destruct r; cbn [report_step] in ST'; [| |destruct (settled x)|]; discriminate.
      + destruct (sv_event s3) as [[]|]; discriminate.
      + destruct (lstep LStop (sv_life s3)) as [[[l' e]|]|]; discriminate.
    - destruct (sv_main s3); try discriminate. destruct ok; discriminate.
    - destruct (sv_hand s3); discriminate.
    - destruct (sv_hand s3) as [|x r k| |]; try discriminate.
      destruct r; cbn [report_step] in ST'; [| |destruct (settled x)|]; discriminate.
    - destruct (app_inv _ _ _ _ ST') as (f & es' & _ & _ & _ & _ & _ & Z & _). now destruct es'. }
  pose proof (pinv_holds _ _ _ X3) as (_ & _ & B & _).
  pose proof (pinv_holds _ _ _ X1) as (_ & A & _). rewrite M1 in A.
  apply (A Logic.I). rewrite in_app_iff. left. now apply B.
Qed.
Print Assumptions C68_hang.

(** The stop control comes before the application's thread has got to its bus; STOPPED is reported. *)
Definition hang_run : list slabel :=
  repeat SMain 4 ++ [SCreate true] ++ repeat SMain 4 ++ [SMain; SMain; SApp LStart; SControl] ++ repeat SHand 10 ++
  [SMain] ++ repeat SMain 4 ++ [SMain; SApp LBus; SApp LCheck].

Example C68_hang_case :
  exists s, sexec hang_run service_init =
    Some (s, [Reported (mkStatus StartPending false 1); Reported (mkStatus Running true 0);
              Reported (mkStatus StopPending true 2); Reported (mkStatus StopPending true 3); Reported (mkStatus Stopped true 0);
              AppStop; App EvBusStarted]).
Proof. eexists. vm_compute; reflexivity. Qed.

(** The application has been asked to stop and heeds it. *)
Definition leaving (b : bool) (l : life) : Prop :=
  b = false /\
  match lf_phase l with
  | Idle | Cleared => True
  | Setup => False
  | Check | Wait | Test | Work _ => lf_bus l = true /\ lf_should l = false
  | Ended | Detached | Unloaded => lf_bus l = true
  end.

Lemma leaving_step l s s2 es b :
  leaving b s -> lstep l s = Some (Some (s2, es)) -> l <> LMake -> l <> LStop -> (forall x, l <> LRaise x) -> (l = LStart -> b = true) ->
  leaving b s2.
Proof.
  intros [-> G] H N1 N2 N3 N4. split; auto. destruct s as [m p bu sh rn]. cbn in *.
  destruct l; try congruence; destruct p as [| | | | |[|n']| | | |]; try discriminate; try (specialize (N4 eq_refl); discriminate);
    cbn in G; try contradiction; try (match type of G with _ /\ _ => destruct G as [G1 G2] end); subst; cbn in H; try discriminate; injection H as <- <-; cbn; auto.
Qed.

Definition joining (s : service) : Prop := sv_main s = MEnd \/ sv_main s = MJoin /\ leaving (sv_spawned s) (sv_life s).

Lemma end_stays l s s2 evs : sstep l s = Some (Some (s2, evs)) -> sv_main s = MEnd -> sv_main s2 = MEnd.
Proof.
  intros H M. destruct l as [|ok| | |l]; [| | | |].
  - cbn [sstep] in H. rewrite M in H. discriminate.
  - cbn [sstep] in H. rewrite M in H. discriminate.
  - cbn [sstep] in H. destruct (sv_hand s); try discriminate. injection H as <- <-. auto.
  - cbn [sstep] in H. destruct (sv_hand s) as [|x r k| |]; try discriminate.
    + destruct (report_step x r (sv_status s) (sv_count s)) as [[[f c] es] nx]. injection H as <- <-. auto.
    + injection H as <- <-. auto.
    + injection H as <- <-. auto.
  - destruct (app_inv _ _ _ _ H) as (f & es & _ & _ & _ & _ & _ & _ & ->). auto.
Qed.

Lemma joining_exec ls s s2 evs : sexec ls s = Some (s2, evs) -> joining s -> joining s2.
Proof.
  revert s evs. induction ls as [|l ls IH]; intros s evs X J.
  - now injection X as <- <-.
  - cbn [sexec] in X. destruct (sstep l s) as [[[s1 e1]|]|] eqn:ST; try discriminate.
    destruct (sexec ls s1) as [[s' e2]|] eqn:X1; [|discriminate]. injection X as <- <-.
    apply (IH _ _ X1). destruct J as [J|[M L]]; [left; eapply end_stays; eauto|].
    destruct (join_step _ _ _ _ ST M) as [(_ & _ & _ & E & _)|(M1 & _ & D)]; [now left|right]. split; auto.
    destruct D as [[-> ->]|(l' & es & -> & LS & N1 & N2 & N3 & N4 & ->)]; auto.
    assert (l' <> LStart) as N5 by (intros ->; destruct L as [L _]; specialize (N4 eq_refl); congruence).
    replace (match l' with LStart => false | _ => sv_spawned s end) with (sv_spawned s) by (destruct l'; congruence).
    eapply leaving_step; eauto.
Qed.

(** The application's thread can always take the next of a bounded number of steps that lead to the end of the join. *)
Definition steps_left (p : phase) : nat :=
  match p with
  | Idle => 1 | Cleared => 2 | Unloaded => 3 | Detached => 4 | Ended => 5 | Check => 6 | Test => 6 | Wait => 7 | Work n => 7 + n
  | Setup => 0
  end.

Definition app_only (l : slabel) : Prop := match l with SApp _ | SMain => True | _ => False end.

Lemma joins n : forall s, sv_main s = MJoin -> leaving (sv_spawned s) (sv_life s) -> steps_left (lf_phase (sv_life s)) = n ->
  exists ls s2 evs, Forall app_only ls /\ length ls = n /\ sexec ls s = Some (s2, evs) /\ In Joined evs.
Proof.
  induction n as [|n IH]; intros s M L E.
  - destruct L as [_ L]. destruct (lf_phase (sv_life s)) as [| | | | |n'| | | |]; cbn in E; try discriminate. destruct L.
  - assert (forall l f es, lstep l (sv_life s) = Some (Some (f, es)) -> l <> LMake -> l <> LStop -> (forall x, l <> LRaise x) -> l <> LStart ->
              steps_left (lf_phase f) = n ->
              exists ls s2 evs, Forall app_only ls /\ length ls = S n /\ sexec ls s = Some (s2, evs) /\ In Joined evs) as GO.
    { intros l f es LS N1 N2 N3 N4 EN.
      assert (sstep (SApp l) s = Some (Some (with_life (sv_spawned s) f s, map App es))) as ST.
      { cbn [sstep]. rewrite LS. destruct l; congruence. }
      destruct (IH (with_life (sv_spawned s) f s)) as (ls & s2 & evs & F & LE & X & I); cbn; auto.
      { eapply leaving_step; eauto. }
      exists (SApp l :: ls), s2, (map App es ++ evs). repeat split.
      - constructor; cbn; auto.
      - cbn. auto.
      - cbn [sexec]. rewrite ST, X. reflexivity.
      - rewrite in_app_iff. auto. }
    destruct L as [SP L]. destruct s as [mn hd stt ct ev sp lf]. cbn in M, SP, L, E, GO. subst mn sp.
    destruct lf as [m p bu sh rn]. cbn in *. destruct p as [| | | | |[|k]| | | |]; cbn in E; try discriminate; try contradiction;
      try (match type of L with _ /\ _ => destruct L end); subst.
    + exists [SMain]. do 2 eexists. split; [repeat constructor|]. split; [cbn; lia|]. split; [reflexivity|cbn; auto].
    + eapply (GO LCheck); [reflexivity|discriminate..|cbn; lia].
    + eapply (GO LWake); [reflexivity|discriminate..|cbn; lia].
    + eapply (GO (LTest 0)); [reflexivity|discriminate..|cbn; lia].
    + eapply (GO LWork); [reflexivity|discriminate..|cbn; lia].
    + eapply (GO LWork); [reflexivity|discriminate..|cbn; lia].
    + eapply (GO LDetach); [reflexivity|discriminate..|cbn; lia].
    + eapply (GO LUnload); [reflexivity|discriminate..|cbn; lia].
    + eapply (GO LClear); [reflexivity|discriminate..|cbn; lia].
    + eapply (GO LReturn); [reflexivity|discriminate..|cbn; lia].
Qed.

Lemma joined_if_end ls s evs : sexec ls service_init = Some (s, evs) -> sv_main s = MEnd -> In AppStop evs -> In Joined evs.
Proof.
  revert s evs. induction ls as [|l ls IH] using rev_ind; intros s2 evs X M I.
  - injection X as <- <-. discriminate.
  - destruct (sexec_snoc _ _ _ _ _ X) as (s & e1 & e2 & X1 & ST & ->). rewrite in_app_iff in *.
    pose proof (pinv_holds _ _ _ X1) as (_ & A & _).
    assert (sv_main s = MJoin \/ sv_main s = MEnd \/ In AppStop e1 -> ~ active (sv_main s)) as NA.
    { intros Z Y. destruct Z as [Z|[Z|Z]]; [rewrite Z in Y; exact Y|rewrite Z in Y; exact Y|]. now apply A in Y. }
    assert (In AppStop e2 -> False) as N2.
    { intros Z. destruct (one_event _ _ _ _ ST) as [-> | [x ->]]; [exact Z|]. destruct Z as [-> | []].
      destruct (main_at_stop _ _ _ ST) as (_ & _ & M' & _). congruence. }
    destruct I as [I|I]; [|now apply N2 in I]. specialize (NA (or_intror (or_intror I))).
    destruct (sv_main s) eqn:M1; cbn in NA; try tauto.
    + destruct (join_step _ _ _ _ ST M1) as [(_ & _ & _ & _ & ->)|(M2 & _)]; [cbn; auto|congruence].
    + left. now apply (IH _ _ X1).
Qed.

(** C68: if the service asks the application to stop after the application's bus has started, then the service has ended or,
    from wherever the threads are, the application's thread and the main thread have steps to take that end it. *)
Theorem C68_ends : forall ls s evs pre post,
  sexec ls service_init = Some (s, evs) -> evs = pre ++ AppStop :: post -> In (App EvBusStarted) pre ->
  In Joined evs \/
  exists ls' s' evs', Forall app_only ls' /\ sexec ls' s = Some (s', evs') /\ In Joined evs'.
Proof.
  intros ls s evs pre post X E NB.
  destruct (cut_at _ _ _ _ _ _ X E) as (ls1 & l & ls2 & s1 & s2 & -> & X1 & ST).
  destruct (sexec_from _ _ _ _ _ _ _ _ _ _ X1 ST X) as (e2 & X2 & EE).
  destruct (main_at_stop _ _ _ ST) as (-> & M1 & M2 & _ & SP & es & L).
  assert (busy (lf_phase (sv_life s1)) /\ sv_spawned s1 = false /\ lf_bus (sv_life s1) = true) as (B1 & B2 & B3).
  { clear - X1 M1 NB. assert (active (sv_main s1)) as A by (rewrite M1; exact Logic.I). clear M1.
    revert s1 pre X1 A NB. induction ls1 as [|l ls IH] using rev_ind; intros s2 evs X A I.
    - injection X as <- <-. destruct I.
    - destruct (sexec_snoc _ _ _ _ _ X) as (s & e1 & e2 & X1 & ST & ->).
      pose proof (active_back _ _ _ _ ST A) as A1. rewrite in_app_iff in I.
      destruct l as [|ok| | |l'].
      5: { destruct (app_inv _ _ _ _ ST) as (f & es & L & N1 & N2 & N3 & N4 & -> & ->). cbn. rewrite in_app_map in I.
           pose proof (going_at _ _ _ _ _ (pinv_holds _ _ _ X1) A1 L N1 N2 N4) as G.
           destruct (busy_step _ _ _ _ _ G L N1 N2 N3 N4) as [G2 _].
           assert (busy (lf_phase f)) as BF.
           { destruct I as [I|I].
             - destruct (IH _ _ X1 A1 I) as (B1 & B2 & B3). destruct G as (_ & _ & _ & G4).
               destruct (sv_life s) as [m p b sh rn]. cbn in *.
               destruct G4 as [[-> _]|[_ [-> |[_ ->]]]]; cbn in B1; try tauto.
               destruct l', p as [| | | | |[|q]| | | |]; cbn in L, B1; try discriminate; try tauto; try congruence;
                 injection L as <- <-; cbn; auto.
             - destruct (sv_life s) as [m p b sh rn].
               destruct l', p as [| | | | |[|q]| | | |]; cbn in L; try discriminate; try congruence;
                 repeat match type of L with context [if ?c then _ else _] => destruct c end; try discriminate;
                 injection L as <- <-; cbn in I; try tauto; try (destruct I as [I|[]]; discriminate); exact Logic.I. }
           destruct G2 as (_ & Z2 & _ & [[Z3 _]|[Z3 _]]); [rewrite Z3 in BF; destruct BF|]. auto. }
      all: destruct (life_same _ _ _ _ ST) as [[Q1 Q2]|[l' Q]]; [|discriminate]; rewrite Q1, Q2;
        assert (~ In (App EvBusStarted) e2 /\ (sv_spawned s2 = sv_spawned s \/ sv_main s = MSpawn)) as [N2 SP].
      1,3,5,7: clear - ST.
      + cbn [sstep] in ST. destruct (sv_main s) as [x r k| | | | | | |]; try discriminate.
        * destruct r; cbn [report_step] in ST; [| |destruct (settled x)|]; injection ST as <- <-; cbn; split; auto; intros [Z|[]]; discriminate.
        * injection ST as <- <-. cbn. auto.
        * injection ST as <- <-. cbn. auto.
        * destruct (sv_event s) as [[]|]; try discriminate. injection ST as <- <-. cbn. auto.
        * destruct (lstep LStop (sv_life s)) as [[[l' e]|]|]; try discriminate. injection ST as <- <-. cbn. split; auto. intros [Z|[]]; discriminate.
        * destruct (lf_phase (sv_life s)); try discriminate. destruct (sv_spawned s) eqn:Z; try discriminate.
          injection ST as <- <-. cbn. split; auto. intros [Y|[]]; discriminate.
      + cbn [sstep] in ST. destruct (sv_main s); try discriminate. destruct ok; injection ST as <- <-; cbn; auto.
      + cbn [sstep] in ST. destruct (sv_hand s); try discriminate. injection ST as <- <-. cbn. auto.
      + cbn [sstep] in ST. destruct (sv_hand s) as [|x r k| |]; try discriminate.
        * destruct r; cbn [report_step] in ST; [| |destruct (settled x)|]; injection ST as <- <-; cbn; split; auto; intros [Z|[]]; discriminate.
        * injection ST as <- <-. cbn. auto.
        * injection ST as <- <-. cbn. auto.
      + destruct I as [I|I]; [|tauto]. destruct (IH _ _ X1 A1 I) as (B1 & B2 & B3). destruct SP as [-> |SP]; auto.
        pose proof (pinv_holds _ _ _ X1) as ((P & _) & _). rewrite SP in P. destruct P as [_ P]. rewrite P in B1. destruct B1.
      + destruct I as [I|I]; [|tauto]. destruct (IH _ _ X1 A1 I) as (B1 & B2 & B3). destruct SP as [-> |SP]; auto.
        cbn in ST. rewrite SP in ST. discriminate.
      + destruct I as [I|I]; [|tauto]. destruct (IH _ _ X1 A1 I) as (B1 & B2 & B3). destruct SP as [-> |SP]; auto.
        pose proof (pinv_holds _ _ _ X1) as ((P & _) & _). rewrite SP in P. destruct P as [_ P]. rewrite P in B1. destruct B1.
      + destruct I as [I|I]; [|tauto]. destruct (IH _ _ X1 A1 I) as (B1 & B2 & B3). destruct SP as [-> |SP]; auto.
        pose proof (pinv_holds _ _ _ X1) as ((P & _) & _). rewrite SP in P. destruct P as [_ P]. rewrite P in B1. destruct B1. }
  assert (joining s) as J.
  { apply (joining_exec _ _ _ _ X2). right. split; auto. unfold leaving. rewrite SP. split; auto.
    cbn in L. rewrite B3 in L. destruct (lf_made (sv_life s1)); cbn in L; [|discriminate]. injection L as L _. rewrite <- L. cbn.
    destruct (lf_phase (sv_life s1)); cbn in B1; tauto. }
  destruct J as [J|[J1 J2]].
  - left. apply (joined_if_end _ _ _ X J). rewrite E, in_app_iff. cbn. auto.
  - right. destruct (joins _ s J1 J2 eq_refl) as (ls' & s' & evs' & F & _ & X' & I). eauto 10.
Qed.
Print Assumptions C68_ends.

(** The application's bus is distributing messages when the service asks. *)
Example C68_ends_case :
  exists s pre, sexec (repeat SMain 4 ++ [SCreate true] ++ repeat SMain 4 ++ [SMain; SMain; SApp LStart; SApp LBus; SApp LCheck; SApp LWake; SApp (LTest 3)] ++
    [SControl] ++ repeat SHand 10 ++ [SMain] ++ repeat SMain 4 ++ [SMain; SApp LWork]) service_init = Some (s, pre ++ [AppStop]) /\
  In (App EvBusStarted) pre /\ sv_main s = MJoin.
Proof.
  eexists. exists [Reported (mkStatus StartPending false 1); Reported (mkStatus Running true 0); App EvBusStarted;
              Reported (mkStatus StopPending true 2); Reported (mkStatus StopPending true 3); Reported (mkStatus Stopped true 0)].
  split; [vm_compute; reflexivity|]. split; [cbn; auto|reflexivity].
Qed.

(** The handler is not running and not called; the main thread is in its last report or past it. *)
Definition closing (s : service) (rs : list status) : Prop :=
  sv_hand s = HIdle /\
  match sv_main s with
  | MReport Stopped RState ToStop => rs = []
  | MReport Stopped RControls ToStop => rs = [] /\ st_state (sv_status s) = Stopped
  | MReport Stopped RCheck ToStop => rs = [] /\ st_state (sv_status s) = Stopped /\ st_accept (sv_status s) = true
  | MReport Stopped RSend ToStop => rs = [] /\ sv_status s = mkStatus Stopped true 0
  | MStop | MJoin | MEnd => rs = [mkStatus Stopped true 0]
  | _ => False
  end.

Lemma closing_step l s s2 evs rs :
  sstep l s = Some (Some (s2, evs)) -> l <> SControl -> closing s rs -> closing s2 (rs ++ reports evs).
Proof.
  intros H N [HI C]. destruct l as [|ok| | |l].
  - cbn [sstep] in H. destruct (sv_main s) as [x r k| | | | | | |] eqn:M; try tauto; try discriminate.
    + destruct x; try tauto. destruct r, k; try tauto; cbn [report_step settled] in H; injection H as <- <-; unfold closing; cbn.
      * subst rs. auto.
      * destruct C as [-> C]. auto.
      * destruct C as (-> & C1 & C2). rewrite C1, C2. auto.
      * destruct C as [-> ->]. auto.
    + destruct (lstep LStop (sv_life s)) as [[[l' e]|]|]; try discriminate. injection H as <- <-. unfold closing. cbn.
      rewrite app_nil_r. auto.
    + destruct (lf_phase (sv_life s)); try discriminate. destruct (sv_spawned s); try discriminate.
      injection H as <- <-. unfold closing. cbn. rewrite app_nil_r. auto.
  - cbn [sstep] in H. destruct (sv_main s); try discriminate. tauto.
  - congruence.
  - cbn [sstep] in H. rewrite HI in H. discriminate.
  - destruct (app_inv _ _ _ _ H) as (f & es & _ & _ & _ & _ & _ & -> & ->). rewrite reports_none, app_nil_r.
    unfold closing. cbn. auto.
Qed.

Lemma closing_exec ls s s2 evs rs :
  sexec ls s = Some (s2, evs) -> ~ In SControl ls -> closing s rs -> closing s2 (rs ++ reports evs).
Proof.
  revert s evs rs. induction ls as [|l ls IH]; intros s evs rs X N C.
  - injection X as <- <-. cbn. now rewrite app_nil_r.
  - cbn [sexec] in X. destruct (sstep l s) as [[[s1 e1]|]|] eqn:ST; try discriminate.
    destruct (sexec ls s1) as [[s' e2]|] eqn:X1; [|discriminate]. injection X as <- <-.
    rewrite reports_app, app_assoc. apply (IH s1); auto.
    + intros Z. apply N. now right.
    + eapply closing_step; eauto. intros ->. apply N. now left.
Qed.

(** C68: if no call of the control handler is in progress when the main thread begins to report STOPPED after the wait, and
    none comes later, then STOPPED is the last status reported when the service has ended. *)
Theorem C68_last : forall ls1 ls2 s1 e1 s2 e2,
  sexec ls1 service_init = Some (s1, e1) -> sv_main s1 = MReport Stopped RState ToStop -> sv_hand s1 = HIdle ->
  sexec ls2 s1 = Some (s2, e2) -> ~ In SControl ls2 -> In Joined e2 ->
  exists rs, reports (e1 ++ e2) = rs ++ [mkStatus Stopped true 0].
Proof.
  intros ls1 ls2 s1 e1 s2 e2 X1 M H X2 N J. exists (reports e1). rewrite reports_app. f_equal.
  assert (closing s1 []) as C by (unfold closing; rewrite M; auto).
  pose proof (closing_exec _ _ _ _ _ X2 N C) as C2. cbn [app] in C2.
  assert (sv_main s2 = MEnd) as E.
  { clear - X2 J C N. revert s1 e2 X2 J N C. generalize (@nil status) as rs.
    induction ls2 as [|l ls IH]; intros rs s1 e2 X2 J N C.
    - injection X2 as <- <-. destruct J.
    - cbn [sexec] in X2. destruct (sstep l s1) as [[[s3 e3]|]|] eqn:ST; try discriminate.
      destruct (sexec ls s3) as [[s' e4]|] eqn:X1; [|discriminate]. injection X2 as <- <-.
      rewrite in_app_iff in J. destruct J as [J|J].
      + assert (sv_main s3 = MEnd) as E.
        { destruct (sv_main s1) eqn:M1.
          7: { destruct (join_step _ _ _ _ ST M1) as [(_ & _ & _ & E & _)|(_ & Z & _)]; tauto. }
          all: exfalso; destruct l as [|ok| | |l];
            try (cbn [sstep] in ST; rewrite M1 in ST; try discriminate).
          all: try (destruct (app_inv _ _ _ _ ST) as (f & es & _ & _ & _ & _ & _ & -> & _); apply in_map_iff in J; now destruct J as (? & ? & _)).
          all: try (apply N; now left).
          all: try (destruct C as [C _]; cbn [sstep] in ST; rewrite C in ST; discriminate).
          all: try (injection ST as <- <-; destruct J as []).
          all: try (destruct ok; injection ST as <- <-; destruct J as []).
          - destruct r; cbn [report_step] in ST; [| |destruct (settled x)|]; injection ST as <- <-; cbn in J; try tauto.
            destruct J as [J|[]]; discriminate.
          - destruct (sv_event s1) as [[]|]; try discriminate. injection ST as <- <-. destruct J.
          - destruct (lstep LStop (sv_life s1)) as [[[l' e]|]|]; try discriminate. injection ST as <- <-.
            destruct J as [J|[]]; discriminate. }
        clear - X1 E. revert s3 e4 X1 E. induction ls as [|l ls IH]; intros s3 e4 X E.
        * now injection X as <- <-.
        * cbn [sexec] in X. destruct (sstep l s3) as [[[s4 e5]|]|] eqn:ST; try discriminate.
          destruct (sexec ls s4) as [[s5 e6]|] eqn:X1; [|discriminate]. injection X as <- <-.
          apply (IH _ _ X1). eapply end_stays; eauto.
      + apply (IH (rs ++ reports e3) s3 e4); auto.
        * intros Z. apply N. now right.
        * eapply closing_step; eauto. intros ->. apply N. now left. }
  destruct C2 as [_ C2]. now rewrite E in C2.
Qed.
Print Assumptions C68_last.

Definition early_part : list slabel :=
  repeat SMain 4 ++ [SCreate true] ++ repeat SMain 4 ++ [SMain; SMain; SApp LStart; SApp LBus; SApp LCheck] ++
  [SControl] ++ repeat SHand 10 ++ [SMain].
Definition late_part : list slabel :=
  repeat SMain 4 ++ [SMain; SApp LWake; SApp (LTest 0); SApp LDetach; SApp LUnload; SApp LClear; SApp LReturn; SMain].

Example C68_last_case : exists s1 e1 s2 e2,
  sexec early_part service_init = Some (s1, e1) /\ sv_main s1 = MReport Stopped RState ToStop /\ sv_hand s1 = HIdle /\
  sexec late_part s1 = Some (s2, e2) /\ In Joined e2.
Proof.
  do 4 eexists. split; [vm_compute; reflexivity|]. split; [reflexivity|]. split; [reflexivity|].
  split; [vm_compute; reflexivity|]. cbn. auto 20.
Qed.

(** Without that, the last status can be STOP_PENDING although the service has ended, even if the reports do not overlap: the
    handler reads the state, the main thread reports STOPPED and ends, the handler reports what it read. *)
Definition late_run : list slabel :=
  repeat SMain 4 ++ [SCreate true] ++ repeat SMain 4 ++ [SMain; SMain; SApp LStart; SApp LBus; SApp LCheck] ++
  [SControl] ++ repeat SHand 6 ++ [SMain] ++ late_part ++ repeat SHand 4.

Theorem C68_last_refuted : exists s evs rs,
  sexec late_run service_init = Some (s, evs) /\ apart late_run /\ sv_main s = MEnd /\ sv_hand s = HIdle /\
  reports evs = rs ++ [mkStatus Stopped true 0; mkStatus StopPending true 3].
Proof.
  do 2 eexists. exists [mkStatus StartPending false 1; mkStatus Running true 0; mkStatus StopPending true 2].
  split; [vm_compute; reflexivity|]. split; [apply apartb_ok; reflexivity|]. auto.
Qed.
Print Assumptions C68_last_refuted.

(** * Who asks the application to stop *)

(** A stop control has arrived, seen from what the threads do. *)
Definition asked (ls : list slabel) (s : service) (evs : list sevent) : Prop :=
  In SControl ls \/
  sv_event s <> Some true /\ sv_hand s = HIdle /\ ~ In AppStop evs /\
  match sv_main s with MReport _ _ ToStop | MStop | MJoin => False | _ => True end.

Lemma asked_holds ls s evs : sexec ls service_init = Some (s, evs) -> asked ls s evs.
Proof.
  revert s evs. induction ls as [|l ls IH] using rev_ind; intros s2 evs X.
  - injection X as <- <-. right. cbn. repeat split; auto. discriminate.
  - destruct (sexec_snoc _ _ _ _ _ X) as (s & e1 & e2 & X1 & ST & ->). pose proof (pinv_holds _ _ _ X1) as I.
    destruct (IH _ _ X1) as [C|(A & B & C & D)]; [left; rewrite in_app_iff; auto|]. clear IH X X1. unfold asked. rewrite !in_app_iff.
    destruct l as [|ok| | |l]; [right| right|left; cbn; auto|right|right].
    + cbn [sstep] in ST. destruct (sv_main s) as [x r k| | | | | | |] eqn:M; try discriminate; try tauto.
      * destruct (report_step x r (sv_status s) (sv_count s)) as [[[f c] es] nx] eqn:R. injection ST as <- <-.
        assert (~ In AppStop es) as NE.
        { destruct r; cbn in R; [| |destruct (settled x)|]; injection R as <- <- <- <-; cbn; try tauto. intros [Z|[]]; discriminate. }
        cbn. repeat split; auto; try tauto. destruct nx; [destruct k; auto|]. destruct k; cbn; auto.
      * injection ST as <- <-. cbn. repeat split; auto. tauto.
      * injection ST as <- <-. destruct I as ((P & _) & _). rewrite M in P. destruct P as (_ & _ & G & _).
        assert (is_stopped (sv_life s) = false) as -> by (unfold is_stopped; destruct (lf_run (sv_life s)); congruence).
        cbn. repeat split; auto. tauto.
      * destruct (sv_event s) as [[]|]; try discriminate; congruence.
    + cbn [sstep] in ST. destruct (sv_main s) as [x r k| | | | | | |] eqn:M; try discriminate.
      destruct ok; injection ST as <- <-; cbn; (repeat split; auto; try tauto); discriminate.
    + cbn [sstep] in ST. rewrite B in ST. discriminate.
    + destruct (app_inv _ _ _ _ ST) as (f & es & L & N1 & N2 & N3 & N4 & -> & ->). cbn. repeat split; auto.
      intros [Z|Z]; [tauto|]. apply in_map_iff in Z as (? & Z & _). discriminate.
Qed.

(** The service asks the application to stop only after it was told to by a stop control. *)
Theorem C68_asked : forall ls s evs, sexec ls service_init = Some (s, evs) -> In AppStop evs -> In SControl ls.
Proof. intros ls s evs X I. destruct (asked_holds _ _ _ X) as [C|(_ & _ & C & _)]; tauto. Qed.
Print Assumptions C68_asked.

(** With the event there, the main thread is beyond the place where it is made and did not fail to. *)
Definition evented (s : service) (evs : list sevent) : Prop :=
  match sv_main s with
  | MReport _ _ ToCreate | MCreate => sv_event s = None
  | MReport _ _ ToEnd => sv_event s = None
  | MEnd => sv_event s = None \/ In AppStop evs
  | _ => sv_event s <> None
  end.

Lemma evented_holds ls s evs : sexec ls service_init = Some (s, evs) -> evented s evs.
Proof.
  revert s evs. induction ls as [|l ls IH] using rev_ind; intros s2 evs X.
  - injection X as <- <-. reflexivity.
  - destruct (sexec_snoc _ _ _ _ _ X) as (s & e1 & e2 & X1 & ST & ->). pose proof (pinv_holds _ _ _ X1) as I.
    pose proof (IH _ _ X1) as E. clear IH X X1. unfold evented in *.
    destruct l as [|ok| | |l].
    + cbn [sstep] in ST. destruct (sv_main s) as [x r k| | | | | | |] eqn:M; try discriminate.
      * destruct (report_step x r (sv_status s) (sv_count s)) as [[[f c] es] nx] eqn:R. injection ST as <- <-.
        cbn. destruct nx; destruct k; cbn; auto.
      * injection ST as <- <-. exact E.
      * injection ST as <- <-. destruct I as ((P & _) & _). rewrite M in P. destruct P as (_ & _ & G & _).
        assert (is_stopped (sv_life s) = false) as -> by (unfold is_stopped; destruct (lf_run (sv_life s)); congruence). exact E.
      * destruct (sv_event s) as [[]|] eqn:V; try discriminate. injection ST as <- <-. cbn. rewrite V. discriminate.
      * destruct (lstep LStop (sv_life s)) as [[[l' e]|]|]; try discriminate. injection ST as <- <-. exact E.
      * destruct (lf_phase (sv_life s)); try discriminate. destruct (sv_spawned s); try discriminate.
        injection ST as <- <-. right. rewrite in_app_iff. left. now apply I.
    + cbn [sstep] in ST. destruct (sv_main s) as [x r k| | | | | | |] eqn:M; try discriminate.
      destruct ok; injection ST as <- <-; cbn; auto. discriminate.
    + cbn [sstep] in ST. destruct (sv_hand s); try discriminate. injection ST as <- <-. cbn. rewrite app_nil_r. exact E.
    + cbn [sstep] in ST. destruct (sv_hand s) as [|x r k| |]; try discriminate.
      * destruct (report_step x r (sv_status s) (sv_count s)) as [[[f c] es] nx]. injection ST as <- <-. cbn.
        destruct (sv_main s) as [? ? []| | | | | | |]; auto. rewrite in_app_iff. tauto.
      * injection ST as <- <-. cbn. rewrite app_nil_r. destruct (sv_main s) as [? ? []| | | | | | |]; try (rewrite E; reflexivity);
          try (destruct (sv_event s); congruence). destruct E as [E|E]; [left; rewrite E; reflexivity|auto].
      * injection ST as <- <-. cbn. rewrite app_nil_r. exact E.
    + destruct (app_inv _ _ _ _ ST) as (f & es & L & N1 & N2 & N3 & N4 & -> & ->). cbn.
      destruct (sv_main s) as [? ? []| | | | | | |]; auto. rewrite in_app_iff. tauto.
Qed.

(** Steps of the service's own two threads. *)
Definition own (l : slabel) : Prop := l = SMain \/ l = SHand.
Definition gets (s : service) : Prop := exists ls s' evs', Forall own ls /\ sexec ls s = Some (s', evs') /\ In AppStop evs'.

Lemma gets_step l s s1 e : sstep l s = Some (Some (s1, e)) -> own l -> gets s1 -> gets s.
Proof.
  intros ST O (ls & s' & evs' & F & X & I). exists (l :: ls), s', (e ++ evs'). split; [constructor; auto|]. split; [|rewrite in_app_iff; auto].
  cbn [sexec]. now rewrite ST, X.
Qed.
Lemma gets_main s s1 e : sstep SMain s = Some (Some (s1, e)) -> gets s1 -> gets s.
Proof. intros H. apply (gets_step SMain s s1 e H). now left. Qed.
Lemma gets_hand s s1 e : sstep SHand s = Some (Some (s1, e)) -> gets s1 -> gets s.
Proof. intros H. apply (gets_step SHand s s1 e H). now right. Qed.

(** The rest of the main thread's report, and the rest of the handler's. *)
Lemma gets_report x k : forall r s, sv_main s = MReport x r k ->
  (forall s', sv_main s' = after_main k -> sv_event s' = sv_event s -> sv_spawned s' = sv_spawned s -> sv_life s' = sv_life s -> gets s') -> gets s.
Proof.
  assert (forall r s f c es nx, sv_main s = MReport x r k -> report_step x r (sv_status s) (sv_count s) = (f, c, es, nx) ->
    gets (with_main (match nx with Some r' => MReport x r' k | None => after_main k end) (with_report f c s)) -> gets s) as ST.
  { intros r s f c es nx M R G. eapply gets_main; [|exact G]. cbn [sstep]. rewrite M, R. reflexivity. }
  assert (forall s, sv_main s = MReport x RSend k ->
    (forall s', sv_main s' = after_main k -> sv_event s' = sv_event s -> sv_spawned s' = sv_spawned s -> sv_life s' = sv_life s -> gets s') -> gets s) as P4.
  { intros s M G. eapply ST; [exact M|reflexivity|]. apply G; reflexivity. }
  assert (forall s, sv_main s = MReport x RCheck k ->
    (forall s', sv_main s' = after_main k -> sv_event s' = sv_event s -> sv_spawned s' = sv_spawned s -> sv_life s' = sv_life s -> gets s') -> gets s) as P3.
  { intros s M G. destruct (settled x) eqn:Se; (eapply ST; [exact M|cbn [report_step]; rewrite Se; reflexivity|]); apply P4; [reflexivity|exact G|reflexivity|exact G]. }
  assert (forall s, sv_main s = MReport x RControls k ->
    (forall s', sv_main s' = after_main k -> sv_event s' = sv_event s -> sv_spawned s' = sv_spawned s -> sv_life s' = sv_life s -> gets s') -> gets s) as P2.
  { intros s M G. eapply ST; [exact M|reflexivity|]. apply P3; [reflexivity|exact G]. }
  intros r s M G. destruct r; [|now apply P2|now apply P3|now apply P4]. eapply ST; [exact M|reflexivity|]. apply P2; [reflexivity|exact G].
Qed.
Lemma gets_told x k : forall r s, sv_hand s = HReport x r k ->
  (forall s', sv_hand s' = after_hand k -> sv_main s' = sv_main s -> sv_event s' = sv_event s -> sv_spawned s' = sv_spawned s -> sv_life s' = sv_life s -> gets s') -> gets s.
Proof.
  assert (forall r s f c es nx, sv_hand s = HReport x r k -> report_step x r (sv_status s) (sv_count s) = (f, c, es, nx) ->
    gets (with_hand (match nx with Some r' => HReport x r' k | None => after_hand k end) (with_report f c s)) -> gets s) as ST.
  { intros r s f c es nx M R G. eapply gets_hand; [|exact G]. cbn [sstep]. rewrite M, R. reflexivity. }
  assert (forall s, sv_hand s = HReport x RSend k ->
    (forall s', sv_hand s' = after_hand k -> sv_main s' = sv_main s -> sv_event s' = sv_event s -> sv_spawned s' = sv_spawned s -> sv_life s' = sv_life s -> gets s') -> gets s) as P4.
  { intros s M G. eapply ST; [exact M|reflexivity|]. apply G; reflexivity. }
  assert (forall s, sv_hand s = HReport x RCheck k ->
    (forall s', sv_hand s' = after_hand k -> sv_main s' = sv_main s -> sv_event s' = sv_event s -> sv_spawned s' = sv_spawned s -> sv_life s' = sv_life s -> gets s') -> gets s) as P3.
  { intros s M G. destruct (settled x) eqn:Se; (eapply ST; [exact M|cbn [report_step]; rewrite Se; reflexivity|]); apply P4; [reflexivity|exact G|reflexivity|exact G]. }
  assert (forall s, sv_hand s = HReport x RControls k ->
    (forall s', sv_hand s' = after_hand k -> sv_main s' = sv_main s -> sv_event s' = sv_event s -> sv_spawned s' = sv_spawned s -> sv_life s' = sv_life s -> gets s') -> gets s) as P2.
  { intros s M G. eapply ST; [exact M|reflexivity|]. apply P3; [reflexivity|exact G]. }
  intros r s M G. destruct r; [|now apply P2|now apply P3|now apply P4]. eapply ST; [exact M|reflexivity|]. apply P2; [reflexivity|exact G].
Qed.

Lemma gets_stop s : sv_main s = MStop -> going (sv_spawned s) (sv_life s) -> gets s.
Proof.
  intros M (A & B & _). exists [SMain]. cbn [sexec sstep]. rewrite M. cbn [lstep]. rewrite A, B. cbn. eexists _, _.
  split; [constructor; [now left|constructor]|]. split; [reflexivity|]. cbn. auto.
Qed.
Lemma gets_wait s : sv_main s = MWait -> sv_event s = Some true -> going (sv_spawned s) (sv_life s) -> gets s.
Proof.
  intros M V G. eapply gets_main; [cbn [sstep]; rewrite M, V; reflexivity|]. eapply gets_report; [reflexivity|].
  intros s' M' _ S' L'. apply gets_stop; [exact M'|]. rewrite S', L'. exact G.
Qed.
Lemma gets_test s : sv_main s = MTest -> sv_event s = Some true -> going (sv_spawned s) (sv_life s) -> gets s.
Proof.
  intros M V G. assert (is_stopped (sv_life s) = false) as E.
  { destruct G as (_ & _ & G & _). unfold is_stopped. destruct (lf_run (sv_life s)); congruence. }
  eapply gets_main; [cbn [sstep]; rewrite M, E; reflexivity|]. apply gets_wait; [reflexivity|exact V|exact G].
Qed.
Lemma gets_spawn s : sv_main s = MSpawn -> sv_event s = Some true -> fresh (sv_spawned s) (sv_life s) -> gets s.
Proof.
  intros M V (_ & F). eapply gets_main; [cbn [sstep]; rewrite M; reflexivity|]. apply gets_test; [reflexivity|exact V|].
  cbn. rewrite F. unfold going. cbn. repeat split; auto. discriminate.
Qed.

Lemma gets_set s evs : pinv s evs -> evented s evs -> sv_event s = Some true -> In AppStop evs \/ gets s.
Proof.
  intros ((P & _) & _ & J & E) V T. unfold evented in V. rewrite T in V. destruct (sv_main s) as [x r []| | | | | | |] eqn:M; try discriminate V.
  - right. eapply gets_report; [exact M|]. intros s' M' V' S' L'. apply gets_spawn; [exact M'|congruence|]. rewrite S', L'. apply P.
  - right. eapply gets_report; [exact M|]. intros s' M' V' S' L'. apply gets_stop; [exact M'|]. rewrite S', L'. apply P.
  - right. now apply gets_spawn.
  - right. now apply gets_test.
  - right. now apply gets_wait.
  - right. now apply gets_stop.
  - left. auto.
  - left. destruct V as [V|V]; [discriminate|exact V].
Qed.

(** A stop control that arrived once the event was there is not forgotten: the event is set, or the handler is on the way to setting it. *)
Definition due (s : service) : Prop :=
  sv_event s = Some true \/ sv_event s <> None /\ (sv_hand s = HSet \/ exists x r, sv_hand s = HReport x r ToSet).

Lemma due_step l s s2 evs e : evented s evs -> sstep l s = Some (Some (s2, e)) -> due s -> due s2.
Proof.
  intros V ST D. unfold due in *. destruct l as [|ok| | |l].
  - assert (sv_event s2 = sv_event s /\ sv_hand s2 = sv_hand s) as (-> & ->); [|exact D]. cbn [sstep] in ST.
    destruct (sv_main s) as [x r k| | | | | | |]; try discriminate.
    + destruct (report_step x r (sv_status s) (sv_count s)) as [[[f c] es] nx]. injection ST as <- <-. auto.
    + injection ST as <- <-. auto.
    + injection ST as <- <-. auto.
    + destruct (sv_event s) as [[]|] eqn:Ev; try discriminate. injection ST as <- <-. cbn. auto.
    + destruct (lstep LStop (sv_life s)) as [[[l' e']|]|]; try discriminate. injection ST as <- <-. auto.
    + destruct (lf_phase (sv_life s)); try discriminate. destruct (sv_spawned s); try discriminate. injection ST as <- <-. auto.
  - exfalso. cbn [sstep] in ST. unfold evented in V. destruct (sv_main s); try discriminate. destruct D as [D|(D & _)]; congruence.
  - cbn [sstep] in ST. destruct (sv_hand s) eqn:H; try discriminate. injection ST as <- <-. cbn. destruct D as [D|(D & _)]; [now left|].
    right. split; auto. eauto.
  - cbn [sstep] in ST. destruct (sv_hand s) as [|x r k| |] eqn:H; try discriminate.
    + destruct (report_step x r (sv_status s) (sv_count s)) as [[[f c] es] nx]. injection ST as <- <-. cbn.
      destruct D as [D|(D & [E|(y & r' & E)])]; [now left|discriminate|]. injection E as <- <- ->. right. split; auto. destruct nx; cbn; eauto.
    + injection ST as <- <-. cbn. left. destruct D as [->|(D & _)]; [reflexivity|]. destruct (sv_event s); congruence.
    + injection ST as <- <-. cbn. destruct D as [D|(D & [E|(y & r' & E)])]; [now left|discriminate..].
  - destruct (app_inv _ _ _ _ ST) as (f & es & L & N1 & N2 & N3 & N4 & -> & ->). exact D.
Qed.
Lemma due_exec ls1 ls2 s1 e1 s2 e2 : sexec ls1 service_init = Some (s1, e1) -> sexec ls2 s1 = Some (s2, e2) -> due s1 -> due s2.
Proof.
  revert s2 e2. induction ls2 as [|l ls2 IH] using rev_ind; intros s2 e2 X1 X2 D; [injection X2 as <- <-; exact D|].
  destruct (sexec_snoc _ _ _ _ _ X2) as (s & a & b & X & ST & ->). assert (sexec (ls1 ++ ls2) service_init = Some (s, e1 ++ a)) as Y by (rewrite sexec_app, X1, X; reflexivity).
  eapply due_step; eauto. apply (evented_holds _ _ _ Y).
Qed.
Lemma event_stays ls s s2 evs : sexec ls s = Some (s2, evs) -> sv_event s <> None -> sv_event s2 <> None.
Proof.
  revert s evs. induction ls as [|l ls IH]; intros s evs X N; [injection X as <- <-; exact N|]. cbn [sexec] in X.
  destruct (sstep l s) as [[[s1 e1]|]|] eqn:ST; try discriminate. destruct (sexec ls s1) as [[s3 e3]|] eqn:X3; try discriminate. injection X as <- <-.
  eapply IH; [exact X3|]. clear IH X3. destruct l as [|ok| | |l]; cbn [sstep] in ST.
  - destruct (sv_main s) as [x r k| | | | | | |]; try discriminate.
    + destruct (report_step x r (sv_status s) (sv_count s)) as [[[f c] es] nx]. injection ST as <- <-. exact N.
    + injection ST as <- <-. exact N.
    + injection ST as <- <-. exact N.
    + destruct (sv_event s) as [[]|] eqn:Ev; try discriminate. injection ST as <- <-. cbn. congruence.
    + destruct (lstep LStop (sv_life s)) as [[[l' e']|]|]; try discriminate. injection ST as <- <-. exact N.
    + destruct (lf_phase (sv_life s)); try discriminate. destruct (sv_spawned s); try discriminate. injection ST as <- <-. exact N.
  - destruct (sv_main s); try discriminate. destruct ok; injection ST as <- <-; cbn; [discriminate|exact N].
  - destruct (sv_hand s); try discriminate. injection ST as <- <-. exact N.
  - destruct (sv_hand s) as [|x r k| |]; try discriminate.
    + destruct (report_step x r (sv_status s) (sv_count s)) as [[[f c] es] nx]. injection ST as <- <-. exact N.
    + injection ST as <- <-. cbn. destruct (sv_event s); congruence.
    + injection ST as <- <-. exact N.
  - destruct (app_inv _ _ _ _ ST) as (f & es & L & N1 & N2 & N3 & N4 & -> & ->). exact N.
Qed.

(** Once the stop event has been created, a stop control is obeyed: from every state reached after it, the service's own two threads, if they go on, ask the
    application to stop, whatever the application does. *)
Theorem C68_obeyed : forall ls1 ls2 ls3 s evs,
  sexec (ls1 ++ SCreate true :: ls2 ++ SControl :: ls3) service_init = Some (s, evs) ->
  In AppStop evs \/ exists ls s' evs', Forall own ls /\ sexec ls s = Some (s', evs') /\ In AppStop evs'.
Proof.
  intros ls1 ls2 ls3 s evs X.
  assert (exists s1 e1 s2 e2 s3 e3, sexec ls1 service_init = Some (s1, e1) /\ sstep (SCreate true) s1 = Some (Some (s2, e2)) /\
    sexec ls2 s2 = Some (s3, e3) /\ exists s4 e4 e5, sstep SControl s3 = Some (Some (s4, e4)) /\ sexec ls3 s4 = Some (s, e5)) as (s1 & e1 & s2 & e2 & s3 & e3 & X1 & X2 & X3 & s4 & e4 & e5 & X4 & X5).
  { rewrite sexec_app in X. destruct (sexec ls1 service_init) as [[s1 e1]|]; [|discriminate]. cbn [sexec] in X.
    destruct (sstep (SCreate true) s1) as [[[s2 e2]|]|] eqn:C; try discriminate. rewrite sexec_app in X. destruct (sexec ls2 s2) as [[s3 e3]|] eqn:X3; try discriminate.
    cbn [sexec] in X. destruct (sstep SControl s3) as [[[s4 e4]|]|] eqn:C4; try discriminate. destruct (sexec ls3 s4) as [[s5 e5]|] eqn:X5; try discriminate.
    injection X as <- _. exists s1, e1, s2, e2, s3, e3. repeat split; auto. exists s4, e4, e5. auto. }
  assert (sexec (ls1 ++ SCreate true :: ls2 ++ [SControl]) service_init = Some (s4, e1 ++ e2 ++ e3 ++ e4)) as Y.
  { rewrite sexec_app, X1. cbn [sexec]. rewrite X2, sexec_app, X3. cbn [sexec]. rewrite X4. now rewrite app_nil_r. }
  assert (sv_event s2 <> None) as N2. { cbn [sstep] in X2. destruct (sv_main s1); try discriminate. injection X2 as <- _. discriminate. }
  pose proof (event_stays _ _ _ _ X3 N2) as N3.
  assert (due s4) as D. { cbn [sstep] in X4. destruct (sv_hand s3); try discriminate. injection X4 as <- _. right. split; [exact N3|]. right. do 2 eexists. reflexivity. }
  pose proof (due_exec _ _ _ _ _ _ Y X5 D) as D5. pose proof (pinv_holds _ _ _ X) as I. pose proof (evented_holds _ _ _ X) as V.
  assert (forall s', sv_main s' = sv_main s -> sv_event s' = Some true -> sv_spawned s' = sv_spawned s -> sv_life s' = sv_life s -> In AppStop evs \/ gets s') as G.
  { intros s' M' V' S' L'. destruct D5 as [T|(T & _)].
    - apply gets_set; auto; [|unfold evented in *; rewrite M', V'; rewrite T in V; exact V]. unfold pinv, placed in *. rewrite M', S', L'. exact I.
    - apply gets_set; auto; [unfold pinv, placed in *; rewrite M', S', L'; exact I|]. unfold evented in *. rewrite M', V'.
      destruct (sv_main s) as [x r []| | | | | | |]; try congruence. destruct V as [V|V]; [congruence|now right]. }
  destruct D5 as [T|(T & H)]; [exact (G s eq_refl T eq_refl eq_refl)|].
  assert (In AppStop evs \/ ~ In AppStop evs) as [IA|NA]; [|now left|].
  { destruct (in_dec (fun a b : sevent => ltac:(repeat decide equality)) AppStop evs); auto. }
  right. assert (forall s', sv_hand s' = HSet -> sv_main s' = sv_main s -> sv_event s' = sv_event s -> sv_spawned s' = sv_spawned s -> sv_life s' = sv_life s -> gets s') as GS.
  { intros s' H' M' V' S' L'. eapply gets_hand; [cbn [sstep]; rewrite H'; reflexivity|].
    assert (match sv_event s' with Some _ => Some true | None => None end = Some true) as E by (rewrite V'; destruct (sv_event s); congruence).
    destruct (G (with_hand HRead (with_event (match sv_event s' with Some _ => Some true | None => None end) s')) M' E S' L') as [Z|Z]; [tauto|exact Z]. }
  destruct H as [H|(x & r & H)]; [now apply GS|]. eapply gets_told; [exact H|]. intros s' H' M' V' S' L'. now apply GS.
Qed.
Print Assumptions C68_obeyed.

(** The application running, the handler just called. *)
Example C68_obeyed_case : exists s evs ls s' evs',
  sexec (repeat SMain 4 ++ [SCreate true] ++ repeat SMain 5 ++ [SApp LStart; SApp LBus; SControl]) service_init = Some (s, evs) /\ ~ In AppStop evs /\
  Forall own ls /\ sexec ls s = Some (s', evs') /\ In AppStop evs'.
Proof.
  do 2 eexists. exists (repeat SHand 5 ++ repeat SMain 7). do 2 eexists. split; [vm_compute; reflexivity|].
  split; [cbn; intros Z; repeat destruct Z as [Z|Z]; try discriminate Z; destruct Z|].
  split; [repeat (apply Forall_cons; [unfold own; auto|]); apply Forall_nil|]. split; [vm_compute; reflexivity|]. cbn. tauto.
Qed.
(** Before the event is there, a control is lost: the handler has returned, and the service waits for another. *)
Example C68_lost_case : exists s evs,
  sexec ([SControl] ++ repeat SHand 10 ++ repeat SMain 4 ++ [SCreate true] ++ repeat SMain 6) service_init = Some (s, evs) /\
  sv_hand s = HIdle /\ sv_main s = MWait /\ sv_event s = Some false /\ ~ In AppStop evs.
Proof.
  do 2 eexists. split; [vm_compute; reflexivity|]. repeat split. cbn. intros Z; repeat destruct Z as [Z|Z]; try discriminate Z; destruct Z.
Qed.

(** * Without the event *)

Definition noapp (evs : list sevent) : Prop := forall e, ~ In (App e) evs.
Definition unborn (s : service) (evs : list sevent) : Prop :=
  match sv_main s with
  | MReport _ _ ToStop | MTest | MWait | MStop | MJoin => True
  | MEnd => In AppStop evs \/ noapp evs
  | _ => noapp evs
  end.
Lemma unborn_holds ls s evs : sexec ls service_init = Some (s, evs) -> unborn s evs.
Proof.
  revert s evs. induction ls as [|l ls IH] using rev_ind; intros s2 evs X.
  - injection X as <- <-. intros e [].
  - destruct (sexec_snoc _ _ _ _ _ X) as (s & e1 & e2 & X1 & ST & ->). pose proof (pinv_holds _ _ _ X1) as I.
    pose proof (IH _ _ X1) as E. clear IH X X1. unfold unborn in *.
    assert (forall a b, noapp a -> noapp b -> noapp (a ++ b)) as NA by (intros a b A B e; rewrite in_app_iff; firstorder).
    assert (noapp []) as NN by (intros e []).
    assert (forall x r f c f' c' es nx, report_step x r f c = (f', c', es, nx) -> noapp es) as NR.
    { intros x r f c f' c' es nx R e. destruct r; cbn in R; [| |destruct (settled x)|]; injection R as <- <- <- <-; cbn; try tauto. intros [Z|[]]; discriminate. }
    destruct l as [|ok| | |l].
    + cbn [sstep] in ST. destruct (sv_main s) as [x r k| | | | | | |] eqn:M; try discriminate.
      * destruct (report_step x r (sv_status s) (sv_count s)) as [[[f c] es] nx] eqn:R. injection ST as <- <-. apply NR in R.
        cbn. destruct nx; destruct k; cbn; auto.
      * injection ST as <- <-. cbn. auto.
      * injection ST as <- <-. cbn. destruct (is_stopped (sv_life s)); exact Logic.I.
      * destruct (sv_event s) as [[]|] eqn:V; try discriminate. injection ST as <- <-. cbn. auto.
      * destruct (lstep LStop (sv_life s)) as [[[l' e]|]|]; try discriminate. injection ST as <- <-. cbn. auto.
      * destruct (lf_phase (sv_life s)); try discriminate. destruct (sv_spawned s); try discriminate.
        injection ST as <- <-. left. rewrite in_app_iff. left. now apply I.
    + cbn [sstep] in ST. destruct (sv_main s) as [x r k| | | | | | |] eqn:M; try discriminate.
      destruct ok; injection ST as <- <-; cbn; auto.
    + cbn [sstep] in ST. destruct (sv_hand s); try discriminate. injection ST as <- <-. cbn. rewrite app_nil_r. exact E.
    + cbn [sstep] in ST. assert (sv_main s2 = sv_main s /\ noapp e2) as (-> & N2).
      { destruct (sv_hand s) as [|x r k| |]; try discriminate; [|injection ST as <- <-; auto..].
        destruct (report_step x r (sv_status s) (sv_count s)) as [[[f c] es] nx] eqn:R. injection ST as <- <-. split; [reflexivity|]. eapply NR; eauto. }
      destruct (sv_main s) as [? ? []| | | | | | |]; auto. rewrite in_app_iff. destruct E; auto.
    + destruct (app_inv _ _ _ _ ST) as (f & es & L & N1 & N2 & N3 & N4 & -> & ->). cbn.
      assert (fresh (sv_spawned s) (sv_life s) -> False) as FR.
      { intros [F1 F2]. rewrite F2 in L. destruct l; try congruence; try discriminate. specialize (N4 eq_refl). congruence. }
      destruct I as ((P & _) & _ & _ & C). destruct (sv_main s) as [? ? []| | | | | | |]; try tauto.
      left. rewrite in_app_iff. left. destruct (C eq_refl); tauto.
Qed.

(** If the stop event cannot be created, the application is not started, nobody asks it to stop, and the service's thread is over after at most four
    more steps of its own. *)
Theorem C68_no_event : forall ls1 ls2 s evs, sexec (ls1 ++ SCreate false :: ls2) service_init = Some (s, evs) ->
  (forall e, ~ In (App e) evs) /\ ~ In AppStop evs /\
  exists n s' evs', n <= 4 /\ sexec (repeat SMain n) s = Some (s', evs') /\ sv_main s' = MEnd.
Proof.
  intros ls1 ls2. induction ls2 as [|l ls2 IH] using rev_ind; intros s evs X.
  - rewrite sexec_app in X. destruct (sexec ls1 service_init) as [[s1 e1]|] eqn:X1; [|discriminate]. cbn [sexec] in X.
    destruct (sstep (SCreate false) s1) as [[[s2 e2]|]|] eqn:ST; try discriminate. injection X as <- <-.
    pose proof (pinv_holds _ _ _ X1) as (_ & A & _). pose proof (unborn_holds _ _ _ X1) as U. unfold unborn in U. cbn [sstep] in ST.
    destruct (sv_main s1) eqn:M; try discriminate. injection ST as <- <-. cbn [List.app]. rewrite app_nil_r. split; [exact U|]. split; [apply A; exact Logic.I|].
    exists 4. do 2 eexists. split; [auto|]. split; [cbn; reflexivity|reflexivity].
  - assert (ls1 ++ SCreate false :: ls2 ++ [l] = (ls1 ++ SCreate false :: ls2) ++ [l]) as E by (rewrite <- app_assoc; reflexivity). rewrite E in X.
    destruct (sexec_snoc _ _ _ _ _ X) as (s1 & e1 & e2 & X1 & ST & ->). destruct (IH _ _ X1) as (A & B & n & s' & evs' & L & R & T).
    pose proof (pinv_holds _ _ _ X1) as I. pose proof (pinv_holds _ _ _ X) as I2. pose proof (unborn_holds _ _ _ X) as U.
    assert ((exists r, sv_main s1 = MReport Stopped r ToEnd) \/ sv_main s1 = MEnd) as P.
    { assert (evented s1 e1) as V by (apply (evented_holds _ _ _ X1)). clear -X1 V.
      rewrite sexec_app in X1. destruct (sexec ls1 service_init) as [[s0 e0]|] eqn:X0; [|discriminate]. cbn [sexec] in X1.
      destruct (sstep (SCreate false) s0) as [[[s2 e2]|]|] eqn:ST; try discriminate. destruct (sexec ls2 s2) as [[s3 e3]|] eqn:X3; try discriminate. injection X1 as <- _.
      assert ((exists r, sv_main s2 = MReport Stopped r ToEnd) \/ sv_main s2 = MEnd) as P.
      { cbn [sstep] in ST. destruct (sv_main s0); try discriminate. injection ST as <- _. left. eexists. reflexivity. }
      clear -P X3. revert s2 e3 P X3. induction ls2 as [|l ls2 IH]; intros s2 e3 P X3; [injection X3 as <- _; exact P|]. cbn [sexec] in X3.
      destruct (sstep l s2) as [[[s4 e4]|]|] eqn:ST; try discriminate. destruct (sexec ls2 s4) as [[s5 e5]|] eqn:X5; try discriminate. injection X3 as <- _.
      eapply IH; [|exact X5]. clear IH X5. destruct l as [|ok| | |l].
      - cbn [sstep] in ST. destruct P as [(r & P)|P]; rewrite P in ST; [|discriminate].
        destruct (report_step Stopped r (sv_status s2) (sv_count s2)) as [[[f c] es] nx] eqn:R. injection ST as <- _. destruct nx; cbn; eauto.
      - cbn [sstep] in ST. destruct P as [(r & P)|P]; rewrite P in ST; discriminate.
      - cbn [sstep] in ST. destruct (sv_hand s2); try discriminate. injection ST as <- _. exact P.
      - cbn [sstep] in ST. destruct (sv_hand s2) as [|x r k| |]; try discriminate; [|injection ST as <- _; exact P..].
        destruct (report_step x r (sv_status s2) (sv_count s2)) as [[[f c] es] nx]. injection ST as <- _. exact P.
      - destruct (app_inv _ _ _ _ ST) as (f & es & L & N1 & N2 & N3 & N4 & _ & ->). exact P. }
    assert ((exists r, sv_main s = MReport Stopped r ToEnd) \/ sv_main s = MEnd) as P2.
    { destruct l as [|ok| | |l].
      - cbn [sstep] in ST. destruct P as [(r & P)|P]; rewrite P in ST; [|discriminate].
        destruct (report_step Stopped r (sv_status s1) (sv_count s1)) as [[[f c] es] nx]. injection ST as <- _. destruct nx; cbn; eauto.
      - cbn [sstep] in ST. destruct P as [(r & P)|P]; rewrite P in ST; discriminate.
      - cbn [sstep] in ST. destruct (sv_hand s1); try discriminate. injection ST as <- _. exact P.
      - cbn [sstep] in ST. destruct (sv_hand s1) as [|x r k| |]; try discriminate; [|injection ST as <- _; exact P..].
        destruct (report_step x r (sv_status s1) (sv_count s1)) as [[[f c] es] nx]. injection ST as <- _. exact P.
      - destruct (app_inv _ _ _ _ ST) as (f & es & L' & N1 & N2 & N3 & N4 & _ & ->). exact P. }
    assert (~ In AppStop (e1 ++ e2)) as NS.
    { rewrite in_app_iff. intros [Z|Z]; [tauto|]. destruct l as [|ok| | |l].
      - cbn [sstep] in ST. destruct P as [(r & P)|P]; rewrite P in ST; [|discriminate].
        destruct (report_step Stopped r (sv_status s1) (sv_count s1)) as [[[f c] es] nx] eqn:R'. injection ST as _ <-.
        destruct r; cbn in R'; injection R' as <- <- <- <-; cbn in Z; try tauto. destruct Z as [Z|[]]; discriminate.
      - cbn [sstep] in ST. destruct P as [(r & P)|P]; rewrite P in ST; discriminate.
      - cbn [sstep] in ST. destruct (sv_hand s1); try discriminate. injection ST as _ <-. exact Z.
      - cbn [sstep] in ST. destruct (sv_hand s1) as [|x r k| |]; try discriminate; [|injection ST as _ <-; exact Z..].
        destruct (report_step x r (sv_status s1) (sv_count s1)) as [[[f c] es] nx] eqn:R'. injection ST as _ <-.
        destruct r; cbn in R'; [| |destruct (settled x)|]; injection R' as <- <- <- <-; cbn in Z; try tauto. destruct Z as [Z|[]]; discriminate.
      - destruct (app_inv _ _ _ _ ST) as (f & es & L' & N1 & N2 & N3 & N4 & -> & _). apply in_map_iff in Z as (? & Z & _). discriminate. }
    split; [|split; [exact NS|]].
    + unfold unborn in U. destruct P2 as [(r & P2)|P2]; rewrite P2 in U; [exact U|destruct U as [U|U]; [tauto|exact U]].
    + destruct P2 as [(r & P2)|P2]; [|exists 0; do 2 eexists; split; [lia|split; [reflexivity|exact P2]]].
      destruct r; [exists 4|exists 3|exists 2|exists 1]; cbn [repeat sexec]; cbn [sstep]; rewrite P2; cbn; do 2 eexists; (split; [lia|split; [reflexivity|reflexivity]]).
Qed.
Print Assumptions C68_no_event.

Example C68_no_event_case : exists s evs, sexec (repeat SMain 4 ++ [SControl; SHand] ++ [SCreate false] ++ repeat SMain 3) service_init = Some (s, evs) /\
  sv_main s = MReport Stopped RSend ToEnd.
Proof. do 2 eexists. split; vm_compute; reflexivity. Qed.

(** A stop control that was handled completely before the event was created is lost: unless another one comes, nobody asks the application to stop. *)
Theorem C68_lost : forall ls1 s1 e1 ls2 s evs,
  sexec ls1 service_init = Some (s1, e1) -> sv_hand s1 = HIdle -> sexec (SCreate true :: ls2) s1 = Some (s, evs) -> ~ In SControl ls2 ->
  ~ In AppStop (e1 ++ evs) /\ sv_event s = Some false.
Proof.
  intros ls1 s1 e1 ls2 s evs X1 H X2 N.
  assert (~ In AppStop (e1 ++ evs) /\ sv_event s = Some false /\ sv_hand s = HIdle /\
    match sv_main s with MReport _ _ ToCreate | MCreate | MReport _ _ ToStop | MStop | MJoin => False | _ => True end) as (A & B & _); [|auto].
  revert s evs X2 N. induction ls2 as [|l ls2 IH] using rev_ind; intros s evs X2 N.
  - cbn [sexec] in X2. destruct (sstep (SCreate true) s1) as [[[s2 e2]|]|] eqn:ST; try discriminate. injection X2 as <- <-.
    pose proof (pinv_holds _ _ _ X1) as (_ & A & _). cbn [sstep] in ST. destruct (sv_main s1) eqn:M; try discriminate. injection ST as <- <-. cbn [List.app].
    rewrite app_nil_r. split; [apply A; exact I|]. cbn. auto.
  - change (SCreate true :: ls2 ++ [l]) with ((SCreate true :: ls2) ++ [l]) in X2. destruct (sexec_snoc _ _ _ _ _ X2) as (s2 & a & b & X & ST & ->).
    rewrite in_app_iff in N. destruct (IH _ _ X) as (A & B & C & D); [tauto|]. rewrite app_assoc, in_app_iff.
    assert (sexec (ls1 ++ SCreate true :: ls2) service_init = Some (s2, e1 ++ a)) as Y by (rewrite sexec_app, X1, X; reflexivity).
    pose proof (pinv_holds _ _ _ Y) as P. clear IH X X2 Y. destruct l as [|ok| | |l].
    + cbn [sstep] in ST. destruct (sv_main s2) as [x r k| | | | | | |] eqn:M; try discriminate; try tauto.
      * destruct (report_step x r (sv_status s2) (sv_count s2)) as [[[f c] es] nx] eqn:R. injection ST as <- <-.
        assert (~ In AppStop es) as NE.
        { destruct r; cbn in R; [| |destruct (settled x)|]; injection R as <- <- <- <-; cbn; try tauto. intros [Z|[]]; discriminate. }
        cbn. repeat split; auto; try tauto. destruct nx; destruct k; cbn; auto.
      * injection ST as <- <-. cbn. repeat split; auto. tauto.
      * injection ST as <- <-. destruct P as ((P & _) & _). rewrite M in P. destruct P as (_ & _ & G & _).
        assert (is_stopped (sv_life s2) = false) as -> by (unfold is_stopped; destruct (lf_run (sv_life s2)); congruence).
        cbn. repeat split; auto. tauto.
      * rewrite B in ST. discriminate.
    + cbn [sstep] in ST. destruct (sv_main s2); try discriminate. tauto.
    + exfalso. apply N. right. now left.
    + cbn [sstep] in ST. rewrite C in ST. discriminate.
    + destruct (app_inv _ _ _ _ ST) as (f & es & L & N1 & N2 & N3 & N4 & -> & ->). cbn. repeat split; auto.
      intros [Z|Z]; [tauto|]. apply in_map_iff in Z as (? & Z & _). discriminate.
Qed.
Print Assumptions C68_lost.

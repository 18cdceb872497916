(** Invariants of a link plugin's life. *)
From Coq Require Import List Arith Bool Lia.
From Verif Require Import LinkModel LinkLifeModel LinkLifeSpec.
Import ListNotations.

(* ------------------------------------------------------------------ *)
(** * Small things *)

Lemma sock_dec (a b : sock) : {a = b} + {a <> b}.
Proof. decide equality. Defined.

Lemma sock_eqb_eq a b : sock_eqb a b = true <-> a = b.
Proof. destruct a, b; simpl; split; intros; congruence. Qed.

Lemma upd_eq {A} (f : sock -> A) k v : upd f k v k = v.
Proof. destruct k; reflexivity. Qed.
Lemma upd_ne {A} (f : sock -> A) k v j : k <> j -> upd f k v j = f j.
Proof. unfold upd; destruct (sock_eqb k j) eqn:E; auto. apply sock_eqb_eq in E; congruence. Qed.

Definition is_in (k : sock) (ks : list sock) : bool := if in_dec sock_dec k ks then true else false.
Lemma is_in_spec k ks : is_in k ks = true <-> In k ks.
Proof. unfold is_in; destruct (in_dec _ _ _); split; intros; auto; congruence. Qed.

(* ------------------------------------------------------------------ *)
(** * The threads *)

Definition ctl_holds (p : cpc) (k : sock) : bool :=
  match p with
  | CLock ks => negb (is_in k ks)
  | CTest | CClose _ | CTerm => true
  | CFree ks => is_in k ks
  | _ => false
  end.
Definition wrk_holds (p : wpc) (k : sock) : bool :=
  match p with WCtx j | WArg j | WRecv j _ | WUnlock j => sock_eqb j k | _ => false end.
Definition bus_holds (p : bpc) (k : sock) : bool :=
  match p with BArg j | BSend j _ | BUnlock j => sock_eqb j k | _ => false end.

Definition pub (k : sock) : Prop := k = ServerPub \/ k = ClientPub.
Definition subk (k : sock) : Prop := k = ServerSub \/ k = ClientSub.
Definition wrk_k (p : wpc) : Prop :=
  match p with WLock k | WCtx k | WArg k | WRecv k _ | WUnlock k => subk k | _ => True end.
Definition bus_k (p : bpc) : Prop :=
  match p with BTest k | BLock k | BArg k | BSend k _ | BUnlock k => pub k | _ => True end.

Definition rest (u : bool) (s : lnk) : Prop :=
  if u then exists i, ll_sub s = Some i /\ ll_live s = [i]
  else ll_sub s = None /\ ll_live s = [] /\ ll_ctx s = None.

Definition starting (u r : bool) (s : lnk) : Prop :=
  u = true /\ r = false /\ ll_sub s = None /\ ll_live s = [].
Definition ending (u : bool) (s : lnk) : Prop :=
  u = false /\ ll_sub s = None /\ ll_live s = [].

Definition pc_ok (u r : bool) (s : lnk) : Prop :=
  match ll_ctl s with
  | CIdle => rest u s
  | CDead => False
  | CNew ks => starting u r s /\ ll_ctx s = None /\ NoDup ks
  | COpen ks => starting u r s /\ NoDup ks /\ (forall k, In k ks -> ll_sock s k = None)
  | CUse k ks => starting u r s /\ NoDup ks /\ (forall k, In k ks -> ll_sock s k = None)
  | CUsing h ks => starting u r s /\ NoDup ks /\ (forall k, In k ks -> ll_sock s k = None) /\ exists k, ll_sock s k = Some h
  | CReg => starting u r s
  | CSet i => u = true /\ r = false /\ ll_sub s = Some i /\ ll_live s = []
  | CJoin => r = false /\ rest u s
  | CDel => u = false /\ rest true s
  | CLock ks => ending u s /\ NoDup ks
  | CTest => ending u s
  | CClose ks => ending u s /\ ll_ctx s <> None /\ forall k, In k ks \/ ll_sock s k = None
  | CTerm => ending u s /\ ll_ctx s <> None /\ forall k, ll_sock s k = None
  | CFree ks => ending u s /\ ll_ctx s = None /\ NoDup ks
  end.

Record cinv (u r : bool) (s : lnk) : Prop := {
  c_sl : ll_slock s = match ll_bus s with BIdle => false | _ => true end;
  c_bk : bus_k (ll_bus s);
  c_wk : wrk_k (ll_wrk s);
  c_hc : forall k, ll_held s k = Some TCtl <-> ctl_holds (ll_ctl s) k = true;
  c_hw : forall k, ll_held s k = Some TWork <-> wrk_holds (ll_wrk s) k = true;
  c_hb : forall k, ll_held s k = Some TBus <-> bus_holds (ll_bus s) k = true;
  c_bl : ll_bus s <> BIdle -> ll_live s <> [];
  c_cs : ll_ctx s = None -> forall k, ll_sock s k = None;
  c_run : ll_run s = r;
  c_wr : r = true -> ll_wrk s <> WNone /\ ll_wrk s <> WOver;
  c_wn : r = false -> ll_wrk s = WNone \/ ll_ctl s = CJoin;
  c_bs : forall k h, ll_bus s = BSend k h -> ll_sock s k = Some h;
  c_ws : forall k h, ll_wrk s = WRecv k h -> ll_sock s k = Some h;
  c_pc : pc_ok u r s
}.

Lemma cinv_init : cinv false false lnk_init.
Proof.
  constructor; simpl; auto; try tauto; try discriminate.
  all: try (intros _; split; discriminate); try congruence.
  unfold pc_ok; simpl; auto.
Qed.

(** What the calls say after a label. *)
Definition up_after (u : bool) (l : lklabel) : bool :=
  match l with KCall (KInit _ _) => true | KCall KDeinit => false | _ => u end.
Definition run_after (r : bool) (l : lklabel) : bool :=
  match l with KCall KStart => true | KCall KStop => false | _ => r end.
Definition allowed (u r : bool) (l : lklabel) : Prop :=
  match l with
  | KCall (KInit _ _) => u = false /\ r = false
  | KCall KStart => u = true /\ r = false
  | KCall KDeinit => u = true
  | _ => True
  end.

Lemma ordered_cons u r l ls : ordered u r (l :: ls) <-> allowed u r l /\ ordered (up_after u l) (run_after r l) ls.
Proof. destruct l as [[]| | | |]; simpl; try tauto; split; intros H; intuition (subst; auto). Qed.

Lemma NoDup_roles a b : NoDup (role_socks a b).
Proof.
  destruct a, b; simpl; repeat constructor; simpl; intuition discriminate.
Qed.
Lemma NoDup_all : NoDup all_socks.
Proof. repeat constructor; simpl; intuition discriminate. Qed.
Lemma NoDup_rall : NoDup (rev all_socks).
Proof. repeat constructor; simpl; intuition discriminate. Qed.
Lemma in_all k : In k all_socks.
Proof. destruct k; simpl; auto. Qed.
Lemma is_in_all k : is_in k all_socks = true.
Proof. apply is_in_spec, in_all. Qed.
Lemma is_in_rall k : is_in k (rev all_socks) = true.
Proof. apply is_in_spec; destruct k; simpl; auto. Qed.
Lemma is_in_nil k : is_in k [] = false.
Proof. destruct k; reflexivity. Qed.
Lemma is_in_cons k j ks : is_in k (j :: ks) = sock_eqb j k || is_in k ks.
Proof.
  apply eq_true_iff_eq. rewrite orb_true_iff, !is_in_spec, sock_eqb_eq. simpl; tauto.
Qed.
Lemma is_in_no k ks : ~ In k ks -> is_in k ks = false.
Proof. intros H. destruct (is_in k ks) eqn:E; auto. apply is_in_spec in E; tauto. Qed.

Lemma sock_eqb_refl k : sock_eqb k k = true.
Proof. destruct k; reflexivity. Qed.

Ltac step_inj E := let E1 := fresh in let E2 := fresh in injection E as E1 E2; match type of E1 with _ = ?x => subst x end; match type of E2 with _ = ?x => subst x end.
Ltac prj := cbn [ll_ctx ll_sock ll_sub ll_live ll_nsub ll_next ll_held ll_slock ll_run ll_ctl ll_wrk ll_bus
  set_pc set_wrk set_lbus set_slock set_lrun set_held set_ctx set_sock set_subs fresh fst snd] in *.

Lemma cinv_call u r c s :
  cinv u r s -> ll_ctl s = CIdle -> allowed u r (KCall c) -> cinv (up_after u (KCall c)) (run_after r (KCall c)) (fst (begin_call c s)).
Proof.
  intros [] P A. unfold pc_ok in c_pc0; rewrite P in c_pc0.
  assert (W : r = false -> ll_wrk s = WNone) by (intros E; destruct (c_wn0 E); [auto|congruence]).
  assert (HC : forall p, (forall k, ctl_holds p k = false) -> forall k, ll_held s k = Some TCtl <-> ctl_holds p k = true)
    by (intros p Hp k; rewrite c_hc0, P, Hp; simpl; tauto).
  destruct c as [a b| | |]; simpl in A; simpl up_after; simpl run_after; unfold begin_call.
  - destruct A as [-> ->]. simpl in c_pc0. destruct c_pc0 as (R1 & R2 & R3).
    constructor; prj; auto.
    unfold pc_ok, starting; prj. auto 9 using NoDup_roles.
  - destruct A as [-> ->]. rewrite (W eq_refl). simpl.
    constructor; prj; auto; try discriminate.
    + exact I.
    + rewrite (W eq_refl) in c_hw0. exact c_hw0.
    + split; discriminate.
    + unfold pc_ok; prj. rewrite P. exact c_pc0.
  - destruct r.
    + rewrite c_run0. simpl. constructor; prj; auto; try discriminate.
      unfold pc_ok; prj. auto.
    + rewrite c_run0. simpl. constructor; auto.
      unfold pc_ok. rewrite P. auto.
  - subst u. simpl. constructor; prj; auto.
    unfold pc_ok; prj. auto.
Qed.

Lemma cinv_msg u r b s s' e : cinv u r s -> lkstep (KMsg b) s = Some (s', e) -> cinv u r s'.
Proof.
  intros [] E. simpl in E.
  destruct (ll_bus s) eqn:B; try discriminate. destruct (ll_live s) eqn:L; try discriminate. step_inj E.
  constructor; prj; auto.
  - destruct b; auto.
  - destruct b; simpl; unfold pub; auto.
  - intros k. rewrite c_hb0. destruct b; simpl; tauto.
  - congruence.
  - destruct b; discriminate.
Qed.

Ltac held_tac := let j := fresh "j" in intros j; unfold upd; match goal with |- context [sock_eqb ?a j] =>
  let E := fresh "E" in destruct (sock_eqb a j) eqn:E; [apply sock_eqb_eq in E; subst j|] | _ => idtac end.

Lemma cinv_bus u r s s' e : cinv u r s -> lkstep KBus s = Some (s', e) -> cinv u r s'.
Proof.
  intros [] E. simpl in E. unfold lbus_step in E.
  assert (NL : forall k, ll_held s k = None -> ctl_holds (ll_ctl s) k = false /\ wrk_holds (ll_wrk s) k = false).
  { intros k H. split; [destruct (ctl_holds (ll_ctl s) k) eqn:X; auto; apply c_hc0 in X; congruence|].
    destruct (wrk_holds (ll_wrk s) k) eqn:X; auto; apply c_hw0 in X; congruence. }
  assert (HL : forall k, bus_holds (ll_bus s) k = true -> ctl_holds (ll_ctl s) k = false /\ wrk_holds (ll_wrk s) k = false).
  { intros k H. apply c_hb0 in H. split; [destruct (ctl_holds (ll_ctl s) k) eqn:X; auto; apply c_hc0 in X; congruence|].
    destruct (wrk_holds (ll_wrk s) k) eqn:X; auto; apply c_hw0 in X; congruence. }
  destruct (ll_bus s) as [|k|k|k|k h|k|] eqn:B; try discriminate; simpl in c_bk0.
  - step_inj E. constructor; prj; auto.
    + destruct (ll_sock s k), c_bk0; subst; simpl; auto.
    + destruct (ll_sock s k), c_bk0; subst; simpl; unfold pub; auto.
    + intros j. rewrite c_hb0. destruct (ll_sock s k), c_bk0; subst; simpl; tauto.
    + intros _. apply c_bl0. discriminate.
    + intros j h. destruct (ll_sock s k), c_bk0; subst; simpl; discriminate.
  - destruct (ll_held s k) eqn:H; try discriminate. step_inj E. destruct (NL k H) as (H1 & H2).
    constructor; prj; auto.
    + held_tac; [rewrite H1; split; discriminate|apply c_hc0].
    + held_tac; [rewrite H2; split; discriminate|apply c_hw0].
    + simpl. held_tac; [tauto|]. rewrite c_hb0. simpl. tauto.
    + intros _. apply c_bl0. discriminate.
    + discriminate.
  - destruct (ll_sock s k) eqn:K; step_inj E; constructor; prj; auto.
    all: try (intros _; apply c_bl0; discriminate); try discriminate.
    intros j h X. injection X as <- <-. auto.
  - step_inj E. constructor; prj; auto; try discriminate.
    intros _; apply c_bl0; discriminate.
  - step_inj E. destruct (HL k) as (H1 & H2); [simpl; apply sock_eqb_refl|].
    constructor; prj; auto.
    + destruct c_bk0; subst; simpl; auto.
    + destruct c_bk0; subst; simpl; unfold pub; auto.
    + held_tac; [rewrite H1; split; discriminate|apply c_hc0].
    + held_tac; [rewrite H2; split; discriminate|apply c_hw0].
    + intros j. unfold upd. rewrite (c_hb0 j) || idtac.
      destruct (sock_eqb k j) eqn:X.
      * destruct c_bk0; subst; simpl; split; discriminate.
      * rewrite c_hb0. simpl. rewrite X. destruct c_bk0; subst; simpl; tauto.
    + intros _; apply c_bl0; discriminate.
    + intros j h. destruct c_bk0; subst; discriminate.
  - step_inj E. constructor; prj; auto; try discriminate.
Qed.

Lemma cinv_work u r s s' e : cinv u r s -> lkstep KWork s = Some (s', e) -> cinv u r s'.
Proof.
  intros [] E. simpl in E. unfold work_step in E.
  assert (NL : forall k, ll_held s k = None -> ctl_holds (ll_ctl s) k = false /\ bus_holds (ll_bus s) k = false).
  { intros k H. split; [destruct (ctl_holds (ll_ctl s) k) eqn:X; auto; apply c_hc0 in X; congruence|].
    destruct (bus_holds (ll_bus s) k) eqn:X; auto; apply c_hb0 in X; congruence. }
  assert (HL : forall k, wrk_holds (ll_wrk s) k = true -> ctl_holds (ll_ctl s) k = false /\ bus_holds (ll_bus s) k = false).
  { intros k H. apply c_hw0 in H. split; [destruct (ctl_holds (ll_ctl s) k) eqn:X; auto; apply c_hc0 in X; congruence|].
    destruct (bus_holds (ll_bus s) k) eqn:X; auto; apply c_hb0 in X; congruence. }
  assert (WN : r = false -> ll_wrk s <> WNone -> ll_ctl s = CJoin) by (intros R N; destruct (c_wn0 R); [congruence|auto]).
  destruct (ll_wrk s) as [| |k|k|k|k h|k|] eqn:W; try discriminate; simpl in c_wk0.
  - step_inj E. constructor; prj; auto.
    + destruct (ll_run s); simpl; unfold subk; auto.
    + intros j. rewrite c_hw0. destruct (ll_run s); simpl; tauto.
    + rewrite c_run0. intros ->. split; discriminate.
    + intros R. right. apply WN; auto. discriminate.
    + intros j h. destruct (ll_run s); discriminate.
  - destruct (ll_held s k) eqn:H; try discriminate. step_inj E. destruct (NL k H) as (H1 & H2).
    constructor; prj; auto; try discriminate; try (split; discriminate).
    + held_tac; [rewrite H1; split; discriminate|apply c_hc0].
    + simpl. held_tac; [tauto|]. rewrite c_hw0. simpl. tauto.
    + held_tac; [rewrite H2; split; discriminate|apply c_hb0].
    + intros R. right. apply WN; auto. discriminate.
  - step_inj E. constructor; prj; auto.
    + destruct (ll_ctx s); simpl; auto.
    + intros j. rewrite c_hw0. destruct (ll_ctx s); simpl; tauto.
    + intros _. destruct (ll_ctx s); split; discriminate.
    + intros R. right. apply WN; auto. discriminate.
    + intros j h. destruct (ll_ctx s); discriminate.
  - destruct (ll_sock s k) eqn:K; step_inj E; constructor; prj; auto; try discriminate; try (split; discriminate).
    1,3: intros R; right; apply WN; auto; discriminate.
    intros j h X. injection X as <- <-. auto.
  - step_inj E. constructor; prj; auto; try discriminate; try (split; discriminate).
    intros R; right; apply WN; auto; discriminate.
  - step_inj E. destruct (HL k) as (H1 & H2); [simpl; apply sock_eqb_refl|].
    constructor; prj; auto.
    + destruct c_wk0; subst; simpl; unfold subk; auto.
    + held_tac; [rewrite H1; split; discriminate|apply c_hc0].
    + intros j. unfold upd.
      destruct (sock_eqb k j) eqn:X.
      * destruct c_wk0; subst; simpl; split; discriminate.
      * rewrite c_hw0. simpl. rewrite X. destruct c_wk0; subst; simpl; tauto.
    + held_tac; [rewrite H2; split; discriminate|apply c_hb0].
    + intros _. destruct c_wk0; subst; split; discriminate.
    + intros R. right. apply WN; auto. discriminate.
    + intros j h. destruct c_wk0; subst; discriminate.
Qed.

Lemma live_idle u r s : cinv u r s -> ll_live s = [] -> ll_bus s = BIdle.
Proof. intros [] L. destruct (ll_bus s) eqn:B; auto; exfalso; apply c_bl0; auto; discriminate. Qed.

Lemma cinv_ctl u r ok s s' e : cinv u r s -> lkstep (KCtl ok) s = Some (s', e) -> cinv u r s'.
Proof.
  intros C E. simpl in E. unfold ctl_step in E.
  pose proof (live_idle _ _ _ C) as LB. destruct C.
  assert (WN : r = false -> ll_ctl s <> CJoin -> ll_wrk s = WNone) by (intros R N; destruct (c_wn0 R); [auto|congruence]).
  assert (HC : forall p, (forall k, ctl_holds p k = ctl_holds (ll_ctl s) k) -> forall k, ll_held s k = Some TCtl <-> ctl_holds p k = true)
    by (intros p Hp k; rewrite c_hc0, Hp; simpl; tauto).
  assert (NL : forall k, ll_held s k = None -> wrk_holds (ll_wrk s) k = false /\ bus_holds (ll_bus s) k = false).
  { intros k H. split; [destruct (wrk_holds (ll_wrk s) k) eqn:X; auto; apply c_hw0 in X; congruence|].
    destruct (bus_holds (ll_bus s) k) eqn:X; auto; apply c_hb0 in X; congruence. }
  assert (HL : forall k, ctl_holds (ll_ctl s) k = true -> wrk_holds (ll_wrk s) k = false /\ bus_holds (ll_bus s) k = false).
  { intros k H. apply c_hc0 in H. split; [destruct (wrk_holds (ll_wrk s) k) eqn:X; auto; apply c_hw0 in X; congruence|].
    destruct (bus_holds (ll_bus s) k) eqn:X; auto; apply c_hb0 in X; congruence. }
  unfold pc_ok in c_pc0.
  destruct (ll_ctl s) as [| |ks|ks|k ks|h ks| |i| | |ks| |ks| |ks] eqn:P; try discriminate.
  - (* CNew *)
    destruct c_pc0 as ((U & R & S1 & S2) & S3 & S4).
    destruct ok; step_inj E; constructor; prj; auto; try discriminate; try (intros; left; apply WN; auto; discriminate).
    all: unfold pc_ok, starting; prj; repeat (split; [now auto|]); auto.
  - destruct ks as [|k ks].
    + step_inj E. constructor; prj; auto; try (intros; left; apply WN; auto; discriminate). unfold pc_ok; prj. apply c_pc0.
    + destruct c_pc0 as ((U & R & S1 & S2) & S4 & S5).
      pose proof (NoDup_cons_iff k ks) as ND. apply ND in S4. destruct S4 as [N1 N2].
      assert (S5' : forall v j, In j ks -> upd (ll_sock s) k v j = None).
      { intros v j J. rewrite upd_ne by (intros ->; auto). apply S5. simpl; auto. }
      destruct (ll_ctx s) as [c|] eqn:X; [destruct ok|]; step_inj E; constructor; prj; auto; try congruence.
      all: try (intros; left; apply WN; auto; discriminate).
      all: try (unfold pc_ok, starting; prj; repeat (split; [now auto|]); now auto).
      all: try (intros j h W; rewrite (LB S2) in W || rewrite (WN R) in W by discriminate; discriminate).
      intros _ j. unfold upd. destruct (sock_eqb k j); auto.
  - destruct c_pc0 as ((U & R & S1 & S2) & S4 & S5).
    destruct (ll_sock s k) eqn:K; step_inj E; constructor; prj; auto; try (intros; left; apply WN; auto; discriminate).
    all: unfold pc_ok, starting; prj; repeat (split; [now auto|]); eauto.
  - destruct c_pc0 as ((U & R & S1 & S2) & S4 & S5 & _).
    step_inj E; constructor; prj; auto; try (intros; left; apply WN; auto; discriminate).
    all: unfold pc_ok, starting; prj; repeat (split; [now auto|]); eauto.
  - destruct c_pc0 as (U & R & S1 & S2).
    destruct (ll_slock s) eqn:SL; try discriminate. step_inj E; constructor; prj; auto; try (intros; left; apply WN; auto; discriminate).
    1: congruence. unfold pc_ok; prj. auto.
  - destruct c_pc0 as (U & R & S1 & S2).
    step_inj E; constructor; prj; auto; try (intros; left; apply WN; auto; discriminate); try discriminate.
    unfold pc_ok; prj. subst u. simpl. rewrite S2. eauto.
  - destruct c_pc0 as (R & Q).
    assert (W : ll_wrk s = WNone \/ ll_wrk s = WOver) by (destruct (ll_wrk s); try discriminate; auto).
    assert (E' : Some (set_pc CIdle (set_wrk WNone s), @nil lkevent) = Some (s', e)) by (destruct (ll_wrk s); try discriminate; auto).
    clear E. step_inj E'. constructor; prj; auto; try congruence; try discriminate.
    + exact I.
    + intros k. rewrite c_hw0. destruct W as [-> | ->]; simpl; tauto.
  - destruct c_pc0 as (U & i & S1 & S2).
    destruct (ll_slock s) eqn:SL; try discriminate. rewrite S1 in E. step_inj E.
    assert (B : ll_bus s = BIdle) by (destruct (ll_bus s); auto; discriminate).
    constructor; prj; auto; try congruence.
    + apply HC. intros k. simpl. change [ServerPub; ServerSub; ClientPub; ClientSub] with all_socks. rewrite is_in_all. reflexivity.
    + intros. left. apply WN; auto. discriminate.
    + unfold pc_ok, ending; prj. rewrite S2. simpl. destruct (Nat.eq_dec i i); [|congruence].
      repeat (split; [now auto|]). apply NoDup_all.
  - destruct c_pc0 as ((U & S1 & S2) & ND). destruct ks as [|k ks].
    + step_inj E. constructor; prj; auto; try congruence.
      * intros; left; apply WN; auto; discriminate.
      * unfold pc_ok, ending; prj. auto.
    + destruct (ll_held s k) eqn:H; try discriminate. step_inj E. destruct (NL k H) as (H1 & H2).
      pose proof (NoDup_cons_iff k ks) as X. apply X in ND. destruct ND as [N1 N2].
      constructor; prj; auto; try congruence.
      * held_tac.
        -- simpl. rewrite is_in_no by auto. tauto.
        -- rewrite c_hc0. simpl. rewrite is_in_cons, E. simpl. tauto.
      * held_tac; [rewrite H1; split; discriminate|apply c_hw0].
      * held_tac; [rewrite H2; split; discriminate|apply c_hb0].
      * intros; left; apply WN; auto; discriminate.
      * unfold pc_ok, ending; prj. auto.
  - destruct c_pc0 as (U & S1 & S2).
    step_inj E. constructor; prj; auto.
    + apply HC. intros k. destruct (ll_ctx s); simpl; auto. change [ClientSub; ClientPub; ServerSub; ServerPub] with (rev all_socks). apply is_in_rall.
    + intros; left; apply WN; auto; discriminate.
    + unfold pc_ok, ending; prj. destruct (ll_ctx s) eqn:X.
      * repeat (split; [now auto || discriminate|]). left. apply in_all.
      * repeat (split; [now auto|]). exact NoDup_rall.
  - destruct c_pc0 as ((U & S1 & S2) & S3 & S4). destruct ks as [|k ks].
    + step_inj E. constructor; prj; auto.
      * intros; left; apply WN; auto; discriminate.
      * unfold pc_ok, ending; prj. repeat (split; [now auto|]). intros k. destruct (S4 k) as [[]|]; auto.
    + destruct (HL k eq_refl) as (H1 & H2).
      assert (E' : Some (set_pc (CClose ks) (set_sock k None s), match ll_sock s k with Some h => [EvClose h] | None => [] end) = Some (s', e)
                \/ ll_sock s k = None /\ Some (set_pc (CClose ks) s, @nil lkevent) = Some (s', e))
        by (destruct (ll_sock s k); auto).
      destruct E' as [E'|[K E']]; step_inj E'; constructor; prj; auto; try (intros; left; apply WN; auto; discriminate).
      * intros X j. unfold upd. destruct (sock_eqb k j); auto.
      * intros j h X. unfold upd. destruct (sock_eqb k j) eqn:Y; [|eauto]. rewrite X in H2. simpl in H2. apply sock_eqb_eq in Y. subst j.
        rewrite sock_eqb_refl in H2. discriminate.
      * intros j h X. unfold upd. destruct (sock_eqb k j) eqn:Y; [|eauto]. rewrite X in H1. simpl in H1. apply sock_eqb_eq in Y. subst j.
        rewrite sock_eqb_refl in H1. discriminate.
      * unfold pc_ok, ending; prj. repeat (split; [now auto|]). intros j. unfold upd. destruct (sock_eqb k j) eqn:Y; auto.
        destruct (S4 j) as [[<-|]|]; auto. rewrite sock_eqb_refl in Y. discriminate.
      * unfold pc_ok, ending; prj. repeat (split; [now auto|]). intros j. destruct (S4 j) as [[<-|]|]; auto.
  - destruct c_pc0 as ((U & S1 & S2) & S3 & S4). step_inj E. constructor; prj; auto.
    + apply HC. intros k. simpl. change [ClientSub; ClientPub; ServerSub; ServerPub] with (rev all_socks). apply is_in_rall.
    + intros; left; apply WN; auto; discriminate.
    + unfold pc_ok, ending; prj. repeat (split; [now auto|]). exact NoDup_rall.
  - destruct c_pc0 as ((U & S1 & S2) & S3 & ND). destruct ks as [|k ks].
    + step_inj E. constructor; prj; auto.
      * intros; left; apply WN; auto; discriminate.
      * unfold pc_ok; prj. subst u. simpl. auto.
    + step_inj E. destruct (HL k) as (H1 & H2); [simpl; rewrite is_in_cons, sock_eqb_refl; reflexivity|].
      pose proof (NoDup_cons_iff k ks) as X. apply X in ND. destruct ND as [N1 N2].
      constructor; prj; auto.
      * held_tac.
        -- simpl. rewrite is_in_no by auto. split; discriminate.
        -- rewrite c_hc0. simpl. rewrite is_in_cons, E. simpl. tauto.
      * held_tac; [rewrite H1; split; discriminate|apply c_hw0].
      * held_tac; [rewrite H2; split; discriminate|apply c_hb0].
      * intros; left; apply WN; auto; discriminate.
      * unfold pc_ok, ending; prj. auto.
Qed.

(* ------------------------------------------------------------------ *)
(** * What has happened to the handles *)

Lemma thread_dec (a b : thread) : {a = b} + {a <> b}.
Proof. decide equality. Defined.

Lemma lkevent_dec (a b : lkevent) : {a = b} + {a <> b}.
Proof. repeat decide equality. Defined.

Lemma inside_snoc t h tr e : inside t h (tr ++ [e]) <-> e = EvCall t h \/ inside t h tr /\ e <> EvRet t h.
Proof.
  split.
  - intros (t1 & t2 & E & N). destruct t2 as [|x t2] using rev_ind.
    + change (tr ++ [e] = t1 ++ [EvCall t h]) in E. apply app_inj_tail in E. tauto.
    + right. change (EvCall t h :: t2 ++ [x]) with ((EvCall t h :: t2) ++ [x]) in E.
      rewrite app_assoc in E. apply app_inj_tail in E. destruct E as [-> ->].
      split; [exists t1, t2; split; auto|]; intros X; apply N; apply in_or_app; simpl; auto.
  - intros [-> | [(t1 & t2 & -> & N) X]].
    + exists tr, []. auto.
    + exists t1, (t2 ++ [e]). split; [rewrite <- app_assoc; reflexivity|].
      intros Y. apply in_app_or in Y. destruct Y as [Y|[Y|[]]]; auto.
Qed.

Lemma inside_nil t h : ~ inside t h [].
Proof. intros ([] & t2 & E & _); discriminate. Qed.

Definition ev_ok (tr1 : list lkevent) (e : lkevent) : Prop :=
  match e with
  | EvCall _ h | EvClose h => usable_by_one h tr1
  | EvSocket _ c => In (EvCtx c) tr1 /\ ~ In (EvTerm c) tr1
  | EvTerm c => In (EvCtx c) tr1 /\ ~ In (EvTerm c) tr1 /\ forall h, In (EvSocket h c) tr1 -> In (EvClose h) tr1
  | EvNull | EvAbort => False
  | EvCtx _ | EvRet _ _ => True
  end.

Lemma sound_snoc tr e : sound tr -> ev_ok tr e -> sound (tr ++ [e]).
Proof.
  intros S K t1 x t2 E. destruct t2 as [|y t2] using rev_ind.
  - apply app_inj_tail in E. destruct E as [-> ->]. exact K.
  - change (x :: t2 ++ [y]) with ((x :: t2) ++ [y]) in E. rewrite app_assoc in E.
    apply app_inj_tail in E. destruct E as [-> _]. exact (S t1 x t2 eq_refl).
Qed.

Definition ev_handles (e : lkevent) : list nat :=
  match e with
  | EvCtx c | EvTerm c => [c]
  | EvSocket h c => [h; c]
  | EvCall _ h | EvRet _ h | EvClose h => [h]
  | EvNull | EvAbort => []
  end.

Record tinv (ctx : option nat) (sk : sock -> option nat) (n : nat) (ins : thread -> nat -> Prop) (tr : list lkevent) : Prop := {
  t_open : forall h, (exists c, In (EvSocket h c) tr) /\ ~ In (EvClose h) tr <-> exists k, sk k = Some h;
  t_octx : forall h c, In (EvSocket h c) tr -> In (EvClose h) tr \/ ctx = Some c;
  t_ctx : forall c, In (EvCtx c) tr /\ ~ In (EvTerm c) tr <-> ctx = Some c;
  t_fresh : forall e h, In e tr -> In h (ev_handles e) -> h < n;
  t_inj : forall k j h, sk k = Some h -> sk j = Some h -> k = j;
  t_in : forall t h, inside t h tr <-> ins t h;
  t_sound : sound tr
}.

Lemma tinv_ext ctx sk sk' n ins ins' tr :
  tinv ctx sk n ins tr -> (forall k, sk' k = sk k) -> (forall t h, ins' t h <-> ins t h) -> tinv ctx sk' n ins' tr.
Proof.
  intros [] K I. constructor; auto.
  - intros h. rewrite t_open0. split; intros [k X]; exists k; [rewrite K|rewrite <- K]; auto.
  - intros k j h. rewrite !K. apply t_inj0.
  - intros t h. rewrite I. auto.
Qed.

Lemma in_snoc {A} (x y : A) l : In x (l ++ [y]) <-> In x l \/ y = x.
Proof. rewrite in_app_iff. simpl. tauto. Qed.

Lemma lt_fresh ctx sk n ins tr e h : tinv ctx sk n ins tr -> In e tr -> In h (ev_handles e) -> h <> n.
Proof. intros [] A B. specialize (t_fresh0 _ _ A B). lia. Qed.

Lemma tinv_ctx sk n ins tr :
  tinv None sk n ins tr -> (forall k, sk k = None) -> tinv (Some n) sk (S n) ins (tr ++ [EvCtx n]).
Proof.
  intros T K. pose proof (fun e h => lt_fresh _ _ _ _ _ e h T) as F. destruct T. constructor; auto.
  - intros h. rewrite in_snoc. rewrite <- t_open0. split; intros [[c X] Y].
    + apply in_snoc in X. destruct X; [|discriminate]. split; eauto.
    + split; [exists c; apply in_snoc; auto|]. intros [Z|Z]; [auto|discriminate].
  - intros h c X. apply in_snoc in X. destruct X as [X|]; [|discriminate].
    left. apply in_snoc. destruct (t_octx0 _ _ X); [auto|discriminate].
  - intros c. rewrite !in_snoc. split.
    + intros [[X|X] Y]; [|congruence]. destruct (t_ctx0 c) as [Z _].
      assert (None = Some c) by (apply Z; auto). discriminate.
    + intros X. injection X as <-. split; [auto|]. intros [X|X]; [|discriminate]. apply (F _ n X); simpl; auto.
  - intros e h X Y. apply in_snoc in X. destruct X as [X|<-]; [specialize (t_fresh0 _ _ X Y); lia|].
    simpl in Y. destruct Y as [<-|[]]. lia.
  - intros t h. rewrite inside_snoc, <- t_in0. split; [intros [X|[X _]]; [discriminate|auto]|]. intros X. right. split; [auto|discriminate].
  - apply sound_snoc; simpl; auto.
Qed.

Lemma tinv_socket c sk k n ins tr :
  tinv (Some c) sk n ins tr -> sk k = None -> tinv (Some c) (upd sk k (Some n)) (S n) ins (tr ++ [EvSocket n c]).
Proof.
  intros T K. pose proof (fun e h => lt_fresh _ _ _ _ _ e h T) as F. destruct T.
  assert (NS : forall j, sk j <> Some n).
  { intros j X. destruct (t_open0 n) as [_ Y]. destruct Y as [[d Y] _]; eauto. apply (F _ n Y); simpl; auto. }
  constructor; auto.
  - intros h. rewrite in_snoc. split.
    + intros [[d X] Y]. apply in_snoc in X. destruct X as [X|X].
      * destruct (t_open0 h) as [Z _]. destruct Z as [j Z]; [split; eauto|].
        exists j. rewrite upd_ne; auto. congruence.
      * injection X as <- <-. exists k. apply upd_eq.
    + intros [j X]. destruct (sock_dec k j) as [<-|D].
      * rewrite upd_eq in X. injection X as <-. split; [exists c; apply in_snoc; auto|].
        intros [X|X]; [|discriminate]. apply (F _ n X); simpl; auto.
      * rewrite upd_ne in X by auto. destruct (t_open0 h) as [_ Z]. destruct Z as [[d Z] W]; eauto.
        split; [exists d; apply in_snoc; auto|]. intros [Y|Y]; [auto|discriminate].
  - intros h d X. apply in_snoc in X. destruct X as [X|X].
    + destruct (t_octx0 _ _ X); auto. left. apply in_snoc. auto.
    + injection X as <- <-. auto.
  - intros d. rewrite !in_snoc, <- t_ctx0. split.
    + intros [[X|X] Y]; [|discriminate]. auto.
    + intros [X Y]. split; [auto|]. intros [Z|Z]; [auto|discriminate].
  - intros e h X Y. apply in_snoc in X. destruct X as [X|<-]; [specialize (t_fresh0 _ _ X Y); lia|].
    simpl in Y. destruct Y as [<-|[<-|[]]]; [lia|]. destruct (t_ctx0 c) as [_ Z]. destruct Z as [Z _]; auto.
    assert (c < n) by (apply (t_fresh0 _ _ Z); simpl; auto). lia.
  - intros a b h X Y. destruct (sock_dec k a) as [<-|D]; destruct (sock_dec k b) as [<-|D']; auto.
    + rewrite upd_eq in X. rewrite upd_ne in Y by auto. injection X as <-. exfalso. eapply NS; eauto.
    + rewrite upd_eq in Y. rewrite upd_ne in X by auto. injection Y as <-. exfalso. eapply NS; eauto.
    + rewrite upd_ne in X, Y by auto. eauto.
  - intros t h. rewrite inside_snoc, <- t_in0. split; [intros [X|[X _]]; [discriminate|auto]|]. intros X. right. split; [auto|discriminate].
  - apply sound_snoc; simpl; auto. apply t_ctx0. reflexivity.
Qed.

Lemma tinv_call ctx sk n ins ins' t k h tr :
  tinv ctx sk n ins tr -> sk k = Some h -> (forall t', ~ ins t' h) ->
  (forall t' h', ins' t' h' <-> ins t' h' \/ t' = t /\ h' = h) -> tinv ctx sk n ins' (tr ++ [EvCall t h]).
Proof.
  intros [] K N I. destruct (t_open0 h) as [_ O]. destruct O as [[c O] O']; eauto. constructor; auto.
  - intros g. rewrite in_snoc, <- t_open0. split.
    + intros [[d X] Y]. apply in_snoc in X. destruct X; [|discriminate]. split; eauto.
    + intros [[d X] Y]. split; [exists d; apply in_snoc; auto|]. intros [Z|Z]; [auto|discriminate].
  - intros g d X. rewrite in_snoc. apply in_snoc in X. destruct X as [X|]; [|discriminate]. destruct (t_octx0 _ _ X); auto.
  - intros d. rewrite !in_snoc, <- t_ctx0. split.
    + intros [[X|X] Y]; [|discriminate]. auto.
    + intros [X Y]. split; [auto|]. intros [Z|Z]; [auto|discriminate].
  - intros e g X Y. apply in_snoc in X. destruct X as [X|<-]; [eauto|]. simpl in Y. destruct Y as [<-|[]].
    apply (t_fresh0 _ _ O). simpl; auto.
  - intros t' h'. rewrite inside_snoc, I, <- t_in0. split.
    + intros [X|[X _]]; [injection X as <- <-; auto|auto].
    + intros [X|[-> ->]]; [right; split; [auto|discriminate]|auto].
  - apply sound_snoc; simpl; auto. split; [eauto|split; [auto|]]. intros t' X. apply t_in0 in X. eapply N; eauto.
Qed.

Lemma tinv_ret ctx sk n ins ins' t h tr :
  tinv ctx sk n ins tr -> ins t h ->
  (forall t' h', ins' t' h' <-> ins t' h' /\ (t' <> t \/ h' <> h)) -> tinv ctx sk n ins' (tr ++ [EvRet t h]).
Proof.
  intros [] N I. constructor; auto.
  - intros g. rewrite in_snoc, <- t_open0. split.
    + intros [[d X] Y]. apply in_snoc in X. destruct X; [|discriminate]. split; eauto.
    + intros [[d X] Y]. split; [exists d; apply in_snoc; auto|]. intros [Z|Z]; [auto|discriminate].
  - intros g d X. rewrite in_snoc. apply in_snoc in X. destruct X as [X|]; [|discriminate]. destruct (t_octx0 _ _ X); auto.
  - intros d. rewrite !in_snoc, <- t_ctx0. split.
    + intros [[X|X] Y]; [|discriminate]. auto.
    + intros [X Y]. split; [auto|]. intros [Z|Z]; [auto|discriminate].
  - intros e g X Y. apply in_snoc in X. destruct X as [X|<-]; [eauto|]. simpl in Y. destruct Y as [<-|[]].
    apply t_in0 in N. destruct N as (t1 & t2 & -> & _).
    apply (t_fresh0 (EvCall t h)); [apply in_or_app; simpl; auto|simpl; auto].
  - intros t' h'. rewrite inside_snoc, I, <- t_in0. split.
    + intros [X|[X Y]]; [discriminate|]. split; [auto|].
      destruct (thread_dec t' t) as [->|D]; [right; intros ->; apply Y; reflexivity|left; exact D].
    + intros [X Y]. right. split; [auto|]. intros Z. injection Z as <- <-. tauto.
  - apply sound_snoc; simpl; auto.
Qed.

Lemma tinv_close ctx sk n ins k h tr :
  tinv ctx sk n ins tr -> sk k = Some h -> (forall t, ~ ins t h) -> tinv ctx (upd sk k None) n ins (tr ++ [EvClose h]).
Proof.
  intros [] K N. destruct (t_open0 h) as [_ O]. destruct O as [[c O] O']; eauto. constructor; auto.
  - intros g. rewrite in_snoc. split.
    + intros [[d X] Y]. apply in_snoc in X. destruct X as [X|]; [|discriminate].
      destruct (t_open0 g) as [Z _]. destruct Z as [j Z]; [split; eauto|]. exists j. rewrite upd_ne; auto. intros <-. apply Y. right. congruence.
    + intros [j X]. destruct (sock_dec k j) as [<-|D]; [rewrite upd_eq in X; discriminate|]. rewrite upd_ne in X by auto.
      destruct (t_open0 g) as [_ Z]. destruct Z as [[d Z] W]; eauto. split; [exists d; apply in_snoc; auto|].
      intros [Y|Y]; [auto|]. injection Y as <-. apply D. eauto.
  - intros g d X. rewrite in_snoc. apply in_snoc in X. destruct X as [X|]; [|discriminate]. destruct (t_octx0 _ _ X); auto.
  - intros d. rewrite !in_snoc, <- t_ctx0. split.
    + intros [[X|X] Y]; [|discriminate]. auto.
    + intros [X Y]. split; [auto|]. intros [Z|Z]; [auto|discriminate].
  - intros e g X Y. apply in_snoc in X. destruct X as [X|<-]; [eauto|]. simpl in Y. destruct Y as [<-|[]].
    apply (t_fresh0 _ _ O). simpl; auto.
  - intros a b g X Y. destruct (sock_dec k a) as [<-|D]; [rewrite upd_eq in X; discriminate|].
    destruct (sock_dec k b) as [<-|D']; [rewrite upd_eq in Y; discriminate|]. rewrite upd_ne in X, Y by auto. eauto.
  - intros t g. rewrite inside_snoc, <- t_in0. split; [intros [X|[X _]]; [discriminate|auto]|]. intros X. right. split; [auto|discriminate].
  - apply sound_snoc; simpl; auto. split; [eauto|split; [auto|]]. intros t' X. apply t_in0 in X. eapply N; eauto.
Qed.

Lemma tinv_term c sk n ins tr :
  tinv (Some c) sk n ins tr -> (forall k, sk k = None) -> tinv None sk n ins (tr ++ [EvTerm c]).
Proof.
  intros [] K. destruct (t_ctx0 c) as [_ O]. destruct O as [O O']; auto.
  assert (CL : forall h d, In (EvSocket h d) tr -> In (EvClose h) tr).
  { intros h d X. destruct (in_dec lkevent_dec (EvClose h) tr) as [|N]; auto.
    destruct (t_open0 h) as [Y _]. destruct Y as [k Y]; [split; eauto|]. rewrite K in Y. discriminate. }
  constructor; auto.
  - intros g. rewrite in_snoc. split.
    + intros [[d X] Y]. apply in_snoc in X. destruct X as [X|]; [|discriminate]. exfalso. eauto.
    + intros [j X]. rewrite K in X. discriminate.
  - intros g d X. rewrite in_snoc. apply in_snoc in X. destruct X as [X|]; [|discriminate]. eauto.
  - intros d. rewrite !in_snoc. split; [|discriminate].
    intros [[X|X] Y]; [|discriminate]. assert (Some c = Some d) by (apply t_ctx0; auto). exfalso. apply Y. right. congruence.
  - intros e g X Y. apply in_snoc in X. destruct X as [X|<-]; [eauto|]. simpl in Y. destruct Y as [<-|[]].
    apply (t_fresh0 _ _ O). simpl; auto.
  - intros t g. rewrite inside_snoc, <- t_in0. split; [intros [X|[X _]]; [discriminate|auto]|]. intros X. right. split; [auto|discriminate].
  - apply sound_snoc; simpl; auto. split; [auto|split; [auto|]]. eauto.
Qed.

Definition thread_in (s : lnk) (t : thread) (h : nat) : Prop :=
  match t with
  | TCtl => exists ks, ll_ctl s = CUsing h ks
  | TWork => exists k, ll_wrk s = WRecv k h
  | TBus => exists k, ll_bus s = BSend k h
  end.
Definition tinvs (s : lnk) (tr : list lkevent) : Prop := tinv (ll_ctx s) (ll_sock s) (ll_next s) (thread_in s) tr.

Lemma tinvs_init : tinvs lnk_init [].
Proof.
  unfold tinvs. constructor; simpl; try tauto.
  - intros h. split; [intros [[c []] _]|intros [k X]; discriminate].
  - intros c. split; [intros [[] _]|discriminate].
  - discriminate.
  - intros t h. split; [intros X; exfalso; eapply inside_nil; eauto|]. destruct t; simpl; intros [k X]; discriminate.
  - intros t1 e t2 E. destruct t1; discriminate.
Qed.

Ltac tsame := unfold tinvs in *; prj; eapply tinv_ext; [eassumption|reflexivity|
  intros [] ?; unfold thread_in; prj; try tauto; split; intros [? ?]; first [congruence|discriminate|eauto]].

Lemma tinvs_call u r c s tr :
  cinv u r s -> ll_ctl s = CIdle -> allowed u r (KCall c) -> tinvs s tr -> snd (begin_call c s) = [] /\ tinvs (fst (begin_call c s)) tr.
Proof.
  intros C P A T. assert (W : r = false -> ll_wrk s = WNone) by (intros E; destruct (c_wn _ _ _ C E); [auto|congruence]).
  destruct c; simpl in *.
  - split; auto. tsame.
  - destruct A as [_ ->]. specialize (W eq_refl). rewrite W. split; auto. simpl. tsame.
  - destruct (ll_run s); split; auto; simpl. tsame.
  - split; auto. tsame.
Qed.

Lemma tinvs_msg b s s' e tr : tinvs s tr -> lkstep (KMsg b) s = Some (s', e) -> tinvs s' (tr ++ e).
Proof.
  intros T E. simpl in E. destruct (ll_bus s) eqn:B; try discriminate. destruct (ll_live s); try discriminate. step_inj E.
  rewrite app_nil_r. destruct b; tsame.
Qed.

Lemma tinvs_bus u r s s' e tr : cinv u r s -> tinvs s tr -> lkstep KBus s = Some (s', e) -> tinvs s' (tr ++ e).
Proof.
  intros C T E. simpl in E. unfold lbus_step in E. pose proof (c_bk _ _ _ C) as BK. pose proof (c_wk _ _ _ C) as WK.
  destruct (ll_bus s) as [|k|k|k|k h|k|] eqn:B; try discriminate; simpl in BK.
  - step_inj E. rewrite app_nil_r. destruct (ll_sock s k); destruct BK; subst; tsame.
  - destruct (ll_held s k); try discriminate. step_inj E. rewrite app_nil_r. tsame.
  - destruct (ll_sock s k) eqn:K; step_inj E.
    + eapply tinv_call; [exact T|exact K| |].
      * assert (LV : ll_live s <> []) by (apply (c_bl _ _ _ C); rewrite B; discriminate).
        intros [] X; simpl in X; destruct X as [x X].
        -- pose proof (c_pc _ _ _ C) as P. unfold pc_ok in P. rewrite X in P. destruct P as ((_ & _ & _ & L) & _). auto.
        -- pose proof (c_ws _ _ _ C _ _ X) as Y. pose proof (t_inj _ _ _ _ _ T _ _ _ K Y) as Z. subst x.
           rewrite X in WK. simpl in WK. unfold subk, pub in *. intuition congruence.
        -- rewrite B in X. discriminate.
      * intros [] g; unfold thread_in; prj; split; intros X; try tauto.
        1-2: destruct X as [X|[X _]]; [auto|discriminate].
        -- destruct X as [x X]. injection X as <- <-. auto.
        -- destruct X as [[x X]|[_ ->]]; [rewrite B in X; discriminate|]. eauto.
    + rewrite app_nil_r. tsame.
  - step_inj E. eapply tinv_ret; [exact T|simpl; eauto|].
    intros [] g; unfold thread_in; prj; split; intros X; try (split; [tauto|left; discriminate]); try tauto.
    + destruct X as [x X]. discriminate.
    + destruct X as [[x X] [Y|Y]]; [congruence|]. rewrite B in X. congruence.
  - step_inj E. rewrite app_nil_r. destruct BK; subst; tsame.
  - step_inj E. rewrite app_nil_r. tsame.
Qed.

Lemma tinvs_work u r s s' e tr : cinv u r s -> tinvs s tr -> lkstep KWork s = Some (s', e) -> tinvs s' (tr ++ e).
Proof.
  intros C T E. simpl in E. unfold work_step in E. pose proof (c_bk _ _ _ C) as BK. pose proof (c_wk _ _ _ C) as WK.
  destruct (ll_wrk s) as [| |k|k|k|k h|k|] eqn:B; try discriminate; simpl in WK.
  - step_inj E. rewrite app_nil_r. destruct (ll_run s); tsame.
  - destruct (ll_held s k); try discriminate. step_inj E. rewrite app_nil_r. tsame.
  - step_inj E. rewrite app_nil_r. destruct (ll_ctx s) eqn:X; unfold tinvs in *; prj; rewrite X in *; tsame.
  - destruct (ll_sock s k) eqn:K; step_inj E.
    + eapply tinv_call; [exact T|exact K| |].
      * intros [] X; simpl in X; destruct X as [x X].
        -- pose proof (c_pc _ _ _ C) as P. unfold pc_ok in P. rewrite X in P. destruct P as ((_ & R & _) & _).
           destruct (c_wn _ _ _ C R); congruence.
        -- rewrite B in X. discriminate.
        -- pose proof (c_bs _ _ _ C _ _ X) as Y. pose proof (t_inj _ _ _ _ _ T _ _ _ K Y) as Z. subst x.
           rewrite X in BK. simpl in BK. unfold subk, pub in *. intuition congruence.
      * intros [] g; unfold thread_in; prj; split; intros X; try tauto.
        -- destruct X as [X|[X _]]; [auto|discriminate].
        -- destruct X as [x X]. injection X as <- <-. auto.
        -- destruct X as [[x X]|[_ ->]]; [rewrite B in X; discriminate|]. eauto.
        -- destruct X as [X|[X _]]; [auto|discriminate].
    + rewrite app_nil_r. tsame.
  - step_inj E. eapply tinv_ret; [exact T|simpl; eauto|].
    intros [] g; unfold thread_in; prj; split; intros X; try (split; [tauto|left; discriminate]); try tauto.
    + destruct X as [x X]. discriminate.
    + destruct X as [[x X] [Y|Y]]; [congruence|]. rewrite B in X. congruence.
  - step_inj E. rewrite app_nil_r. destruct WK; subst; tsame.
Qed.

Lemma in_self_only u r s h :
  cinv u r s -> r = false -> ll_ctl s <> CJoin -> ll_live s = [] -> (forall ks, ll_ctl s <> CUsing h ks) -> forall t, ~ thread_in s t h.
Proof.
  intros C R P L N [] [x X]; simpl in X.
  - exact (N _ X).
  - destruct (c_wn _ _ _ C R); congruence.
  - rewrite (live_idle _ _ _ C L) in X. discriminate.
Qed.

Lemma tinvs_ctl u r ok s s' e tr : cinv u r s -> tinvs s tr -> lkstep (KCtl ok) s = Some (s', e) -> tinvs s' (tr ++ e).
Proof.
  intros C T E. simpl in E. unfold ctl_step in E. pose proof (c_pc _ _ _ C) as P. unfold pc_ok in P.
  pose proof (in_self_only u r s) as SO.
  destruct (ll_ctl s) as [| |ks|ks|k ks|h ks| |i| | |ks| |ks| |ks] eqn:Q; try discriminate.
  - destruct P as ((U & R & S1 & S2) & S3 & S4). destruct ok; step_inj E.
    + unfold tinvs in *; prj. rewrite S3 in T.
      eapply tinv_ext; [apply tinv_ctx; [exact T|apply (c_cs _ _ _ C S3)]|reflexivity|].
      intros [] ?; unfold thread_in; prj; try tauto; split; intros [? ?]; congruence.
    + rewrite app_nil_r. unfold tinvs in *; prj. rewrite S3 in T. tsame.
  - destruct ks as [|k ks]; [step_inj E; rewrite app_nil_r; tsame|].
    destruct P as ((U & R & S1 & S2) & S4 & S5).
    assert (K : ll_sock s k = None) by (apply S5; simpl; auto).
    assert (SK : forall j, upd (ll_sock s) k None j = ll_sock s j).
    { intros j. unfold upd. destruct (sock_eqb k j) eqn:Y; auto. apply sock_eqb_eq in Y. subst; auto. }
    destruct (ll_ctx s) as [c|] eqn:X; [destruct ok|]; step_inj E; unfold tinvs in *; prj; rewrite X in *.
    + eapply tinv_ext; [apply tinv_socket; [exact T|exact K]|reflexivity|].
      intros [] ?; unfold thread_in; prj; try tauto; split; intros [? ?]; congruence.
    + rewrite app_nil_r. eapply tinv_ext; [exact T|exact SK|].
      intros [] ?; unfold thread_in; prj; try tauto; split; intros [? ?]; congruence.
    + rewrite app_nil_r. eapply tinv_ext; [exact T|exact SK|].
      intros [] ?; unfold thread_in; prj; try tauto; split; intros [? ?]; congruence.
  - destruct P as ((U & R & S1 & S2) & S4 & S5).
    destruct (ll_sock s k) eqn:K; step_inj E.
    + eapply tinv_call; [exact T|exact K| |].
      * apply SO; auto; congruence.
      * intros [] g; unfold thread_in; prj; split; intros X; try tauto.
        2: destruct X as [[x X]|[_ ->]]; [rewrite Q in X; discriminate|eauto].
        2-3: destruct X as [X|[X _]]; [auto|discriminate].
        destruct X as [x X]. injection X as <- <-. auto.
    + rewrite app_nil_r. tsame.
  - step_inj E. eapply tinv_ret; [exact T|simpl; eauto|].
    intros [] g; unfold thread_in; prj; split; intros X; try (split; [tauto|left; discriminate]); try tauto.
    + destruct X as [x X]. discriminate.
    + destruct X as [[x X] [Y|Y]]; [congruence|]. rewrite Q in X. congruence.
  - destruct (ll_slock s); try discriminate. step_inj E. rewrite app_nil_r. tsame.
  - step_inj E. rewrite app_nil_r. tsame.
  - assert (W : forall k h, ll_wrk s <> WRecv k h) by (intros k h X; rewrite X in E; discriminate).
    assert (E' : Some (set_pc CIdle (set_wrk WNone s), @nil lkevent) = Some (s', e)) by (destruct (ll_wrk s); try discriminate; auto).
    clear E. step_inj E'. rewrite app_nil_r. unfold tinvs in *; prj; eapply tinv_ext; [exact T|reflexivity|].
    intros [] ?; unfold thread_in; prj; try tauto; split; intros [? X]; try congruence.
  - destruct P as (U & i & S1 & S2). destruct (ll_slock s); try discriminate. rewrite S1 in E. step_inj E. rewrite app_nil_r. tsame.
  - destruct ks as [|k ks]; [step_inj E; rewrite app_nil_r; tsame|].
    destruct (ll_held s k); try discriminate. step_inj E. rewrite app_nil_r. tsame.
  - step_inj E. rewrite app_nil_r. destruct (ll_ctx s) eqn:X; unfold tinvs in *; prj; rewrite X in *; tsame.
  - destruct ks as [|k ks]; [step_inj E; rewrite app_nil_r; tsame|].
    destruct P as ((U & S1 & S2) & S3 & S4).
    destruct (ll_sock s k) as [h|] eqn:K; step_inj E; [|rewrite app_nil_r; tsame].
    assert (HL : ll_held s k = Some TCtl) by (apply (c_hc _ _ _ C); rewrite Q; reflexivity).
    unfold tinvs in *; prj. eapply tinv_ext; [eapply tinv_close; [exact T|exact K|]|reflexivity|].
    + intros [] [x X].
      * congruence.
      * pose proof (c_ws _ _ _ C _ _ X) as Y. pose proof (t_inj _ _ _ _ _ T _ _ _ K Y) as Z. subst x.
        assert (ll_held s k = Some TWork) by (apply (c_hw _ _ _ C); rewrite X; simpl; apply sock_eqb_refl). congruence.
      * rewrite (live_idle _ _ _ C S2) in X. discriminate.
    + intros [] ?; unfold thread_in; prj; try tauto; split; intros [? ?]; congruence.
  - destruct P as ((U & S1 & S2) & S3 & S4). step_inj E. destruct (ll_ctx s) as [c|] eqn:X; [|congruence].
    unfold tinvs in *; prj; rewrite X in *. eapply tinv_ext; [eapply tinv_term; [exact T|exact S4]|reflexivity|].
    intros [] ?; unfold thread_in; prj; try tauto; split; intros [? ?]; congruence.
  - destruct ks as [|k ks]; step_inj E; rewrite app_nil_r; tsame.
Qed.

(* ------------------------------------------------------------------ *)
(** * Runs *)

Lemma step_inv u r l s s' e tr :
  cinv u r s -> tinvs s tr -> allowed u r l -> lkstep l s = Some (s', e) ->
  cinv (up_after u l) (run_after r l) s' /\ tinvs s' (tr ++ e).
Proof.
  intros C T A E. destruct l as [c|ok| |b|].
  - simpl in E. destruct (ll_ctl s) eqn:P; try discriminate. injection E as E.
    pose proof (cinv_call _ _ _ _ C P A) as Y. destruct (tinvs_call _ _ _ _ _ C P A T) as [X Z].
    rewrite E in *. cbn [fst snd] in *. subst e. rewrite app_nil_r. auto.
  - split; [eapply cinv_ctl|eapply tinvs_ctl]; eauto.
  - split; [eapply cinv_work|eapply tinvs_work]; eauto.
  - split; [eapply cinv_msg|eapply tinvs_msg]; eauto.
  - split; [eapply cinv_bus|eapply tinvs_bus]; eauto.
Qed.

Fixpoint up_end (u : bool) (ls : list lklabel) : bool := match ls with [] => u | l :: ls' => up_end (up_after u l) ls' end.
Fixpoint run_end (r : bool) (ls : list lklabel) : bool := match ls with [] => r | l :: ls' => run_end (run_after r l) ls' end.

Lemma exec_inv ls : forall u r s s' e tr,
  cinv u r s -> tinvs s tr -> ordered u r ls -> lkexec ls s = Some (s', e) ->
  cinv (up_end u ls) (run_end r ls) s' /\ tinvs s' (tr ++ e).
Proof.
  induction ls as [|l ls IH]; intros u r s s' e tr C T O E.
  - simpl in E. injection E as <- <-. rewrite app_nil_r. auto.
  - apply ordered_cons in O. destruct O as [A O]. cbn [lkexec] in E.
    destruct (lkstep l s) as [[s1 e1]|] eqn:E1; try discriminate.
    destruct (lkexec ls s1) as [[s2 e2]|] eqn:E2; try discriminate. injection E as <- <-.
    destruct (step_inv _ _ _ _ _ _ _ C T A E1) as [C1 T1].
    destruct (IH _ _ _ _ _ _ C1 T1 O E2) as [C2 T2]. rewrite app_assoc. auto.
Qed.

Lemma run_inv ls s tr :
  ordered false false ls -> lkexec ls lnk_init = Some (s, tr) -> cinv (up_end false ls) (run_end false ls) s /\ tinvs s tr.
Proof. intros O E. apply (exec_inv _ _ _ _ _ _ [] cinv_init tinvs_init O E). Qed.

Lemma up_end_is u ls : up_end u ls = is_up u ls.
Proof. revert u; induction ls as [|l ls IH]; intros u; simpl; auto. rewrite IH. destruct l as [[]| | | |]; reflexivity. Qed.

(* ------------------------------------------------------------------ *)
(** * Calls can always end *)

Lemma lkexec_app l1 : forall l2 s s1 e1 s2 e2,
  lkexec l1 s = Some (s1, e1) -> lkexec l2 s1 = Some (s2, e2) -> lkexec (l1 ++ l2) s = Some (s2, e1 ++ e2).
Proof.
  induction l1 as [|l l1 IH]; intros l2 s s1 e1 s2 e2 A B.
  - simpl in A. injection A as <- <-. exact B.
  - cbn [lkexec app] in *. destruct (lkstep l s) as [[s3 e3]|] eqn:E3; try discriminate.
    destruct (lkexec l1 s3) as [[s4 e4]|] eqn:E4; try discriminate. injection A as <- <-.
    rewrite (IH _ _ _ _ _ _ E4 B), app_assoc. reflexivity.
Qed.

(** [s'] is reached from [s] without new calls and messages. *)
Definition goes (s s' : lnk) : Prop := exists ls e, Forall quiet ls /\ lkexec ls s = Some (s', e).

Lemma goes_refl s : goes s s.
Proof. exists [], []. split; [constructor|reflexivity]. Qed.
Lemma goes_trans a b c : goes a b -> goes b c -> goes a c.
Proof.
  intros (l1 & e1 & Q1 & X1) (l2 & e2 & Q2 & X2). exists (l1 ++ l2), (e1 ++ e2).
  split; [apply Forall_app; auto|eapply lkexec_app; eauto].
Qed.
Lemma goes_one l s s' e : quiet l -> lkstep l s = Some (s', e) -> goes s s'.
Proof.
  intros Q E. exists [l], (e ++ []). split; [repeat constructor; auto|]. cbn [lkexec]. rewrite E. reflexivity.
Qed.

Lemma cinv_quiet u r l s s' e : cinv u r s -> quiet l -> lkstep l s = Some (s', e) -> cinv u r s'.
Proof.
  intros C Q E. destruct l; try destruct Q; [eapply cinv_ctl|eapply cinv_work|eapply cinv_bus]; eauto.
Qed.

Lemma cinv_goes u r s s' : cinv u r s -> goes s s' -> cinv u r s'.
Proof.
  intros C (ls & e & Q & E). revert s e C E. induction ls as [|l ls IH]; intros s e C E.
  - simpl in E. injection E as <- <-. auto.
  - inversion Q; subst. cbn [lkexec] in E. destruct (lkstep l s) as [[s1 e1]|] eqn:E1; try discriminate.
    destruct (lkexec ls s1) as [[s2 e2]|] eqn:E2; try discriminate. injection E as <- <-.
    eapply (IH H2 s1); eauto. eapply cinv_quiet; eauto.
Qed.

Definition bus_left (p : bpc) : nat :=
  let at_ k n := match k with ServerPub => n + 6 | _ => n end in
  match p with
  | BIdle => 0 | BEnd => 1
  | BUnlock k => at_ k 2 | BSend k _ => at_ k 3 | BArg k => at_ k 4 | BLock k => at_ k 5 | BTest k => at_ k 6
  end.

Lemma bus_goes n : forall u r s, cinv u r s -> bus_left (ll_bus s) <= n -> (forall k, pub k -> ctl_holds (ll_ctl s) k = false) ->
  exists s', goes s s' /\ ll_bus s' = BIdle /\ ll_ctl s' = ll_ctl s /\ ll_wrk s' = ll_wrk s.
Proof.
  induction n as [|n IH]; intros u r s C L H.
  - exists s. split; [apply goes_refl|]. split; auto. destruct (ll_bus s) as [|k|k|k|k h|k|]; auto; simpl in L; try destruct k; lia.
  - destruct (ll_bus s) eqn:B; [exists s; split; [apply goes_refl|auto]| | | | | | ].
    all: assert (X : exists s1 e1, lkstep KBus s = Some (s1, e1) /\ bus_left (ll_bus s1) <= n /\ ll_ctl s1 = ll_ctl s /\ ll_wrk s1 = ll_wrk s);
      [simpl lkstep; unfold lbus_step; rewrite B; pose proof (c_bk _ _ _ C) as K; rewrite B in K; simpl in K, L|
       destruct X as (s1 & e1 & E1 & L1 & P1 & W1);
       destruct (IH u r s1) as (s2 & G & B2 & P2 & W2);
         [eapply cinv_quiet; [exact C| |exact E1]; exact I|auto|rewrite P1; auto|];
       exists s2; split; [eapply goes_trans; [eapply goes_one; [|exact E1]; exact I|exact G]|]; repeat split; congruence].
    + eexists _, _. split; [reflexivity|]. prj. repeat split. destruct (ll_sock s k), K; subst; simpl in *; lia.
    + assert (N : ll_held s k = None).
      { destruct (ll_held s k) as [[]|] eqn:X; auto; exfalso.
        - apply (c_hc _ _ _ C) in X. rewrite H in X by auto. discriminate.
        - apply (c_hw _ _ _ C) in X. pose proof (c_wk _ _ _ C) as WK.
          destruct (ll_wrk s); try discriminate; simpl in X, WK; apply sock_eqb_eq in X; subst; unfold pub, subk in *; intuition congruence.
        - apply (c_hb _ _ _ C) in X. rewrite B in X. discriminate. }
      rewrite N. eexists _, _. split; [reflexivity|]. prj. repeat split. destruct K; subst; simpl in *; lia.
    + destruct (ll_sock s k); eexists _, _; (split; [reflexivity|]); prj; repeat split; destruct K; subst; simpl in *; lia.
    + eexists _, _; (split; [reflexivity|]); prj; repeat split; destruct K; subst; simpl in *; lia.
    + eexists _, _; (split; [reflexivity|]); prj; repeat split; destruct K; subst; simpl in *; lia.
    + eexists _, _; (split; [reflexivity|]); prj; repeat split; simpl in *; lia.
Qed.

(** The worker leaves the section it is in. *)
Definition sec_left (p : wpc) : nat := match p with WCtx _ => 4 | WArg _ => 3 | WRecv _ _ => 2 | WUnlock _ => 1 | _ => 0 end.

Lemma sec_goes n : forall u r s, cinv u r s -> sec_left (ll_wrk s) <= n ->
  exists s', goes s s' /\ (forall k, wrk_holds (ll_wrk s') k = false) /\ ll_ctl s' = ll_ctl s /\ ll_bus s' = ll_bus s.
Proof.
  induction n as [|n IH]; intros u r s C L.
  - exists s. split; [apply goes_refl|]. split; auto. destruct (ll_wrk s); simpl in *; auto; lia.
  - destruct (ll_wrk s) eqn:B; try (exists s; split; [apply goes_refl|rewrite B; auto]; fail).
    all: assert (X : exists s1 e1, lkstep KWork s = Some (s1, e1) /\ sec_left (ll_wrk s1) <= n /\ ll_ctl s1 = ll_ctl s /\ ll_bus s1 = ll_bus s);
      [simpl lkstep; unfold work_step; rewrite B; pose proof (c_wk _ _ _ C) as K; rewrite B in K; simpl in K, L|
       destruct X as (s1 & e1 & E1 & L1 & P1 & W1);
       destruct (IH u r s1) as (s2 & G & B2 & P2 & W2);
         [eapply cinv_quiet; [exact C| |exact E1]; exact I|auto|];
       exists s2; split; [eapply goes_trans; [eapply goes_one; [|exact E1]; exact I|exact G]|]; repeat split; auto; congruence].
    + destruct (ll_ctx s); eexists _, _; (split; [reflexivity|]); prj; repeat split; simpl in *; lia.
    + destruct (ll_sock s k); eexists _, _; (split; [reflexivity|]); prj; repeat split; simpl in *; lia.
    + eexists _, _; (split; [reflexivity|]); prj; repeat split; simpl in *; lia.
    + eexists _, _; (split; [reflexivity|]); prj; repeat split; destruct K; subst; simpl in *; lia.
Qed.

(** The worker ends. *)
Definition wrk_left (p : wpc) : nat :=
  let at_ k n := match k with ServerSub => n + 5 | _ => n end in
  match p with
  | WNone | WOver => 0 | WTest => 1
  | WUnlock k => at_ k 2 | WRecv k _ => at_ k 3 | WArg k => at_ k 4 | WCtx k => at_ k 5 | WLock k => at_ k 6
  end.

Lemma wrk_goes n : forall u r s, cinv u r s -> wrk_left (ll_wrk s) <= n -> r = false -> (forall k, ctl_holds (ll_ctl s) k = false) ->
  exists s', goes s s' /\ (ll_wrk s' = WNone \/ ll_wrk s' = WOver) /\ ll_ctl s' = ll_ctl s.
Proof.
  induction n as [|n IH]; intros u r s C L R H.
  - exists s. split; [apply goes_refl|]. split; auto. destruct (ll_wrk s) as [| |k|k|k|k h|k|]; auto; simpl in L; try destruct k; lia.
  - destruct (ll_wrk s) eqn:B; try (exists s; split; [apply goes_refl|rewrite B; auto]; fail).
    all: assert (X : exists s1 e1, lkstep KWork s = Some (s1, e1) /\ wrk_left (ll_wrk s1) <= n /\ ll_ctl s1 = ll_ctl s);
      [simpl lkstep; unfold work_step; rewrite B; pose proof (c_wk _ _ _ C) as K; rewrite B in K; simpl in K, L|
       destruct X as (s1 & e1 & E1 & L1 & P1);
       destruct (IH u r s1) as (s2 & G & B2 & P2);
         [eapply cinv_quiet; [exact C| |exact E1]; exact I|auto|auto|rewrite P1; auto|];
       exists s2; split; [eapply goes_trans; [eapply goes_one; [|exact E1]; exact I|exact G]|]; repeat split; auto; congruence].
    + rewrite (c_run _ _ _ C), R. eexists _, _; (split; [reflexivity|]); prj; repeat split; simpl in *; lia.
    + assert (N : ll_held s k = None).
      { destruct (ll_held s k) as [[]|] eqn:X; auto; exfalso.
        - apply (c_hc _ _ _ C) in X. rewrite H in X by auto. discriminate.
        - apply (c_hw _ _ _ C) in X. rewrite B in X. discriminate.
        - apply (c_hb _ _ _ C) in X. pose proof (c_bk _ _ _ C) as WK.
          destruct (ll_bus s); try discriminate; simpl in X, WK; apply sock_eqb_eq in X; subst; unfold pub, subk in *; intuition congruence. }
      rewrite N. eexists _, _. split; [reflexivity|]. prj. repeat split. destruct K; subst; simpl in *; lia.
    + destruct (ll_ctx s); eexists _, _; (split; [reflexivity|]); prj; repeat split; destruct K; subst; simpl in *; lia.
    + destruct (ll_sock s k); eexists _, _; (split; [reflexivity|]); prj; repeat split; destruct K; subst; simpl in *; lia.
    + eexists _, _; (split; [reflexivity|]); prj; repeat split; destruct K; subst; simpl in *; lia.
    + eexists _, _; (split; [reflexivity|]); prj; repeat split; destruct K; subst; simpl in *; lia.
Qed.

Definition ctl_left (p : cpc) : nat :=
  match p with
  | CIdle => 0 | CDead => 0
  | CSet _ => 1 | CReg => 2
  | COpen ks => 3 + 3 * length ks | CUse _ ks => 5 + 3 * length ks | CUsing _ ks => 4 + 3 * length ks | CNew ks => 4 + 3 * length ks
  | CJoin => 1
  | CFree ks => 1 + length ks | CTerm => 6 | CClose ks => 7 + length ks | CTest => 12 | CLock ks => 13 + length ks | CDel => 18
  end.

Lemma ctl_goes u r s : cinv u r s -> ll_ctl s <> CIdle -> exists s', goes s s' /\ ctl_left (ll_ctl s') < ctl_left (ll_ctl s).
Proof.
  intros C N. pose proof (c_pc _ _ _ C) as P. unfold pc_ok in P.
  assert (ONE : forall s0 s1 e, goes s s0 -> lkstep (KCtl true) s0 = Some (s1, e) -> ctl_left (ll_ctl s1) < ctl_left (ll_ctl s) ->
    exists s', goes s s' /\ ctl_left (ll_ctl s') < ctl_left (ll_ctl s)).
  { intros s0 s1 e G E L. exists s1. split; auto. eapply goes_trans; [exact G|]. eapply goes_one; [|exact E]. exact I. }
  destruct (ll_ctl s) as [| |ks|ks|k ks|h ks| |i| | |ks| |ks| |ks] eqn:Q; try congruence; try contradiction.
  - eapply ONE; [apply goes_refl|simpl; unfold ctl_step; rewrite Q; reflexivity|simpl; lia].
  - destruct ks as [|k ks]; [|destruct (ll_ctx s) eqn:X].
    all: eapply ONE; [apply goes_refl|simpl; unfold ctl_step; rewrite Q; rewrite ?X; reflexivity|simpl; lia].
  - destruct (ll_sock s k) eqn:X.
    all: eapply ONE; [apply goes_refl|simpl; unfold ctl_step; rewrite Q; rewrite ?X; reflexivity|simpl; lia].
  - eapply ONE; [apply goes_refl|simpl; unfold ctl_step; rewrite Q; reflexivity|simpl; lia].
  - destruct P as (_ & _ & _ & L). pose proof (live_idle _ _ _ C L) as B. pose proof (c_sl _ _ _ C) as SL. rewrite B in SL.
    eapply ONE; [apply goes_refl|simpl; unfold ctl_step; rewrite Q, SL; reflexivity|simpl; lia].
  - eapply ONE; [apply goes_refl|simpl; unfold ctl_step; rewrite Q; reflexivity|simpl; lia].
  - destruct P as (R & _). destruct (wrk_goes _ u r s C (le_n _) R) as (s0 & G & W & P0); [rewrite Q; reflexivity|].
    rewrite Q in P0. eapply ONE; [exact G|simpl; unfold ctl_step; rewrite P0|].
    + destruct W as [-> | ->]; reflexivity.
    + simpl. lia.
  - destruct P as (U & _). destruct (bus_goes _ u r s C (le_n _)) as (s0 & G & B & P0 & _); [rewrite Q; reflexivity|].
    rewrite Q in P0. pose proof (cinv_goes _ _ _ _ C G) as C0. pose proof (c_pc _ _ _ C0) as PC. unfold pc_ok in PC. rewrite P0 in PC.
    destruct PC as (_ & i & S1 & _). pose proof (c_sl _ _ _ C0) as SL. rewrite B in SL.
    eapply ONE; [exact G|simpl; unfold ctl_step; rewrite P0, SL, S1; reflexivity|simpl; lia].
  - destruct ks as [|k ks]; [eapply ONE; [apply goes_refl|simpl; unfold ctl_step; rewrite Q; reflexivity|simpl; lia]|].
    destruct P as ((U & S1 & S2) & ND).
    destruct (sec_goes _ u r s C (le_n _)) as (s0 & G & W & P0 & B0). rewrite Q in P0.
    pose proof (cinv_goes _ _ _ _ C G) as C0.
    assert (H : ll_held s0 k = None).
    { destruct (ll_held s0 k) as [[]|] eqn:X; auto; exfalso.
      - apply (c_hc _ _ _ C0) in X. rewrite P0 in X. simpl in X. rewrite is_in_cons, sock_eqb_refl in X. discriminate.
      - apply (c_hw _ _ _ C0) in X. rewrite W in X. discriminate.
      - apply (c_hb _ _ _ C0) in X. rewrite B0, (live_idle _ _ _ C S2) in X. discriminate. }
    eapply ONE; [exact G|simpl; unfold ctl_step; rewrite P0, H; reflexivity|simpl; lia].
  - eapply ONE; [apply goes_refl|simpl; unfold ctl_step; rewrite Q; reflexivity|]. simpl. destruct (ll_ctx s); simpl; lia.
  - destruct ks as [|k ks]; [|destruct (ll_sock s k) eqn:X].
    all: eapply ONE; [apply goes_refl|simpl; unfold ctl_step; rewrite Q; rewrite ?X; reflexivity|simpl; lia].
  - eapply ONE; [apply goes_refl|simpl; unfold ctl_step; rewrite Q; reflexivity|simpl; lia].
  - destruct ks as [|k ks].
    all: eapply ONE; [apply goes_refl|simpl; unfold ctl_step; rewrite Q; reflexivity|simpl; lia].
Qed.

Lemma ctl_ends n : forall u r s, cinv u r s -> ctl_left (ll_ctl s) <= n -> exists s', goes s s' /\ ll_ctl s' = CIdle.
Proof.
  assert (D : forall p, p = CIdle \/ p <> CIdle) by (intros []; auto; right; discriminate).
  induction n as [|n IH]; intros u r s C L; destruct (D (ll_ctl s)) as [P|P]; try (exists s; split; [apply goes_refl|auto]; fail).
  - destruct (ctl_goes _ _ _ C P) as (s1 & G & L1). lia.
  - destruct (ctl_goes _ _ _ C P) as (s1 & G & L1). destruct (IH u r s1) as (s2 & G2 & P2); [eapply cinv_goes; eauto|lia|].
    exists s2. split; auto. eapply goes_trans; eauto.
Qed.

(* ------------------------------------------------------------------ *)
(** * Handles that are lost *)

(** Nothing ever closes a handle no pointer holds. *)
Lemma lost_step l s s' e h :
  lkstep l s = Some (s', e) -> (forall k, ll_sock s k <> Some h) -> h < ll_next s ->
  (forall k, ll_sock s' k <> Some h) /\ h < ll_next s' /\ ~ In (EvClose h) e.
Proof.
  intros E K L. destruct l as [c|ok| |b|]; simpl in E.
  - destruct (ll_ctl s); try discriminate. injection E as E. destruct c; simpl in E.
    + step_inj E. auto.
    + destruct (ll_wrk s); step_inj E; repeat split; auto; simpl; intuition discriminate.
    + destruct (ll_run s); step_inj E; auto.
    + step_inj E; auto.
  - unfold ctl_step in E. destruct (ll_ctl s) as [| |ks|ks|k ks|g ks| |i| | |ks| |ks| |ks]; try discriminate.
    + destruct ok; step_inj E; repeat split; prj; auto; simpl; intuition discriminate.
    + destruct ks as [|k ks]; [step_inj E; auto|].
      assert (U : forall v j, v <> Some h -> upd (ll_sock s) k v j <> Some h) by (intros v j V; unfold upd; destruct (sock_eqb k j); auto).
      destruct (ll_ctx s); [destruct ok|]; step_inj E; repeat split; prj; auto.
      * intros j. apply U. intros X. injection X as X. lia.
      * simpl. intuition discriminate.
      * intros j. apply U. discriminate.
      * intros j. apply U. discriminate.
    + destruct (ll_sock s k); step_inj E; repeat split; auto; simpl; intuition discriminate.
    + step_inj E; repeat split; auto; simpl; intuition discriminate.
    + destruct (ll_slock s); try discriminate. step_inj E; auto.
    + step_inj E; auto.
    + destruct (ll_wrk s); try discriminate; step_inj E; auto.
    + destruct (ll_slock s); try discriminate. destruct (ll_sub s); step_inj E; repeat split; auto; simpl; intuition discriminate.
    + destruct ks as [|k ks]; [step_inj E; auto|]. destruct (ll_held s k); try discriminate. step_inj E; auto.
    + step_inj E; auto.
    + destruct ks as [|k ks]; [step_inj E; auto|]. destruct (ll_sock s k) eqn:X; step_inj E; auto. repeat split; prj; auto.
      * intros j. unfold upd. destruct (sock_eqb k j); [discriminate|auto].
      * intros [Y|[]]. injection Y as ->. eapply K; eauto.
    + step_inj E. repeat split; auto. destruct (ll_ctx s); simpl; intuition discriminate.
    + destruct ks; step_inj E; auto.
  - unfold work_step in E. destruct (ll_wrk s) as [| |k|k|k|k g|k|]; try discriminate; try (step_inj E; repeat split; auto; simpl; intuition discriminate).
    + destruct (ll_held s k); try discriminate. step_inj E; auto.
    + destruct (ll_sock s k); step_inj E; repeat split; auto; simpl; intuition discriminate.
  - destruct (ll_bus s); try discriminate. destruct (ll_live s); try discriminate. step_inj E; auto.
  - unfold lbus_step in E. destruct (ll_bus s) as [|k|k|k|k g|k|]; try discriminate; try (step_inj E; repeat split; auto; simpl; intuition discriminate).
    + destruct (ll_held s k); try discriminate. step_inj E; auto.
    + destruct (ll_sock s k); step_inj E; repeat split; auto; simpl; intuition discriminate.
Qed.

Lemma lost_exec ls : forall s s' e h,
  lkexec ls s = Some (s', e) -> (forall k, ll_sock s k <> Some h) -> h < ll_next s -> ~ In (EvClose h) e.
Proof.
  induction ls as [|l ls IH]; intros s s' e h E K L.
  - simpl in E. injection E as <- <-. auto.
  - cbn [lkexec] in E. destruct (lkstep l s) as [[s1 e1]|] eqn:E1; try discriminate.
    destruct (lkexec ls s1) as [[s2 e2]|] eqn:E2; try discriminate. injection E as <- <-.
    destruct (lost_step _ _ _ _ _ E1 K L) as (K1 & L1 & N1).
    intros X. apply in_app_or in X. destruct X as [X|X]; [auto|]. exact (IH _ _ _ _ E2 K1 L1 X).
Qed.

Lemma lost_ctx_step l s s' e c :
  lkstep l s = Some (s', e) -> ll_ctx s <> Some c -> c < ll_next s ->
  ll_ctx s' <> Some c /\ c < ll_next s' /\ ~ In (EvTerm c) e.
Proof.
  intros E K L. destruct l as [x|ok| |b|]; simpl in E.
  - destruct (ll_ctl s); try discriminate. injection E as E. destruct x; simpl in E.
    + step_inj E. auto.
    + destruct (ll_wrk s); step_inj E; repeat split; auto; simpl; intuition discriminate.
    + destruct (ll_run s); step_inj E; auto.
    + step_inj E; auto.
  - unfold ctl_step in E. destruct (ll_ctl s) as [| |ks|ks|k ks|g ks| |i| | |ks| |ks| |ks]; try discriminate.
    + destruct ok; step_inj E; repeat split; prj; auto; try (simpl; intuition discriminate); try discriminate.
      intros X. injection X as X. lia.
    + destruct ks as [|k ks]; [step_inj E; auto|].
      destruct (ll_ctx s) eqn:X; [destruct ok|]; step_inj E; repeat split; prj; try rewrite X; auto; try (simpl; intuition discriminate).
    + destruct (ll_sock s k); step_inj E; repeat split; auto; simpl; intuition discriminate.
    + step_inj E; repeat split; auto; simpl; intuition discriminate.
    + destruct (ll_slock s); try discriminate. step_inj E; auto.
    + step_inj E; auto.
    + destruct (ll_wrk s); try discriminate; step_inj E; auto.
    + destruct (ll_slock s); try discriminate. destruct (ll_sub s); step_inj E; repeat split; auto; simpl; intuition discriminate.
    + destruct ks as [|k ks]; [step_inj E; auto|]. destruct (ll_held s k); try discriminate. step_inj E; auto.
    + step_inj E; auto.
    + destruct ks as [|k ks]; [step_inj E; auto|]. destruct (ll_sock s k) eqn:X; step_inj E; repeat split; auto. simpl; intuition discriminate.
    + step_inj E. repeat split; auto; prj; try discriminate. destruct (ll_ctx s) as [d|] eqn:X; simpl; [|tauto]. intros [Y|[]]. injection Y as ->. auto.
    + destruct ks; step_inj E; auto.
  - unfold work_step in E. destruct (ll_wrk s) as [| |k|k|k|k g|k|]; try discriminate; try (step_inj E; repeat split; auto; simpl; intuition discriminate).
    + destruct (ll_held s k); try discriminate. step_inj E; auto.
    + destruct (ll_sock s k); step_inj E; repeat split; auto; simpl; intuition discriminate.
  - destruct (ll_bus s); try discriminate. destruct (ll_live s); try discriminate. step_inj E; auto.
  - unfold lbus_step in E. destruct (ll_bus s) as [|k|k|k|k g|k|]; try discriminate; try (step_inj E; repeat split; auto; simpl; intuition discriminate).
    + destruct (ll_held s k); try discriminate. step_inj E; auto.
    + destruct (ll_sock s k); step_inj E; repeat split; auto; simpl; intuition discriminate.
Qed.

Lemma lost_ctx_exec ls : forall s s' e c,
  lkexec ls s = Some (s', e) -> ll_ctx s <> Some c -> c < ll_next s -> ~ In (EvTerm c) e.
Proof.
  induction ls as [|l ls IH]; intros s s' e c E K L.
  - simpl in E. injection E as <- <-. auto.
  - cbn [lkexec] in E. destruct (lkstep l s) as [[s1 e1]|] eqn:E1; try discriminate.
    destruct (lkexec ls s1) as [[s2 e2]|] eqn:E2; try discriminate. injection E as <- <-.
    destruct (lost_ctx_step _ _ _ _ _ E1 K L) as (K1 & L1 & N1).
    intros X. apply in_app_or in X. destruct X as [X|X]; [auto|]. exact (IH _ _ _ _ E2 K1 L1 X).
Qed.

(** The steps of the other threads do not change pointers, the program counter of the calls, or close anything. *)
Lemma others_same l s s' e :
  lkstep l s = Some (s', e) -> match l with KWork | KBus | KMsg _ => True | _ => False end ->
  ll_ctl s' = ll_ctl s /\ (forall k, ll_sock s' k = ll_sock s k) /\ ll_ctx s' = ll_ctx s /\ ll_next s' = ll_next s /\
  (forall h, ~ In (EvClose h) e) /\ (forall c, ~ In (EvTerm c) e).
Proof.
  intros E Q. destruct l as [x|ok| |b|]; try destruct Q; simpl in E.
  - unfold work_step in E. destruct (ll_wrk s) as [| |k|k|k|k g|k|]; try discriminate; try (step_inj E; repeat split; auto; simpl; intuition discriminate).
    + destruct (ll_held s k); try discriminate. step_inj E; repeat split; auto.
    + destruct (ll_sock s k); step_inj E; repeat split; auto; simpl; intuition discriminate.
  - destruct (ll_bus s); try discriminate. destruct (ll_live s); try discriminate. step_inj E; repeat split; auto.
  - unfold lbus_step in E. destruct (ll_bus s) as [|k|k|k|k g|k|]; try discriminate; try (step_inj E; repeat split; auto; simpl; intuition discriminate).
    + destruct (ll_held s k); try discriminate. step_inj E; repeat split; auto.
    + destruct (ll_sock s k); step_inj E; repeat split; auto; simpl; intuition discriminate.
Qed.

Definition init_rest (p : cpc) : option (list sock) :=
  match p with CNew ks | COpen ks | CUse _ ks | CUsing _ ks => Some ks | _ => None end.

Definition fading (k : sock) (h : nat) (s : lnk) : Prop :=
  (forall j, ll_sock s j <> Some h) \/
  (exists ks, init_rest (ll_ctl s) = Some ks /\ In k ks /\ forall j, ll_sock s j = Some h -> j = k).

Lemma fading_step l s s' e k h :
  lkstep l s = Some (s', e) -> match l with KCall _ => False | _ => True end -> fading k h s -> h < ll_next s ->
  fading k h s' /\ h < ll_next s' /\ ~ In (EvClose h) e.
Proof.
  intros E Q F L. destruct F as [F|(ks & I & K & F)].
  - destruct (lost_step _ _ _ _ _ E F L) as (A & B & C). split; [left|]; auto.
  - assert (O : match l with KWork | KBus | KMsg _ => True | _ => False end -> fading k h s' /\ h < ll_next s' /\ ~ In (EvClose h) e).
    { intros X. destruct (others_same _ _ _ _ E X) as (A & B & _ & C & D & _). split; [|split; [rewrite C|]; auto].
      right. exists ks. rewrite A. split; auto. split; auto. intros j. rewrite B. auto. }
    destruct l as [x|ok| |b|]; [destruct Q| |apply O; exact Logic.I..]. clear O.
    assert (U : forall j v i, v <> Some h -> upd (ll_sock s) j v i = Some h -> i = k)
      by (intros j v i V; unfold upd; destruct (sock_eqb j i); [congruence|auto]).
    simpl in E. unfold ctl_step in E. unfold fading. destruct (ll_ctl s) as [| |cs|cs|j cs|g cs| |i| | |cs| |cs| |cs] eqn:P; try discriminate; simpl in I; injection I as ->.
    + destruct ok; step_inj E; prj; (split; [right; exists ks; auto|split; [lia|simpl; intuition discriminate]]).
    + destruct ks as [|j ks]; [destruct K|].
      assert (V : Some (ll_next s) <> Some h) by (intros X; injection X as X; lia).
      assert (G : forall v, v <> Some h -> (forall i, upd (ll_sock s) j v i <> Some h) \/
        exists ks0, Some ks = Some ks0 /\ In k ks0 /\ forall i, upd (ll_sock s) j v i = Some h -> i = k).
      { intros v W. destruct K as [->|K]; [left|right; eauto]. intros i. unfold upd. destruct (sock_eqb k i) eqn:Y; auto.
        intros X. apply F in X. subst i. rewrite sock_eqb_refl in Y. discriminate. }
      destruct (ll_ctx s); [destruct ok|]; step_inj E; prj; cbn [init_rest];
        (split; [apply G; auto; discriminate|split; [lia|simpl; intuition discriminate]]).
    + destruct (ll_sock s j); step_inj E; prj; (split; [right; exists ks; auto|split; [lia|simpl; intuition discriminate]]).
    + step_inj E; prj; (split; [right; exists ks; auto|split; [lia|simpl; intuition discriminate]]).
Qed.

Lemma fading_exec ls : forall s s' e k h,
  lkexec ls s = Some (s', e) -> Forall no_call ls -> fading k h s -> h < ll_next s ->
  fading k h s' /\ h < ll_next s' /\ ~ In (EvClose h) e.
Proof.
  induction ls as [|l ls IH]; intros s s' e k h E Q F L.
  - simpl in E. injection E as <- <-. auto.
  - inversion Q; subst. cbn [lkexec] in E. destruct (lkstep l s) as [[s1 e1]|] eqn:E1; try discriminate.
    destruct (lkexec ls s1) as [[s2 e2]|] eqn:E2; try discriminate. injection E as <- <-.
    destruct (fading_step _ _ _ _ _ _ E1 H1 F L) as (F1 & L1 & N1).
    destruct (IH _ _ _ _ _ E2 H2 F1 L1) as (F2 & L2 & N2). split; [auto|split; [auto|]].
    intros X. apply in_app_or in X. destruct X; auto.
Qed.

Definition fading_ctx (c : nat) (s : lnk) : Prop := ll_ctx s <> Some c \/ exists ks, ll_ctl s = CNew ks.

Lemma fading_ctx_exec ls : forall s s' e c,
  lkexec ls s = Some (s', e) -> Forall no_call ls -> fading_ctx c s -> c < ll_next s ->
  fading_ctx c s' /\ c < ll_next s' /\ ~ In (EvTerm c) e.
Proof.
  induction ls as [|l ls IH]; intros s s' e c E Q F L.
  - simpl in E. injection E as <- <-. auto.
  - inversion Q; subst. cbn [lkexec] in E. destruct (lkstep l s) as [[s1 e1]|] eqn:E1; try discriminate.
    destruct (lkexec ls s1) as [[s2 e2]|] eqn:E2; try discriminate. injection E as <- <-.
    assert (X : fading_ctx c s1 /\ c < ll_next s1 /\ ~ In (EvTerm c) e1).
    { destruct F as [F|[ks P]].
      - destruct (lost_ctx_step _ _ _ _ _ E1 F L) as (A & B & C). split; [left|]; auto.
      - destruct l as [x|ok| |b|].
        + destruct H1.
        + simpl in E1. unfold ctl_step in E1. rewrite P in E1. unfold fading_ctx.
          destruct ok; step_inj E1; prj; (split; [left|split; [lia|simpl; intuition discriminate]]); [|discriminate].
          intros X. injection X as X. lia.
        + destruct (others_same _ _ _ _ E1 I) as (A & _ & _ & C & _ & D). split; [right; exists ks; congruence|split; [lia|auto]].
        + destruct (others_same _ _ _ _ E1 I) as (A & _ & _ & C & _ & D). split; [right; exists ks; congruence|split; [lia|auto]].
        + destruct (others_same _ _ _ _ E1 I) as (A & _ & _ & C & _ & D). split; [right; exists ks; congruence|split; [lia|auto]]. }
    destruct X as (F1 & L1 & N1). destruct (IH _ _ _ _ E2 H2 F1 L1) as (F2 & L2 & N2). split; [auto|split; [auto|]].
    intros X. apply in_app_or in X. destruct X; auto.
Qed.

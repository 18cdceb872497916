(** C39: the synchronous Request, over all interleavings with the bus thread and the clock. *)
From Coq Require Import String List Arith Bool Lia ZArith.
From Verif Require Import Prelude DatagramModel DatagramSpec RequestModel.
Import ListNotations.
Open Scope list_scope.

(** * Specification *)

(** Responses the bus thread has started / finished to deliver, in order. *)
Definition q_entered (tr : list qevent) : list dg := flat_map (fun e => match e with QeEnter d => [d] | _ => [] end) tr.
Definition q_finished (tr : list qevent) : list dg := flat_map (fun e => match e with QeEnd d => [d] | _ => [] end) tr.
(** Request has returned or thrown. *)
Definition q_over (tr : list qevent) : Prop := exists e, In e tr /\ match e with QeReturn _ | QeThrow _ => True | _ => False end.
(** The label is a step of the lambda other than being called and returning. *)
Definition q_inside (l : qlabel) : Prop := match l with QTest | QWrite | QWritten | QClear | QNotify => True | _ => False end.

(** * Lemmas *)

Lemma entered_app t1 t2 : q_entered (t1 ++ t2) = q_entered t1 ++ q_entered t2.
Proof. apply flat_map_app. Qed.
Lemma finished_app t1 t2 : q_finished (t1 ++ t2) = q_finished t1 ++ q_finished t2.
Proof. apply flat_map_app. Qed.

Lemma qexec_app ls1 ls2 m m' tr : qexec (ls1 ++ ls2) m = Some (m', tr) ->
  exists m1 t1 t2, qexec ls1 m = Some (m1, t1) /\ qexec ls2 m1 = Some (m', t2) /\ tr = t1 ++ t2.
Proof.
  revert m tr. induction ls1 as [|l ls1 IH]; intros m tr H; simpl in *; [exists m, [], tr; auto|].
  destruct (qstep l m) as [[m1 e1]|]; [|discriminate]. destruct (qexec (ls1 ++ ls2) m1) as [[m2 e2]|] eqn:E; [|discriminate].
  injection H as -> <-. destruct (IH _ _ E) as (m3 & t1 & t2 & H1 & H2 & ->). rewrite H1. exists m3, (e1 ++ t1), t2.
  repeat split; auto. now rewrite app_assoc.
Qed.

Lemma qexec_ind (P : qmach -> list qevent -> Prop) :
  P qinit [] ->
  (forall ls l m tr m' es, qexec ls qinit = Some (m, tr) -> P m tr -> qstep l m = Some (m', es) -> P m' (tr ++ es)) ->
  forall ls m tr, qexec ls qinit = Some (m, tr) -> P m tr.
Proof.
  intros P0 PS ls. induction ls as [|l ls IH] using rev_ind; intros m tr H; [injection H as <- <-; auto|].
  apply qexec_app in H. destruct H as (m1 & t1 & t2 & H1 & H2 & ->). simpl in H2.
  destruct (qstep l m1) as [[m2 e2]|] eqn:E; [|discriminate]. injection H2 as <- <-. rewrite app_nil_r. eapply PS; eauto.
Qed.

(** A trace is split inside one step. *)
Lemma qexec_split ls m ta e tb : qexec ls qinit = Some (m, ta ++ e :: tb) ->
  exists ls1 l ls2 m1 m2 t1 e1 e2, ls = ls1 ++ l :: ls2 /\ qexec ls1 qinit = Some (m1, t1) /\ qstep l m1 = Some (m2, e1 ++ e :: e2) /\ ta = t1 ++ e1.
Proof.
  revert m ta tb. induction ls as [|l ls IH] using rev_ind; intros m ta tb H; [destruct ta; discriminate|].
  apply qexec_app in H. destruct H as (m1 & t1 & t2 & H1 & H2 & E). simpl in H2.
  destruct (qstep l m1) as [[m2 e2]|] eqn:S; [|discriminate]. injection H2 as <- <-. rewrite app_nil_r in E.
  symmetry in E. apply app_eq_app in E. destruct E as (k & [(E1 & E2)|(E1 & E2)]).
  - destruct k as [|x k].
    + rewrite app_nil_r in E1. subst t1. simpl in E2. exists ls, l, [], m1, m2, ta, [], tb. rewrite app_nil_r. subst e2. auto.
    + injection E2 as <- E2. subst t1. destruct (IH _ _ _ H1) as (ls1 & l1 & ls2 & n1 & n2 & u1 & f1 & f2 & -> & X & Y & Z).
      exists ls1, l1, (ls2 ++ [l]), n1, n2, u1, f1, f2. rewrite <- app_assoc. auto.
  - subst ta e2. exists ls, l, [], m1, m2, t1, k, tb. auto.
Qed.

Ltac qcases H st :=
  destruct st as [w c rg wt rs]; simpl in H; unfold qstep1, w_set, c_set, local in H; simpl in H;
  repeat match type of H with
  | context [match ?x with _ => _ end] => is_var x; destruct x; simpl in H; try discriminate
  end;
  repeat match type of H with context [if ?x then _ else _] => destruct x eqn:?; simpl in H; try discriminate end;
  try (injection H as <- <-).

(** What the delivered responses and the locals have to do with each other. *)
Definition q_ok (m : qmach) (tr : list qevent) : Prop :=
  match m with
  | QUndef => True
  | QLive st =>
      (q_over tr <-> q_w st = WLeft) /\
      (forall d, q_c st = CTest d \/ q_c st = CWrite d \/ q_c st = CWriting d \/ q_c st = CClear d \/ q_c st = CNotify d \/ q_c st = CEnd d ->
         q_entered tr = q_finished tr ++ [d]) /\
      (q_c st = CIdle -> q_entered tr = q_finished tr) /\
      (q_reg st = false -> q_c st = CIdle /\ q_entered tr = []) /\
      (q_w st <> WLeft ->
         match q_c st with
         | CIdle | CTest _ => q_finished tr = [] /\ q_waiting st = true /\ q_resp st = Emp \/
                              q_waiting st = false /\ exists ds, q_finished tr = q_resp st :: ds
         | CWrite d | CWriting d => q_finished tr = [] /\ q_waiting st = true /\ q_resp st = Emp
         | CClear d => q_finished tr = [] /\ q_waiting st = true /\ q_resp st = d
         | CNotify d => q_finished tr = [] /\ q_waiting st = false /\ q_resp st = d
         | CEnd d => q_waiting st = false /\ (q_finished tr = [] /\ q_resp st = d \/ exists ds, q_finished tr = q_resp st :: ds)
         end)
  end.

Lemma over_snoc tr es : q_over (tr ++ es) <-> q_over tr \/ q_over es.
Proof.
  unfold q_over. split.
  - intros (e & I & H). apply in_app_iff in I as [I|I]; eauto.
  - intros [(e & I & H)|(e & I & H)]; exists e; rewrite in_app_iff; auto.
Qed.
Lemma over_nil : ~ q_over [].
Proof. intros (e & [] & _). Qed.
Lemma over_one e : q_over [e] <-> match e with QeReturn _ | QeThrow _ => True | _ => False end.
Proof. split; [intros (x & [->|[]] & H); auto|]. intros H. exists e. simpl. auto. Qed.

Ltac split_ok Io Ii Iv :=
  split; [rewrite over_snoc; try rewrite over_one; pose proof over_nil; intuition congruence|];
  split; [intros d0 D; rewrite ?entered_app, ?finished_app; simpl; rewrite ?app_nil_r;
    repeat destruct D as [D|D]; try discriminate; try (injection D as <-); auto 12; try (rewrite Ii by auto; auto; fail)|];
  split; [intros D; try discriminate; rewrite ?entered_app, ?finished_app; simpl; rewrite ?app_nil_r; auto 12|];
  split; [intros D; try discriminate; rewrite ?entered_app; simpl; rewrite ?app_nil_r; auto|];
  try (intros D; try congruence; rewrite ?entered_app, ?finished_app; simpl; rewrite ?app_nil_r; auto; fail).

Lemma q_ok_all : forall ls m tr, qexec ls qinit = Some (m, tr) -> q_ok m tr.
Proof.
  apply qexec_ind.
  - simpl. split; [split; [intros H; destruct (over_nil H)|discriminate]|]. split; [intros d H; repeat destruct H as [H|H]; discriminate|].
    split; auto.
  - intros ls l m tr m' es _ IH H. destruct m as [st|]; [|discriminate]. destruct IH as (Io & Ie & Ii & Ir & Iv).
    destruct l; qcases H st; simpl in *; auto; split_ok Io Ii Iv;
    try (destruct (Ir D); discriminate);
    try (intros D; rewrite ?finished_app; simpl; rewrite ?app_nil_r);
    try (apply Iv; discriminate); try (apply Iv; assumption);
    try (specialize (Iv D); intuition (congruence || eauto); fail);
    try (assert (Iv' := Iv ltac:(discriminate)); intuition (congruence || eauto); fail).
    right. destruct (Iv D) as (-> & [(-> & ->)|(ds & ->)]); split; auto; simpl; eauto.
Qed.

Lemma q_over_stays ls : forall m m' tr, qexec ls m = Some (m', tr) ->
  match m with QLive st => q_w st = WLeft | QUndef => True end ->
  match m' with QLive st => q_w st = WLeft | QUndef => True end.
Proof.
  induction ls as [|l ls IH]; intros m m' tr H W; simpl in H; [now injection H as <- <-|].
  destruct (qstep l m) as [[m1 e1]|] eqn:S; [|discriminate]. destruct (qexec ls m1) as [[m2 e2]|] eqn:E; [|discriminate].
  injection H as <- <-. eapply IH; eauto. destruct m as [st|]; [|discriminate].
  destruct l; qcases S st; simpl in *; auto; discriminate.
Qed.

Lemma q_return ls m ta tb v : qexec ls qinit = Some (m, ta ++ QeReturn v :: tb) ->
  exists ls1 ls2 st, ls = ls1 ++ QReturn :: ls2 /\ qexec ls1 qinit = Some (QLive st, ta) /\ q_w st = WReturn /\ v = q_resp st /\
    (forall d, q_c st <> CWriting d) /\ qexec ls2 (w_set st WLeft) = Some (m, tb).
Proof.
  intros X. destruct (qexec_split _ _ _ _ _ X) as (ls1 & l & ls2 & m1 & m2 & t1 & e1 & e2 & -> & X1 & S & ->).
  apply qexec_app in X. destruct X as (m1' & t1' & t2 & X1' & X2 & E). rewrite X1 in X1'. injection X1' as <- <-.
  cbn [qexec] in X2. rewrite S in X2. destruct (qexec ls2 m2) as [[m3 e3]|] eqn:X3; [|discriminate]. injection X2 as <- <-.
  destruct m1 as [st|]; [|discriminate].
  assert (e1 = [] /\ e2 = [] /\ l = QReturn /\ q_w st = WReturn /\ v = q_resp st /\ (forall d, q_c st <> CWriting d) /\ m2 = w_set st WLeft)
    as (-> & -> & -> & W & -> & C & ->).
  { clear X1 E X3. destruct l; qcases S st;
      match goal with H : Some _ = Some _ |- _ => injection H as E1 E2 | _ => idtac end;
      destruct e1 as [|x [|]]; try discriminate; try (injection E2 as <- E2); try discriminate;
      try subst m2; unfold w_set; simpl; repeat split; auto; discriminate. }
  exists ls1, ls2, st. rewrite app_nil_r in *. rewrite <- app_assoc in E. simpl in E. apply app_inv_head in E. injection E as <-.
  repeat split; auto.
Qed.

(** * C39 *)

(** If the bus thread has finished delivering a response when Request returns, Request returns
    that response - the first one, if there were several. *)
Theorem C39_completed : forall ls m ta tb v d ds,
  qexec ls qinit = Some (m, ta ++ QeReturn v :: tb) -> q_finished ta = d :: ds -> v = d.
Proof.
  intros ls m ta tb v d ds X F. destruct (q_return _ _ _ _ _ X) as (ls1 & ls2 & st & -> & X1 & W & -> & C & _).
  destruct (q_ok_all _ _ _ X1) as (_ & _ & _ & _ & Iv). specialize (Iv ltac:(congruence)). rewrite F in Iv.
  destruct (q_c st); intuition try congruence; match goal with H : exists _, _ |- _ => destruct H; congruence end.
Qed.
Print Assumptions C39_completed.

(** If no delivery has begun when Request returns, it returns the empty datagram. *)
Theorem C39_none : forall ls m ta tb v,
  qexec ls qinit = Some (m, ta ++ QeReturn v :: tb) -> q_entered ta = [] -> v = Emp.
Proof.
  intros ls m ta tb v X F. destruct (q_return _ _ _ _ _ X) as (ls1 & ls2 & st & -> & X1 & W & -> & C & _).
  destruct (q_ok_all _ _ _ X1) as (_ & Ie & Ii & _ & Iv). specialize (Iv ltac:(congruence)). rewrite F in *.
  destruct (q_c st) eqn:Ec; try (specialize (Ie d ltac:(auto 8)); destruct (q_finished ta); discriminate).
  rewrite <- (Ii eq_refl) in Iv. intuition. match goal with H : exists _, _ |- _ => destruct H; congruence end.
Qed.
Print Assumptions C39_none.

(** Whatever happens, what Request returns is empty or the first response. *)
Theorem C39_never_another : forall ls m ta tb v,
  qexec ls qinit = Some (m, ta ++ QeReturn v :: tb) -> v = Emp \/ exists ds, q_entered ta = v :: ds.
Proof.
  intros ls m ta tb v X. destruct (q_return _ _ _ _ _ X) as (ls1 & ls2 & st & -> & X1 & W & -> & C & _).
  destruct (q_ok_all _ _ _ X1) as (_ & Ie & Ii & _ & Iv). specialize (Iv ltac:(congruence)).
  destruct (q_c st) eqn:Ec; try (specialize (Ie d ltac:(auto 8))).
  - destruct Iv as [(_ & _ & ->)|(_ & ds & E)]; auto. right. exists ds. now rewrite Ii.
  - destruct Iv as [(_ & _ & ->)|(_ & ds & E)]; auto. right. rewrite Ie, E. simpl. eauto.
  - destruct Iv as (_ & _ & ->). auto.
  - destruct Iv as (_ & _ & ->). auto.
  - destruct Iv as (E & _ & ->). right. rewrite Ie, E. simpl. eauto.
  - destruct Iv as (E & _ & ->). right. rewrite Ie, E. simpl. eauto.
  - destruct Iv as (_ & [(E & ->)|(ds & E)]); right; rewrite Ie, E; simpl; eauto.
Qed.
Print Assumptions C39_never_another.

(** A response that is delivered - or is still being delivered - after Request has returned or
    thrown is undefined behaviour: the next step of the lambda, whichever it is, touches a dead local. *)
Theorem C39_late : forall ls st tr l m es,
  qexec ls qinit = Some (QLive st, tr) -> q_over tr -> q_inside l -> qstep l (QLive st) = Some (m, es) -> m = QUndef.
Proof.
  intros ls st tr l m es X O I S. destruct (q_ok_all _ _ _ X) as (Io & _). apply Io in O.
  destruct l; try contradiction; destruct st as [w c rg wt rs]; simpl in O; subst w; simpl in S; unfold qstep1, local in S; simpl in S;
    destruct c; try discriminate; now injection S as <- <-.
Qed.
Print Assumptions C39_late.

(** ... and being called, the lambda has such a step next; nothing else can happen on that thread. *)
Theorem C39_late_entered : forall ls st tr d m es,
  qexec ls qinit = Some (QLive st, tr) -> q_over tr -> qstep (QEnter d) (QLive st) = Some (m, es) ->
  qstep QTest m = Some (QUndef, []).
Proof.
  intros ls st tr d m es X O S. destruct (q_ok_all _ _ _ X) as (Io & _). apply Io in O.
  destruct st as [w c rg wt rs]. simpl in O. subst w. simpl in S. unfold qstep1 in S. simpl in S. destruct c; try discriminate.
  destruct rg; [|discriminate]. now injection S as <- <-.
Qed.
Print Assumptions C39_late_entered.

(** That is the only way, except for a return in the middle of the assignment to [response]: if
    every delivery that has begun when Request is left has also ended, and none begins later, the
    behaviour is defined. *)
Theorem C39_defined : forall ls tr,
  (forall ls1 l ls2 m1 t1, ls = ls1 ++ l :: ls2 -> l = QReturn \/ (exists e, l = QFail e) -> qexec ls1 qinit = Some (m1, t1) ->
     q_entered t1 = q_finished t1 /\ forall d, ~ In (QEnter d) ls2) ->
  qexec ls qinit <> Some (QUndef, tr).
Proof.
  intros ls tr Hy X.
  assert (forall m t, qexec ls qinit = Some (m, t) -> exists st, m = QLive st /\ (q_w st = WLeft -> q_c st = CIdle /\
    exists l0 l l1, ls = l0 ++ l :: l1 /\ (l = QReturn \/ (exists e, l = QFail e)) /\ exists m0 t0, qexec l0 qinit = Some (m0, t0))) as K.
  2:{ destruct (K _ _ X) as (st & E & _). discriminate. }
  clear tr X. revert Hy. induction ls as [|l ls IH] using rev_ind; intros Hy m t X.
  - injection X as <- <-. eexists. split; [reflexivity|]. discriminate.
  - pose proof X as X0. apply qexec_app in X. destruct X as (m1 & t1 & t2 & X1 & X2 & ->). simpl in X2.
    destruct (qstep l m1) as [[m2 e2]|] eqn:S; [|discriminate]. injection X2 as <- <-.
    assert (forall ls1 l0 ls2 m1 t1, ls = ls1 ++ l0 :: ls2 -> l0 = QReturn \/ (exists e, l0 = QFail e) -> qexec ls1 qinit = Some (m1, t1) ->
      q_entered t1 = q_finished t1 /\ forall d, ~ In (QEnter d) ls2) as Hy'.
    { intros la l0 lb ma ta -> D Xa. destruct (Hy la l0 (lb ++ [l]) ma ta) as (A & B); [now rewrite <- app_assoc|auto|auto|].
      split; auto. intros d I. apply (B d), in_app_iff; auto. }
    destruct (IH Hy' _ _ X1) as (st & -> & W).
    destruct (q_ok_all _ _ _ X1) as (Io & Ie & Ii & _).
    assert (q_w st = WLeft -> forall d, l <> QEnter d) as NE.
    { intros L d ->. destruct (W L) as (_ & l0 & l1 & l2 & -> & D & m0 & t0 & E0).
      destruct (Hy l0 l1 (l2 ++ [QEnter d]) m0 t0) as (_ & B); [now rewrite <- app_assoc|auto|auto|]. apply (B d), in_app_iff. simpl; auto. }
    assert (l = QReturn \/ (exists e, l = QFail e) -> q_c st = CIdle) as ND.
    { intros D. destruct (Hy ls l [] _ _ eq_refl D X1) as (A & _). destruct (q_c st) eqn:Ec; auto;
        specialize (Ie d ltac:(auto 8)); rewrite Ie in A; apply (f_equal (@length dg)) in A; rewrite app_length in A; simpl in A; lia. }
    assert (q_w st = WLeft -> exists l0 l' l1, ls ++ [l] = l0 ++ l' :: l1 /\ (l' = QReturn \/ (exists e, l' = QFail e)) /\ exists m0 t0, qexec l0 qinit = Some (m0, t0)) as Old.
    { intros L. destruct (W L) as (_ & l0 & l1 & l2 & -> & D & Z). exists l0, l1, (l2 ++ [l]). rewrite <- app_assoc. auto. }
    assert (l = QReturn \/ (exists e, l = QFail e) -> exists l0 l' l1, ls ++ [l] = l0 ++ l' :: l1 /\ (l' = QReturn \/ (exists e, l' = QFail e)) /\ exists m0 t0, qexec l0 qinit = Some (m0, t0)) as New.
    { intros D. exists ls, l, []. eauto 8. }
    assert (q_w st = WLeft -> q_c st = CIdle) as Idle by (intros L; apply (W L)).
    clear W Hy Hy' IH X0 X1 Io Ie Ii.
    destruct l; qcases S st; simpl in *;
      try (match goal with H : w_left ?w = true |- _ => destruct w; discriminate H || idtac end);
      try (specialize (Idle eq_refl); discriminate);
      try (specialize (ND ltac:(eauto)); discriminate);
      eexists; (split; [reflexivity|]); simpl; intros L; try discriminate; try (exfalso; eapply NE; eauto; fail);
      split; eauto; try (specialize (Idle L); discriminate).
Qed.
Print Assumptions C39_defined.

Lemma q_left_over ls : forall st tr, qexec ls qinit = Some (QLive st, tr) -> q_w st = WLeft -> q_over tr.
Proof.
  induction ls as [|l ls IH] using rev_ind; intros st tr X W; [injection X as <- <-; discriminate W|].
  apply qexec_app in X. destruct X as (m1 & t1 & t2 & X1 & X2 & ->). simpl in X2.
  destruct (qstep l m1) as [[m2 e2]|] eqn:S; [|discriminate]. injection X2 as -> <-. rewrite app_nil_r. apply over_snoc.
  destruct m1 as [st1|]; [|discriminate]. specialize (IH _ _ X1).
  destruct l; qcases S st1; simpl in *; try congruence; auto; try (right; apply over_one; exact I).
Qed.

(** Nothing happens before the lambda is registered. *)
Theorem C39_registered : forall ls m tr, qexec ls qinit = Some (m, tr) -> ~ In QRegister ls -> ls = [] /\ tr = [].
Proof.
  intros [|l ls] m tr X N; [injection X as _ <-; auto|]. exfalso. simpl in X. destruct l; simpl in X; try discriminate X. apply N. now left.
Qed.
Print Assumptions C39_registered.

(** Request always comes back: unless it has left, the waiter - alone, whatever the other thread is
    doing - gets out with at most seven steps, one of them a timeout. (A timeout cannot interrupt
    publishing, which is assumed to return.) *)
Definition q_out (st : qstate) : list qlabel :=
  let sleep := [QTimeout; QFinal; QReturn] in
  let check := QCheck :: (if q_waiting st then QBlock :: sleep else [QReturn]) in
  match q_w st with
  | WRegister => QRegister :: QPublish :: check
  | WPublish => QPublish :: check
  | WCheck => check
  | WBlock => QBlock :: sleep
  | WAsleep _ => sleep
  | WFinal => [QFinal; QReturn]
  | WReturn => [QReturn]
  | WLeft => []
  end.
Theorem C39_returns : forall ls0 st tr0, qexec ls0 qinit = Some (QLive st, tr0) -> ~ q_over tr0 ->
  exists ls m tr, length ls <= 7 /\ (forall d, ~ In (QEnter d) ls) /\ (forall l, In l ls -> ~ q_inside l /\ l <> QEnd) /\
    qexec ls (QLive st) = Some (m, tr) /\
    ((forall d, q_c st <> CWriting d) -> In (QeReturn (q_resp st)) tr /\ m <> QUndef) /\
    ((exists d, q_c st = CWriting d) -> m = QUndef).
Proof.
  intros ls0 st tr0 X0 No. pose proof (q_left_over _ _ _ X0) as W. assert (q_w st <> WLeft) as Wl by tauto. clear ls0 tr0 X0 No W. rename Wl into W.
  revert W. destruct st as [w c rg wt rs]. intros W; simpl in *. exists (q_out (mkQ w c rg wt rs)).
  assert (exists m tr, qexec (q_out (mkQ w c rg wt rs)) (QLive (mkQ w c rg wt rs)) = Some (m, tr) /\
    ((forall d, c <> CWriting d) -> In (QeReturn rs) tr /\ m <> QUndef) /\ ((exists d, c = CWriting d) -> m = QUndef)) as (m & tr & E & A & B).
  { destruct w as [ | | | |[]| | |], c, wt; try congruence; (do 2 eexists; split; [vm_compute; reflexivity|]);
    (split; [intros C|intros (d0 & C)]); try discriminate C; try reflexivity; try (exfalso; eapply C; reflexivity);
    (split; [simpl; auto|discriminate]). }
  exists m, tr. repeat split; try (apply A; assumption); auto.
  - destruct w, wt; simpl; lia.
  - intros d I. destruct w, wt; simpl in I; repeat destruct I as [I|I]; try discriminate; contradiction.
  - intros I. destruct w, wt; simpl in H; repeat destruct H as [H|H]; try subst l; try contradiction; auto.
  - intros ->. destruct w, wt; simpl in H; repeat destruct H as [H|H]; try discriminate; try contradiction.
Qed.
Print Assumptions C39_returns.

(** Without a timeout Request returns nothing but the first response: a wake-up for no reason does
    not make it return early. *)
Theorem C39_waits : forall ls m ta tb v,
  qexec ls qinit = Some (m, ta ++ QeReturn v :: tb) -> ~ In QTimeout ls -> exists ds, q_entered ta = v :: ds.
Proof.
  intros ls m ta tb v X N. destruct (q_return _ _ _ _ _ X) as (ls1 & ls2 & st & -> & X1 & W & -> & C & _).
  assert (forall ls m tr, qexec ls qinit = Some (m, tr) -> ~ In QTimeout ls ->
    match m with QLive st => q_w st <> WFinal /\ (q_w st = WReturn -> q_waiting st = false) | QUndef => True end) as K.
  { clear. intros ls. induction ls as [|l ls IH] using rev_ind; intros m tr X N; [injection X as <- <-; split; discriminate|].
    apply qexec_app in X. destruct X as (m1 & t1 & t2 & X1 & X2 & ->). simpl in X2.
    destruct (qstep l m1) as [[m2 e2]|] eqn:S; [|discriminate]. injection X2 as <- <-.
    assert (l <> QTimeout) as NT by (intros ->; apply N, in_app_iff; simpl; auto).
    specialize (IH _ _ X1 ltac:(intros I; apply N, in_app_iff; auto)).
    destruct m1 as [st|]; [|discriminate]. destruct IH as (A & B).
    destruct l; qcases S st; simpl in *; try congruence; auto; split; auto; try discriminate; try congruence. }
  destruct (K _ _ _ X1 ltac:(intros I; apply N, in_app_iff; auto)) as (_ & Wt). specialize (Wt W).
  destruct (q_ok_all _ _ _ X1) as (_ & Ie & Ii & _ & Iv). specialize (Iv ltac:(congruence)).
  destruct (q_c st) eqn:Ec; try (specialize (Ie d ltac:(auto 8))); try (destruct Iv as (_ & E & _); congruence).
  - destruct Iv as [(_ & E & _)|(_ & ds & E)]; [congruence|]. exists ds. now rewrite Ii.
  - destruct Iv as [(_ & E & _)|(_ & ds & E)]; [congruence|]. rewrite Ie, E. simpl. eauto.
  - destruct Iv as (E & _ & ->). rewrite Ie, E. simpl. eauto.
  - destruct Iv as (_ & [(E & ->)|(ds & E)]); rewrite Ie, E; simpl; eauto.
Qed.
Print Assumptions C39_waits.

(** However it is woken, the waiter looks at [waiting] again: if a response has arrived, two more
    steps of its own return that response; if not, it goes back to sleep. *)
Theorem C39_woken : forall ls st tr l m es,
  qexec ls qinit = Some (QLive st, tr) -> l = QWake \/ l = QSpurious -> qstep l (QLive st) = Some (m, es) ->
  es = [] /\
  ((exists d ds, q_entered tr = d :: ds /\ q_finished tr <> []) \/ q_waiting st = false ->
     exists d ds st', q_entered tr = d :: ds /\ qexec [QCheck; QReturn] m = Some (QLive st', [QeReturn d])) /\
  (q_waiting st = true -> exists st', qexec [QCheck; QBlock] m = Some (QLive st', []) /\ q_w st' = WAsleep false).
Proof.
  intros ls st tr l m es X L S. pose proof (q_ok_all _ _ _ X) as (_ & Ie & Ii & _ & Iv).
  destruct st as [w c rg wt rs]. simpl in *.
  assert (m = QLive (mkQ WCheck c rg wt rs) /\ es = [] /\ w <> WLeft) as (-> & -> & W).
  { destruct L as [-> | ->]; unfold qstep1, w_set in S; simpl in S; destruct w as [| | | |[]| | |]; try discriminate;
    injection S as <- <-; repeat split; discriminate. }
  split; auto. specialize (Iv W). split.
  - intros H. assert (wt = false) as ->.
    { destruct H as [(d & ds & _ & F)| ->]; auto. destruct c; intuition congruence. }
    assert (exists ds, q_entered tr = rs :: ds) as (ds & E).
    { destruct c; try (specialize (Ie d ltac:(auto 8))); try (destruct Iv as (_ & E & _); discriminate).
      - destruct Iv as [(_ & E & _)|(_ & ds & E)]; [discriminate|]. exists ds. now rewrite Ii.
      - destruct Iv as [(_ & E & _)|(_ & ds & E)]; [discriminate|]. rewrite Ie, E. simpl. eauto.
      - destruct Iv as (E & _ & ->). rewrite Ie, E. simpl. eauto.
      - destruct Iv as (_ & [(E & ->)|(ds & E)]); rewrite Ie, E; simpl; eauto. }
    exists rs, ds. rewrite E. destruct c; try (destruct Iv as (_ & Ew & _); discriminate);
      (eexists; split; [reflexivity|reflexivity]).
  - intros ->. eexists. split; [reflexivity|reflexivity].
Qed.
Print Assumptions C39_woken.

(** The lambda does not take the mutex, so its notification can fall between the test of the
    predicate and the sleep, and is lost: the response is there, but the waiter can only leave its
    sleep by a timeout or a spurious wake-up. It then still returns the response. *)
Theorem C39_lost_notification : exists ls st tr d, qexec ls qinit = Some (QLive st, tr) /\ q_finished tr = [d] /\ d <> Emp /\
  (forall l m es, qstep l (QLive st) = Some (m, es) -> l = QTimeout \/ l = QSpurious \/ exists d, l = QEnter d) /\
  exists ls' st' tr', qexec ls' (QLive st) = Some (QLive st', tr') /\ In (QeReturn d) tr'.
Proof.
  exists [QRegister; QPublish; QCheck; QEnter (Val (DInt 1)); QTest; QWrite; QWritten; QClear; QNotify; QEnd; QBlock].
  do 2 eexists. exists (Val (DInt 1)). split; [vm_compute; reflexivity|]. split; [reflexivity|]. split; [discriminate|]. split.
  - intros l m es H. destruct l; try discriminate; auto. eauto.
  - exists [QTimeout; QFinal; QReturn]. do 2 eexists. split; [vm_compute; reflexivity|]. simpl. auto.
Qed.
Print Assumptions C39_lost_notification.

(** A response in time does not exclude undefined behaviour: between clearing [waiting] and
    notifying, Request can return and destroy the condition variable. *)
Theorem C39_in_time_refuted : exists ls m tr d, qexec ls qinit = Some (m, tr) /\ m = QUndef /\ In (QeReturn d) tr /\ q_entered tr = [d] /\ ~ In QTimeout ls.
Proof.
  exists [QRegister; QPublish; QEnter (Val (DInt 1)); QTest; QWrite; QWritten; QClear; QCheck; QReturn; QNotify].
  do 2 eexists. exists (Val (DInt 1)). split; [vm_compute; reflexivity|]. split; auto. split; [simpl; auto|]. split; [reflexivity|].
  simpl. intuition discriminate.
Qed.
Print Assumptions C39_in_time_refuted.

(** A normal answer; a timeout; a failure to publish, which leaves a dead lambda registered. *)
Example C39_case :
  (exists m, qexec [QRegister; QPublish; QCheck; QBlock; QEnter (Val (DInt 1)); QTest; QWrite; QWritten; QClear; QNotify; QEnd; QWake; QCheck; QReturn] qinit
    = Some (m, [QeEnter (Val (DInt 1)); QeEnd (Val (DInt 1))] ++ QeReturn (Val (DInt 1)) :: []) /\ m <> QUndef) /\
  (exists st, qexec [QRegister; QPublish; QCheck; QBlock; QTimeout; QFinal; QReturn] qinit = Some (QLive st, [] ++ QeReturn Emp :: []) /\
    qexec [QEnter (Val (DInt 1)); QTest] (QLive st) = Some (QUndef, [QeEnter (Val (DInt 1))])) /\
  (exists st, qexec [QRegister; QFail InvalidOperation] qinit = Some (QLive st, [QeThrow InvalidOperation]) /\
    qexec [QEnter (Val (DInt 1)); QTest] (QLive st) = Some (QUndef, [QeEnter (Val (DInt 1))])).
Proof.
  split; [eexists; split; [vm_compute; reflexivity|discriminate]|].
  split; (eexists; split; [vm_compute; reflexivity|vm_compute; reflexivity]).
Qed.

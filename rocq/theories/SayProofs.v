(** Proofs about SayModel. *)
From Coq Require Import String List Arith Bool NArith ZArith Lia.
From Verif Require Import Prelude OMap DatagramModel DatagramSpec SerialSpec BusModel BusSpec BusProofs BusTree BusLocks BusLocks2 BusLocks3 BusDist BusAccount BusOnce BusFlight BusLockProps
  BusApiProps BusDeliveryProps ActionSpec ActionProofs ActionProps SyncProofs SysInfoModel SysInfoSpec SysInfoProofs LogModel SayModel SaySpec.
From Verif Require Import BusModel SaySpec.
Import ListNotations.
Open Scope list_scope.

(** ** Entering and leaving callbacks *)

Lemma entered_app r a b : entered r (a ++ b) = entered r a ++ entered r b. Proof. apply flat_map_app. Qed.
Lemma written_app r a b : written r (a ++ b) = written r a ++ written r b. Proof. apply flat_map_app. Qed.
Lemma on_bus_app a b : on_bus (a ++ b) = on_bus a ++ on_bus b. Proof. apply flat_map_app. Qed.
Lemma done_app k a b : done_by k (a ++ b) = done_by k a ++ done_by k b. Proof. apply filter_app. Qed.
Lemma on_bus_ev evs : on_bus (map YEv evs) = evs.
Proof. induction evs as [|e evs IH]; [reflexivity|]. unfold on_bus in *. cbn. now rewrite IH. Qed.
Lemma written_ev r evs : written r (map YEv evs) = [].
Proof. induction evs as [|e evs IH]; [reflexivity|]. exact IH. Qed.
Lemma done_ev k evs : done_by k (map YEv evs) = [].
Proof. induction evs as [|e evs IH]; [reflexivity|]. exact IH. Qed.

Lemma entered_in r evs c : In c (entered r (map YEv evs)) -> exists s m, In (EvInvoke r s m c) evs.
Proof.
  intros I. apply in_flat_map in I as (e & I & J). apply in_map_iff in I as (e' & <- & I). destruct e'; try contradiction.
  destruct (Nat.eqb_spec root r) as [->|]; [|contradiction]. destruct J as [<-|[]]. eauto.
Qed.

Lemma ends_dec r l : ends r l \/ ~ ends r l.
Proof.
  destruct l as [l0|q]; [|right; intros [X|(e & X)]; discriminate X].
  destruct l0; try (right; intros [X|(e' & X)]; discriminate X).
  all: rename r0 into q; destruct (Nat.eq_dec q r) as [->|Nq]; [left; unfold ends; eauto|right; intros [X|(e' & X)]; congruence].
Qed.

Lemma entry_step k l z z' evs r : reach (z_bus z) -> zstep k l z = Some (z', evs) ->
  (exists c, call_at (z_bus z) r = Some c /\ ~ ends r l /\ call_at (z_bus z') r = Some c /\ entered r (map YEv evs) = []) \/
  (exists c, call_at (z_bus z) r = Some c /\ ends r l /\ call_at (z_bus z') r = None /\ entered r (map YEv evs) = []) \/
  (call_at (z_bus z) r = None /\ call_at (z_bus z') r = None /\ entered r (map YEv evs) = []) \/
  (exists c, call_at (z_bus z) r = None /\ ~ ends r l /\ call_at (z_bus z') r = Some c /\ entered r (map YEv evs) = [c]).
Proof.
  intros Rc S. destruct (call_at (z_bus z) r) as [c|] eqn:C.
  - assert (entered r (map YEv evs) = []) as E.
    { destruct (entered r (map YEv evs)) as [|c' cs] eqn:E; [reflexivity|exfalso]. destruct (entered_in r evs c') as (s & m & I); [rewrite E; now left|].
      apply in_split in I as (e1 & e2 & I). destruct (zinvoke _ _ _ _ _ _ _ _ _ _ _ Rc S I) as (_ & N & _). congruence. }
    destruct (ends_dec r l) as [En|En].
    + right; left. destruct (ends_step _ _ _ _ _ _ S En) as (_ & C' & _). exists c. auto.
    + left. exists c. split; [reflexivity|]. split; [exact En|]. split; [eapply call_at_step; eauto|exact E].
  - right; right. destruct (entered r (map YEv evs)) as [|c' cs] eqn:E.
    + left. split; [reflexivity|]. split; [|reflexivity]. destruct (call_at (z_bus z') r) as [c'|] eqn:C'; [exfalso|reflexivity].
      destruct (zstep_bus _ _ _ _ _ S) as (l0 & S0 & _).
      assert (reach (z_bus z')) as Rc' by (eapply reach_step; eauto).
      apply call_at_calling in C' as (b & C'); [|exact Rc']. destruct (calling_back _ _ _ _ _ _ _ Rc S0 C') as [(C0 & _)|(s & m & _ & ->)].
      * assert (call_at (z_bus z) r = Some c') as Q by (apply call_at_calling; eauto). congruence.
      * cbn in E. rewrite Nat.eqb_refl in E. discriminate E.
    + right. destruct (entered_in r evs c') as (s & m & I); [rewrite E; now left|].
      apply in_split in I as (e1 & e2 & I). destruct (zinvoke _ _ _ _ _ _ _ _ _ _ _ Rc S I) as (-> & _ & -> & b & x & ss & stk & rest & -> & G & R).
      exists c'. split; [reflexivity|]. split; [intros [X|(e' & X)]; discriminate X|]. split; [unfold call_at; now rewrite G, R|].
      subst evs. cbn in E. rewrite Nat.eqb_refl in E. cbn in E. congruence.
Qed.

(** ** A step of the whole is a step on the bus, or none *)
Section Text.
  Variables (sd : N -> string) (so : string -> string -> string) (is : list yinst).
  Notation ystep := (ystep sd so is).
  Notation yexec := (yexec sd so is).
  Notation says := (says sd so is).
  Notation owes := (owes sd so is).

  Lemma ystep_z l y y' e : ystep l y = Some (y', e) ->
    (y_z y' = y_z y /\ on_bus e = []) \/ (exists zl, zstep (lambdas is) zl (y_z y) = Some (y_z y', on_bus e)).
  Proof.
    intros H. destruct l as [l|r|k|k|k]; cbn in H.
    - destruct (waits sd so is y l); [discriminate H|]. unfold bus_step in H. destruct (zstep (lambdas is) l (y_z y)) as [(z & evs)|] eqn:S; [|discriminate H].
      injection H as <- <-. right. exists l. rewrite on_bus_ev. exact S.
    - destruct (owes y r) as [(k & c)|]; [|discriminate H]. injection H as <- <-. auto.
    - destruct (nth_error is k); [|discriminate H]. destruct (y_pos y k); try discriminate H. injection H as <- <-. auto.
    - injection H as <- <-. auto.
    - destruct (nth_error is k) as [i|]; [|discriminate H]. destruct (y_pos y k); try discriminate H; try (injection H as <- <-; auto; fail).
      unfold bus_step in H. destruct (zstep (lambdas is) (ZBus (LPublish (yi_pub i) hello)) (y_z y)) as [(z & evs)|] eqn:S; [|discriminate H].
      injection H as <- <-. right. exists (ZBus (LPublish (yi_pub i) hello)). cbn [on_bus flat_map List.app]. fold (on_bus (map YEv evs)). rewrite on_bus_ev. exact S.
  Qed.

  Lemma yexec_app ls1 : forall ls2 y y' T, yexec (ls1 ++ ls2) y = Some (y', T) <->
    exists y1 T1 T2, yexec ls1 y = Some (y1, T1) /\ yexec ls2 y1 = Some (y', T2) /\ T = T1 ++ T2.
  Proof.
    induction ls1 as [|l ls1 IH]; intros ls2 y y' T; cbn [List.app SayModel.yexec].
    - split; [intros H; exists y, [], T; auto|intros (y1 & T1 & T2 & H & H2 & ->)]. injection H as <- <-. exact H2.
    - destruct (ystep l y) as [(y1 & e1)|].
      + split.
        * intros H. destruct (yexec (ls1 ++ ls2) y1) as [(y2 & e2)|] eqn:E; [|discriminate H]. injection H as <- <-.
          apply IH in E as (y3 & T1 & T2 & E1 & E2 & ->). exists y3, (e1 ++ T1), T2. rewrite E1. split; [reflexivity|]. split; [exact E2|]. now rewrite app_assoc.
        * intros (y3 & T1 & T2 & E1 & E2 & ->). destruct (yexec ls1 y1) as [(y4 & e4)|] eqn:E; [|discriminate E1]. injection E1 as <- <-.
          assert (yexec (ls1 ++ ls2) y1 = Some (y', e4 ++ T2)) as -> by (apply IH; exists y4, e4, T2; auto). now rewrite app_assoc.
      + split; [discriminate|]. intros (y3 & T1 & T2 & E1 & _). discriminate E1.
  Qed.

  Lemma yexec_z ls : forall y y' T, yexec ls y = Some (y', T) -> exists zls, zexec (lambdas is) zls (y_z y) = Some (y_z y', on_bus T).
  Proof.
    induction ls as [|l ls IH]; intros y y' T X; cbn [SayModel.yexec] in X.
    - injection X as <- <-. exists []. reflexivity.
    - destruct (ystep l y) as [(y1 & e1)|] eqn:S; [|discriminate X]. destruct (yexec ls y1) as [(y2 & e2)|] eqn:E; [|discriminate X]. injection X as <- <-.
      destruct (IH _ _ _ E) as (zls & Z). rewrite on_bus_app. destruct (ystep_z _ _ _ _ S) as [(Q & ->)|(zl & Q)].
      + exists zls. rewrite <- Q. exact Z.
      + exists (zl :: zls). cbn [zexec]. now rewrite Q, Z.
  Qed.

  Lemma yreach ls y T : yexec ls yinit = Some (y, T) -> reach (z_bus (y_z y)).
  Proof. intros X. destruct (yexec_z _ _ _ _ X) as (zls & Z). exact (zreach _ _ _ _ Z). Qed.

  (** ** The lines of the bus threads *)
  Definition opt {A} (o : option A) : list A := match o with Some a => [a] | None => [] end.
  Definition due (cs : list call) : list (nat * LogModel.call) := flat_map (fun c => opt (says c)) cs.

  Record said_inv (y : ystate) (T : list yevent) : Prop := mkSI {
    si_in : forall r, y_said y r = true -> call_at (z_bus (y_z y)) r <> None;
    si_lines : forall r, due (entered r T) = written r T ++ opt (owes y r)
  }.

  Lemma owes_unfold y r : owes y r = match call_at (z_bus (y_z y)) r with Some c => if y_said y r then None else says c | None => None end.
  Proof. reflexivity. Qed.

  Lemma said_bus l f y y' e T : reach (z_bus (y_z y)) -> said_inv y T -> waits sd so is y l = false -> bus_step is l f y = Some (y', e) -> said_inv y' (T ++ e).
  Proof.
    intros Rc (I1 & I2) W H. unfold bus_step in H. destruct (zstep (lambdas is) l (y_z y)) as [(z & evs)|] eqn:S; [|discriminate H]. injection H as <- <-.
    set (said := match l with ZBus (LReturn r) | ZBus (LThrow r _) => fset (y_said y) r false | _ => y_said y end).
    assert (forall r, ~ ends r l -> said r = y_said y r) as Sn.
    { intros r N. unfold said. destruct l as [l0|]; [|reflexivity]. destruct l0; try reflexivity; unfold fset; (destruct (Nat.eqb_spec r r0) as [->|]; [elim N; unfold ends; eauto|reflexivity]). }
    assert (forall r, ends r l -> said r = false /\ owes y r = None) as Se.
    { intros r [->|(e & ->)]; unfold said, fset; rewrite Nat.eqb_refl; (split; [reflexivity|]); cbn in W; destruct (owes y r); [discriminate W|reflexivity|discriminate W|reflexivity]. }
    split.
    - intros r. cbn [y_said y_z]. destruct (entry_step _ _ _ _ _ r Rc S) as [(c & C & N & C' & _)|[(c & C & N & C' & _)|[(C & C' & _)|(c & C & N & C' & _)]]]; rewrite C'; try discriminate.
      + destruct (Se r N) as (-> & _). discriminate.
      + destruct (ends_dec r l) as [N|N]; [destruct (Se r N) as (-> & _); discriminate|]. rewrite (Sn r N). intros Q. elim (I1 r Q). exact C.
    - intros r. unfold due. rewrite entered_app, written_app, flat_map_app, written_ev, app_nil_r. fold (due (entered r T)). rewrite I2, !owes_unfold. cbn [y_said y_z]. fold said.
      destruct (entry_step _ _ _ _ _ r Rc S) as [(c & C & N & C' & ->)|[(c & C & N & C' & ->)|[(C & C' & ->)|(c & C & N & C' & ->)]]]; rewrite C, C'; cbn [flat_map]; rewrite ?app_nil_r.
      + rewrite (Sn r N). reflexivity.
      + destruct (Se r N) as (_ & Q). rewrite owes_unfold, C in Q. rewrite Q. cbn [opt]. rewrite ?app_nil_r; reflexivity.
      + cbn [opt]. rewrite ?app_nil_r; reflexivity.
      + rewrite (Sn r N). assert (y_said y r = false) as -> by (destruct (y_said y r) eqn:Q; [elim (I1 r Q); exact C|reflexivity]). cbn [opt]. rewrite ?app_nil_r; reflexivity.
  Qed.

  Lemma said_step l y y' e T : reach (z_bus (y_z y)) -> said_inv y T -> ystep l y = Some (y', e) -> said_inv y' (T ++ e).
  Proof.
    intros Rc I H. destruct l as [l|r|k|k|k]; cbn in H.
    - destruct (waits sd so is y l) eqn:W; [discriminate H|]. eapply said_bus; eauto.
    - destruct (owes y r) as [(k & c)|] eqn:O; [|discriminate H]. injection H as <- <-. destruct I as (I1 & I2). rewrite owes_unfold in O. split.
      + intros r'. cbn. unfold fset. destruct (Nat.eqb_spec r' r) as [->|]; [|apply I1]. intros _ Q. rewrite Q in O. discriminate O.
      + intros r'. rewrite entered_app, written_app. cbn [entered flat_map]. rewrite app_nil_r, I2, !owes_unfold. cbn [y_said y_z]. unfold fset. cbn [written flat_map]. rewrite (Nat.eqb_sym r r').
        destruct (Nat.eqb_spec r' r) as [->|].
        * rewrite O. destruct (call_at (z_bus (y_z y)) r); cbn; rewrite ?app_nil_r; reflexivity.
        * now rewrite !app_nil_r.
    - destruct (nth_error is k); [|discriminate H]. destruct (y_pos y k); try discriminate H. injection H as <- <-. rewrite app_nil_r. destruct I as (I1 & I2). split; [exact I1|exact I2].
    - injection H as <- <-. rewrite app_nil_r. destruct I as (I1 & I2). split; [exact I1|exact I2].
    - destruct (nth_error is k) as [i|]; [|discriminate H]. destruct (y_pos y k); try discriminate H.
      + injection H as <- <-. rewrite app_nil_r. destruct I as (I1 & I2). split; [exact I1|exact I2].
      + destruct (bus_step is (ZBus (LPublish (yi_pub i) hello)) (fset (y_pos y) k (WIn (length (s_flights (z_bus (y_z y)))))) y) as [(y1 & e1)|] eqn:B; [|discriminate H]. injection H as <- <-.
        destruct (said_bus (ZBus (LPublish (yi_pub i) hello)) _ _ _ _ _ Rc I eq_refl B) as (I1 & I2). split; [exact I1|]. intros r. specialize (I2 r). rewrite entered_app, written_app in *. exact I2.
      + injection H as <- <-. destruct I as (I1 & I2). split; [exact I1|]. intros r. rewrite entered_app, written_app. cbn [entered written flat_map]. rewrite !app_nil_r. exact (I2 r).
  Qed.

  Lemma said_ok ls : forall y T, yexec ls yinit = Some (y, T) -> said_inv y T.
  Proof.
    induction ls as [|l ls IH] using rev_ind; intros y T X.
    - cbn in X. injection X as <- <-. split; [discriminate|]. intros r. rewrite owes_unfold. unfold call_at. cbn. destruct r; reflexivity.
    - apply yexec_app in X as (y1 & T1 & T2 & X & Y & ->). cbn [SayModel.yexec] in Y. destruct (ystep l y1) as [(y2 & e2)|] eqn:S; [|discriminate Y]. injection Y as <- <-. rewrite app_nil_r.
      exact (said_step _ _ _ _ _ (yreach _ _ _ X) (IH _ _ X) S).
  Qed.

  (** ** The workers *)
  Lemma wnote_case evs : forall f k, match f k with
    | WIn j => wnote evs f k = WIn j \/ (wnote evs f k = WSay /\ In (EvFlight j (Ok tt)) evs) \/ (wnote evs f k = WDead /\ exists x, In (EvFlight j x) evs /\ x <> Ok tt)
    | p => wnote evs f k = p
    end.
  Proof.
    unfold wnote. induction evs as [|e evs IH]; intros f k; cbn [fold_left].
    - destruct (f k); auto.
    - destruct e as [ | | | | | | | | | | | |i x];
        try (specialize (IH f k); destruct (f k) as [| | |j| |]; auto; destruct IH as [IH|[(IH & J)|(IH & x & J & Nx)]]; [auto|right; left; split; [exact IH|now right]|right; right; split; [exact IH|exists x; split; [now right|exact Nx]]]; fail).
      specialize (IH (fun k => match f k with WIn j => if Nat.eqb i j then match x with Ok _ => WSay | _ => WDead end else f k | p => p end) k). cbv beta in IH.
      destruct (f k) as [| | |j| |]; auto. destruct (Nat.eqb_spec i j) as [->|].
      + destruct x as [[]| | |]; [right; left; split; [exact IH|now left]| | |]; (right; right; split; [exact IH|]; eexists; split; [left; reflexivity|discriminate]).
      + destruct IH as [IH|[(IH & J)|(IH & x' & J & Nx)]]; [auto|right; left; split; [exact IH|now right]|right; right; split; [exact IH|exists x'; split; [now right|exact Nx]]].
  Qed.

  (** What the worker of [k] is in the middle of. *)
  Definition midway (k : nat) (p : wpos) (T : list yevent) (rest : list yevent) : Prop :=
    match p with
    | WIn i => rest = [YPub k i]
    | WSay => exists i, rest = [YPub k i] /\ In (EvFlight i (Ok tt)) (on_bus T)
    | WDead => exists i x, rest = [YPub k i] /\ In (EvFlight i x) (on_bus T) /\ x <> Ok tt
    | _ => rest = []
    end.
  Definition sent_line (i : yinst) : LogModel.call := mkCall (yi_name i) "Sent datagram" 0%Z.
  Definition work_inv (k : nat) (i : yinst) (y : ystate) (T : list yevent) : Prop :=
    exists ns rest, done_by k T = flat_map (fun n => [YPub k n; YLine k Worker (sent_line i)]) ns ++ rest /\
      Forall (fun n => In (EvFlight n (Ok tt)) (on_bus T)) ns /\ midway k (y_pos y k) T rest.

  Lemma midway_later k p T e rest : midway k p T rest -> midway k p (T ++ e) rest.
  Proof.
    destruct p; cbn; auto.
    - intros (i & -> & I). exists i. split; [reflexivity|]. rewrite on_bus_app. apply in_app_iff. auto.
    - intros (i & x & -> & I & N). exists i, x. split; [reflexivity|]. rewrite on_bus_app, in_app_iff. auto.
  Qed.

  Lemma midway_note k p f T evs rest : f k = p -> midway k p T rest -> midway k (wnote evs f k) (T ++ map YEv evs) rest.
  Proof.
    intros E M. pose proof (wnote_case evs f k) as W. rewrite E in W. destruct p as [| | |j| |]; try (rewrite W; apply midway_later; exact M).
    cbn in M. destruct W as [->|[(-> & I)|(-> & x & I & N)]]; cbn.
    - exact M.
    - exists j. split; [exact M|]. rewrite on_bus_app, on_bus_ev. apply in_app_iff. auto.
    - exists j, x. split; [exact M|]. rewrite on_bus_app, on_bus_ev, in_app_iff. auto.
  Qed.

  Lemma work_step k i l y y' e T : nth_error is k = Some i -> work_inv k i y T -> ystep l y = Some (y', e) -> work_inv k i y' (T ++ e).
  Proof.
    intros Ni (ns & rest & D & F & M) H.
    assert (forall e, Forall (fun n => In (EvFlight n (Ok tt)) (on_bus (T ++ e))) ns) as F' by (intros e0; eapply Forall_impl; [|exact F]; intros n J; rewrite on_bus_app; apply in_app_iff; auto).
    assert (forall y1 e1, done_by k e1 = [] -> midway k (y_pos y1 k) (T ++ e1) rest -> work_inv k i y1 (T ++ e1)) as Same.
    { intros y1 e1 De Me. exists ns, rest. rewrite done_app, De, app_nil_r. auto. }
    destruct l as [l|r|k0|k0|k0]; cbn in H.
    - destruct (waits sd so is y l); [discriminate H|]. unfold bus_step in H. destruct (zstep (lambdas is) l (y_z y)) as [(z & evs)|]; [|discriminate H]. injection H as <- <-.
      apply Same; [apply done_ev|]. cbn [y_pos]. eapply midway_note; [reflexivity|exact M].
    - destruct (owes y r) as [(k1 & c)|]; [|discriminate H]. injection H as <- <-. apply Same; [reflexivity|]. cbn [y_pos]. apply midway_later. exact M.
    - destruct (nth_error is k0); [|discriminate H]. destruct (y_pos y k0) eqn:P; try discriminate H. injection H as <- <-. apply Same; [reflexivity|]. cbn [y_pos]. apply midway_later. unfold fset.
      destruct (Nat.eqb_spec k k0) as [->|]; [|exact M]. rewrite P in M. exact M.
    - injection H as <- <-. apply Same; [reflexivity|]. cbn [y_pos]. apply midway_later. exact M.
    - destruct (nth_error is k0) as [i0|] eqn:N0; [|discriminate H]. destruct (y_pos y k0) eqn:P; try discriminate H.
      + injection H as <- <-. apply Same; [reflexivity|]. cbn [y_pos]. apply midway_later. unfold fset.
        destruct (Nat.eqb_spec k k0) as [->|]; [|exact M]. rewrite P in M. destruct (y_run y k0), (yi_send i0); exact M.
      + unfold bus_step in H. destruct (zstep (lambdas is) (ZBus (LPublish (yi_pub i0) hello)) (y_z y)) as [(z & evs)|]; [|discriminate H]. injection H as <- <-.
        set (n := length (s_flights (z_bus (y_z y)))). destruct (Nat.eq_dec k k0) as [->|Nk].
        * rewrite P in M. cbn in M. subst rest. exists ns, [YPub k0 n]. rewrite done_app. cbn [done_by filter]. rewrite Nat.eqb_refl. fold (done_by k0 (map YEv evs)). rewrite done_ev, D, app_nil_r.
          split; [reflexivity|]. split; [apply F'|]. cbn [y_pos]. change (T ++ YPub k0 n :: map YEv evs) with (T ++ [YPub k0 n] ++ map YEv evs). rewrite app_assoc.
          apply (midway_note k0 (WIn n)); [unfold fset; now rewrite Nat.eqb_refl|reflexivity].
        * apply Same; [cbn [done_by filter]; rewrite (proj2 (Nat.eqb_neq k0 k)) by congruence; apply done_ev|].
          cbn [y_pos]. change (T ++ YPub k0 n :: map YEv evs) with (T ++ [YPub k0 n] ++ map YEv evs). rewrite app_assoc.
          apply (midway_note k (y_pos y k)); [unfold fset; rewrite (proj2 (Nat.eqb_neq k k0) Nk); reflexivity|]. apply midway_later. exact M.
      + injection H as <- <-. destruct (Nat.eq_dec k k0) as [->|Nk].
        * assert (i0 = i) as -> by congruence. rewrite P in M. destruct M as (n & -> & J). exists (ns ++ [n]), []. rewrite done_app. cbn [done_by filter]. rewrite Nat.eqb_refl, D, flat_map_app. cbn [flat_map List.app].
          split; [now rewrite <- app_assoc, app_nil_r|]. split; [apply Forall_app; split; [apply F'|constructor; [|constructor]]; rewrite on_bus_app; apply in_app_iff; auto|].
          cbn [y_pos]. unfold fset. rewrite Nat.eqb_refl. reflexivity.
        * apply Same; [cbn [done_by filter]; now rewrite (proj2 (Nat.eqb_neq k0 k)) by congruence|].
          cbn [y_pos]. unfold fset. rewrite (proj2 (Nat.eqb_neq k k0) Nk). apply midway_later. exact M.
  Qed.

  Lemma work_ok k i ls : nth_error is k = Some i -> forall y T, yexec ls yinit = Some (y, T) -> work_inv k i y T.
  Proof.
    intros Ni. induction ls as [|l ls IH] using rev_ind; intros y T X.
    - cbn in X. injection X as <- <-. exists [], []. cbn. auto.
    - apply yexec_app in X as (y1 & T1 & T2 & X & Y & ->). cbn [SayModel.yexec] in Y. destruct (ystep l y1) as [(y2 & e2)|] eqn:S; [|discriminate Y]. injection Y as <- <-. rewrite app_nil_r.
      exact (work_step _ _ _ _ _ _ _ Ni (IH _ _ X) S).
  Qed.

  Lemma yevent_point ls : forall y y' ta e tb, yexec ls y = Some (y', ta ++ e :: tb) ->
    exists ls1 l ls2 y1 y2 t1 e1 e2 t2, ls = ls1 ++ l :: ls2 /\ yexec ls1 y = Some (y1, t1) /\ ystep l y1 = Some (y2, e1 ++ e :: e2) /\
      yexec ls2 y2 = Some (y', t2) /\ ta = t1 ++ e1 /\ tb = e2 ++ t2.
  Proof.
    induction ls as [|l ls IH]; intros y y' ta e tb X; cbn [SayModel.yexec] in X; [destruct ta; discriminate X|].
    destruct (ystep l y) as [(s1 & e1)|] eqn:H1; [|discriminate X]. destruct (yexec ls s1) as [(s2 & e2)|] eqn:H2; [|discriminate X].
    injection X as <- E. apply app_eq_app in E. destruct E as (z & [(E1 & E2)|(E1 & E2)]).
    - destruct z as [|z0 z].
      + rewrite app_nil_r in E1. subst e1. cbn in E2. subst e2. destruct (IH _ _ [] _ _ H2) as (ls1 & l' & ls2 & y1 & y2 & t1 & f1 & f2 & t2 & -> & A & B & C & D & ->).
        symmetry in D. apply app_eq_nil in D as (-> & ->). exists (l :: ls1), l', ls2, y1, y2, ta, [], f2, t2. cbn [SayModel.yexec]. rewrite H1, A, !app_nil_r. auto 10.
      + cbn in E2. injection E2 as <- ->. subst e1. exists [], l, ls, y, s1, [], ta, z, e2. cbn. auto 10.
    - subst ta. subst e2. destruct (IH _ _ _ _ _ H2) as (ls1 & l' & ls2 & y1 & y2 & t1 & f1 & f2 & t2 & -> & A & B & C & -> & ->).
      exists (l :: ls1), l', ls2, y1, y2, (e1 ++ t1), f1, f2, t2. cbn [SayModel.yexec]. rewrite H1, A, app_assoc. auto 10.
  Qed.

  Lemma no_pub evs : forall k n a b, map YEv evs = a ++ YPub k n :: b -> False.
  Proof. intros k n a b E. assert (In (YPub k n) (map YEv evs)) as J by (rewrite E; apply in_app_iff; right; now left). apply in_map_iff in J as (x & J & _). discriminate J. Qed.

  Lemma pub_step k n l y y' a b : ystep l y = Some (y', a ++ YPub k n :: b) ->
    exists i evs, l = YWork k /\ nth_error is k = Some i /\ a = [] /\ b = map YEv evs /\ n = length (s_flights (z_bus (y_z y))) /\
      zstep (lambdas is) (ZBus (LPublish (yi_pub i) hello)) (y_z y) = Some (y_z y', evs).
  Proof.
    intros H. destruct l as [l|r|k0|k0|k0]; cbn in H.
    - destruct (waits sd so is y l); [discriminate H|]. unfold bus_step in H. destruct (zstep (lambdas is) l (y_z y)) as [(z & evs)|]; [|discriminate H]. injection H as _ E. now apply no_pub in E.
    - destruct (owes y r) as [(k1 & c)|]; [|discriminate H]. injection H as _ E. destruct a as [|? [|]]; discriminate E.
    - destruct (nth_error is k0); [|discriminate H]. destruct (y_pos y k0); try discriminate H. injection H as _ E. destruct a; discriminate E.
    - injection H as _ E. destruct a; discriminate E.
    - destruct (nth_error is k0) as [i|] eqn:N0; [|discriminate H]. destruct (y_pos y k0); try discriminate H.
      + injection H as _ E. destruct a; discriminate E.
      + unfold bus_step in H. destruct (zstep (lambdas is) (ZBus (LPublish (yi_pub i) hello)) (y_z y)) as [(z & evs)|] eqn:S; [|discriminate H]. injection H as <- E.
        destruct a as [|a0 a]; [|injection E as _ E; now apply no_pub in E]. injection E as <- <- <-. exists i, evs. auto 10.
      + injection H as _ E. destruct a as [|? [|]]; discriminate E.
  Qed.

  (** A worker that sends nothing. *)
  Lemma silent_step k i l y y' e : nth_error is k = Some i -> yi_send i = false -> (y_pos y k = WNone \/ y_pos y k = WTest) -> ystep l y = Some (y', e) ->
    (y_pos y' k = WNone \/ y_pos y' k = WTest) /\ done_by k e = [].
  Proof.
    intros Ni Sf P H. destruct l as [l|r|k0|k0|k0]; cbn in H.
    - destruct (waits sd so is y l); [discriminate H|]. unfold bus_step in H. destruct (zstep (lambdas is) l (y_z y)) as [(z & evs)|]; [|discriminate H]. injection H as <- <-.
      split; [|apply done_ev]. cbn [y_pos]. pose proof (wnote_case evs (y_pos y) k) as W. destruct P as [P|P]; rewrite P in W; auto.
    - destruct (owes y r) as [(k1 & c)|]; [|discriminate H]. injection H as <- <-. auto.
    - destruct (nth_error is k0); [|discriminate H]. destruct (y_pos y k0) eqn:P0; try discriminate H. injection H as <- <-. split; [|reflexivity]. cbn [y_pos]. unfold fset. destruct (Nat.eqb k k0); auto.
    - injection H as <- <-. auto.
    - destruct (nth_error is k0) as [i0|] eqn:N0; [|discriminate H]. destruct (y_pos y k0) eqn:P0; try discriminate H.
      + injection H as <- <-. split; [|reflexivity]. cbn [y_pos]. unfold fset. destruct (Nat.eqb_spec k k0) as [->|]; [|exact P]. assert (i0 = i) as -> by congruence. rewrite Sf. destruct (y_run y k0); auto.
      + assert (k0 <> k) as Nk by (intros ->; destruct P; congruence).
        unfold bus_step in H. destruct (zstep (lambdas is) (ZBus (LPublish (yi_pub i0) hello)) (y_z y)) as [(z & evs)|] eqn:S; [|discriminate H]. injection H as <- <-. cbn [y_pos]. split.
        * pose proof (wnote_case evs (fset (y_pos y) k0 (WIn (length (s_flights (z_bus (y_z y)))))) k) as W. unfold fset in W at 1. rewrite (proj2 (Nat.eqb_neq k k0)) in W by congruence.
          destruct P as [P|P]; rewrite P in W; auto.
        * cbn [done_by filter]. rewrite (proj2 (Nat.eqb_neq k0 k) Nk). apply done_ev.
      + assert (k0 <> k) as Nk by (intros ->; destruct P; congruence). injection H as <- <-. cbn [y_pos done_by filter]. rewrite (proj2 (Nat.eqb_neq k0 k) Nk). unfold fset. rewrite (proj2 (Nat.eqb_neq k k0)) by congruence. auto.
  Qed.

  Lemma silent_ok k i ls : nth_error is k = Some i -> yi_send i = false -> forall y y' T, (y_pos y k = WNone \/ y_pos y k = WTest) -> yexec ls y = Some (y', T) -> done_by k T = [].
  Proof.
    intros Ni Sf. induction ls as [|l ls IH]; intros y y' T P X; cbn [SayModel.yexec] in X; [now injection X as _ <-|].
    destruct (ystep l y) as [(y1 & e1)|] eqn:S; [|discriminate X]. destruct (yexec ls y1) as [(y2 & e2)|] eqn:E; [|discriminate X]. injection X as _ <-.
    destruct (silent_step _ _ _ _ _ _ Ni Sf P S) as (P1 & D). rewrite done_app, D. exact (IH _ _ _ P1 E).
  Qed.

  (** A worker that has been told to stop. *)
  Definition leftp (p : wpos) : nat := match p with WPublish => 1 | _ => 0 end.
  Definition leftl (p : wpos) : nat := match p with WPublish | WIn _ | WSay => 1 | _ => 0 end.

  Lemma pubs_app a b : pubs (a ++ b) = pubs a + pubs b.
  Proof. unfold pubs. now rewrite filter_app, app_length. Qed.
  Lemma says_n_app a b : says_n (a ++ b) = says_n a + says_n b.
  Proof. unfold says_n. now rewrite filter_app, app_length. Qed.

  Lemma stop_step k l y y' e : y_run y k = false -> l <> YStart k -> ystep l y = Some (y', e) ->
    y_run y' k = false /\ pubs (done_by k e) + leftp (y_pos y' k) <= leftp (y_pos y k) /\ says_n (done_by k e) + leftl (y_pos y' k) <= leftl (y_pos y k).
  Proof.
    intros R Nl H.
    assert (forall evs f, leftp (wnote evs f k) <= leftp (f k) /\ leftl (wnote evs f k) <= leftl (f k)) as W.
    { intros evs f. pose proof (wnote_case evs f k) as W. destruct (f k); try (rewrite W; auto; fail). destruct W as [->|[(-> & _)|(-> & _)]]; cbn; auto. }
    destruct l as [l|r|k0|k0|k0]; cbn in H.
    - destruct (waits sd so is y l); [discriminate H|]. unfold bus_step in H. destruct (zstep (lambdas is) l (y_z y)) as [(z & evs)|]; [|discriminate H]. injection H as <- <-.
      rewrite done_ev. cbn [y_pos y_run]. split; [exact R|]. exact (W evs (y_pos y)).
    - destruct (owes y r) as [(k1 & c)|]; [|discriminate H]. injection H as <- <-. cbn. auto.
    - destruct (nth_error is k0); [|discriminate H]. destruct (y_pos y k0) eqn:P0; try discriminate H. injection H as <- <-. assert (k <> k0) as Nk by congruence. cbn. unfold fset. rewrite (proj2 (Nat.eqb_neq k k0) Nk). auto.
    - injection H as <- <-. cbn. unfold fset. destruct (Nat.eqb k k0); auto.
    - destruct (nth_error is k0) as [i0|] eqn:N0; [|discriminate H]. destruct (y_pos y k0) eqn:P0; try discriminate H.
      + injection H as <- <-. cbn. unfold fset. destruct (Nat.eqb_spec k k0) as [->|]; [|auto]. rewrite R, P0. auto.
      + unfold bus_step in H. destruct (zstep (lambdas is) (ZBus (LPublish (yi_pub i0) hello)) (y_z y)) as [(z & evs)|] eqn:S; [|discriminate H]. injection H as <- <-. cbn [y_pos y_run]. split; [exact R|].
        specialize (W evs (fset (y_pos y) k0 (WIn (length (s_flights (z_bus (y_z y))))))). destruct W as (W1 & W2). unfold fset in W1 at 2, W2 at 2.
        change (YPub k0 (length (s_flights (z_bus (y_z y)))) :: map YEv evs) with ([YPub k0 (length (s_flights (z_bus (y_z y))))] ++ map YEv evs). rewrite done_app, done_ev, app_nil_r.
        cbn [done_by filter]. destruct (Nat.eqb_spec k k0) as [->|Nk].
        * rewrite Nat.eqb_refl, P0. cbn in *. lia.
        * rewrite (proj2 (Nat.eqb_neq k0 k)) by congruence. cbn. lia.
      + injection H as <- <-. cbn [y_pos y_run done_by filter]. split; [exact R|]. unfold fset. destruct (Nat.eqb_spec k k0) as [->|Nk].
        * rewrite Nat.eqb_refl, P0. cbn. auto.
        * rewrite (proj2 (Nat.eqb_neq k0 k)) by congruence. cbn. auto.
  Qed.

  Lemma stop_ok k ls : forall y y' T, y_run y k = false -> ~ In (YStart k) ls -> yexec ls y = Some (y', T) ->
    pubs (done_by k T) <= leftp (y_pos y k) /\ says_n (done_by k T) <= leftl (y_pos y k).
  Proof.
    induction ls as [|l ls IH]; intros y y' T R Nl X; cbn [SayModel.yexec] in X; [injection X as _ <-; cbn; lia|].
    destruct (ystep l y) as [(y1 & e1)|] eqn:S; [|discriminate X]. destruct (yexec ls y1) as [(y2 & e2)|] eqn:E; [|discriminate X]. injection X as _ <-.
    destruct (stop_step k _ _ _ _ R (fun q => Nl (or_introl q)) S) as (R1 & A & B). destruct (IH _ _ _ R1 (fun q => Nl (or_intror q)) E) as (C & D).
    rewrite done_app, pubs_app, says_n_app. lia.
  Qed.
End Text.

(** ** Who writes what *)
Lemma index_found p l : forall n k i, index p l n = Some (k, i) -> exists j, k = n + j /\ nth_error l j = Some i /\ p i = true.
Proof.
  induction l as [|a l IH]; intros n k i H; cbn in H; [discriminate H|]. destruct (p a) eqn:P.
  - injection H as <- <-. exists 0. rewrite Nat.add_0_r. auto.
  - destruct (IH _ _ _ H) as (j & -> & N & Q). exists (S j). split; [lia|auto].
Qed.
Lemma index_first {B} (g : yinst -> B) p l : (forall a b, p a = true -> p b = true -> g a = g b) -> NoDup (map g l) ->
  forall n j i, nth_error l j = Some i -> p i = true -> index p l n = Some (n + j, i).
Proof.
  intros Pg. induction l as [|a l IH]; intros Nd n j i N P; [destruct j; discriminate N|]. cbn in Nd. inversion Nd as [|x xs Na Nl]; subst. destruct j as [|j]; cbn in N |- *.
  - injection N as ->. rewrite P, Nat.add_0_r. reflexivity.
  - destruct (p a) eqn:Pa.
    + elim Na. rewrite (Pg a i Pa P). apply in_map. eapply nth_error_In; eauto.
    + rewrite (IH Nl _ _ _ N P). f_equal. f_equal. lia.
Qed.

Lemma says_is sd so is c k l : distinct is -> says sd so is c = Some (k, l) <-> to_write sd so is c k l.
Proof.
  intros (D1 & D2). split.
  - intros H. unfold says in H. destruct c as [u m|u d|p id u d|co id u d]; try discriminate H.
    + destruct (index (fun i => Nat.eqb (yi_hear i) u) is 0) as [(k0 & i)|] eqn:X; [|discriminate H]. destruct (get_string d) as [s| | |] eqn:Gs; try discriminate H. injection H as <- <-.
      destruct (index_found _ _ _ _ _ X) as (j & -> & N & P). apply Nat.eqb_eq in P. exists i. split; [exact N|]. split; [reflexivity|]. split; [reflexivity|]. left. exists s. split; [|reflexivity].
      unfold get_string in Gs. destruct d as [|[]| |]; try discriminate Gs. injection Gs as <-. now rewrite P.
    + destruct (index (fun i => Nat.eqb (yi_answer i) u) is 0) as [(k0 & i)|] eqn:X; [|discriminate H]. injection H as <- <-.
      destruct (index_found _ _ _ _ _ X) as (j & -> & N & P). apply Nat.eqb_eq in P. exists i. split; [exact N|]. split; [reflexivity|]. split; [reflexivity|]. right. exists p, id, d. now rewrite P.
  - intros (i & N & E1 & E2 & [(s & -> & E3)|(p & id & d & -> & E3)]); unfold says; destruct l as [a b n]; cbn in *; subst.
    + rewrite (index_first yi_hear (fun i0 => Nat.eqb (yi_hear i0) (yi_hear i)) is) with (j := k) (i := i); [reflexivity| |exact D1|exact N|apply Nat.eqb_refl].
      intros a b A B. apply Nat.eqb_eq in A, B. congruence.
    + rewrite (index_first yi_answer (fun i0 => Nat.eqb (yi_answer i0) (yi_answer i)) is) with (j := k) (i := i); [reflexivity| |exact D2|exact N|apply Nat.eqb_refl].
      intros a b A B. apply Nat.eqb_eq in A, B. congruence.
Qed.

Lemma due_lines sd so is cs : distinct is -> lines_for sd so is cs (due sd so is cs).
Proof.
  intros D. induction cs as [|c cs IH]; [constructor|]. unfold due. cbn [flat_map]. fold (due sd so is cs). destruct (says sd so is c) as [(k & l)|] eqn:S.
  - cbn. apply lf_line; [apply says_is; assumption|exact IH].
  - cbn. apply lf_none; [|exact IH]. intros k l W. apply says_is in W; [congruence|exact D].
Qed.

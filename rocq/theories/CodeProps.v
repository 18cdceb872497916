(** C79: code of plugin libraries that have been closed. *)
From Coq Require Import List Arith Bool Lia.
From Verif Require Import Prelude OwnModel OwnProofs CodeModel CodeSpec CodeProofs.
Import ListNotations.
Open Scope list_scope.

(** * C79 *)

Lemma close_step l st st' r e : cstep (Close l) st = Some (st', r, e) -> cinv st ->
  0 < l /\ (forall x, ~ In (l, x) (c_who st)) /\ In (0, 0) (c_who st) /\ st' = mkC (c_heap st) (c_owner st) (c_who st) (c_up st) (l :: c_closed st) /\ r = Fine.
Proof.
  intros H C. destruct (cstep_kind _ _ _ _ _ H C) as [l0 l' o P Pr K|X|l0 X Up Hl Nc Nw H0 -> -> _]; try discriminate.
  - exfalso. destruct K as [(X & _)|[(X & _)|[(X & _)|[(X & _)|(X & _)]]]]; discriminate.
  - injection X as <-. auto.
Qed.

(** Whose code a call runs: a call on a publisher, subscriber, provider or consumer that uses or replaces its callback, and every
    one of these objects that ceases to be, count for the library that made the object; nothing else does. *)
Theorem C79_code : forall ls st lg ev l o st' r e x k,
  cexec ls c_init = Some (st, lg, ev) -> cstep (By l o) st = Some (st', r, e) \/ cstep (Call o) st = Some (st', r, e) ->
  (In (x, k) e <->
   k = owner st x /\ (forall f ks ps, get x (c_heap st) <> BusO f ks ps) /\
   ((exists i, o = Answer x i) \/ (exists y, o = Take x y) \/ (exists caps, o = SetCallback x caps) \/ o = Reset x \/ (exists b, o = DeleteSub b x) \/
    (exists b, o = DeletePub b x) \/ get x (c_heap st) <> Dead /\ get x (c_heap st') = Dead)).
Proof.
  intros ls st lg ev l o st' r e x k X S. pose proof (cexec_cinv _ _ _ _ _ X cinv_init) as C.
  assert (exists a b, perform a b o st = Some (st', r, e)) as (a & b & P).
  { destruct S as [S|S]; simpl in S; destruct o; try discriminate S;
      repeat match type of S with (if ?c then _ else _) = _ => destruct c; [|discriminate S] end; eauto. }
  clear S. unfold perform in P. destruct (ostep o (own_of st)) as [[w r1]|]; [|discriminate].
  assert (c_heap st' = w_heap w /\ e = events st o (w_heap w)) as (Eh & ->) by (destruct r1; try discriminate P; injection P as <- _ <-; auto). clear P.
  rewrite Eh. unfold events. rewrite in_map_iff.
  assert (In x (operands o) <-> ((exists i, o = Answer x i) \/ (exists y, o = Take x y) \/ (exists caps, o = SetCallback x caps) \/ o = Reset x \/ (exists b, o = DeleteSub b x) \/ (exists b, o = DeletePub b x))) as Ho.
  { destruct o; simpl; (split; [intros []; try contradiction; subst; eauto 10|]); intros Q; repeat (destruct Q as [Q|Q]; try (destruct Q as (? & Q)); try discriminate Q; try (injection Q as <-; auto; fail); try (injection Q as <- <-; auto; fail)); try (destruct Q as (? & Q)); try discriminate Q; try (injection Q as <- <-; auto). }
  assert (In x (freed (c_heap st) (w_heap w)) <-> get x (c_heap st) <> Dead /\ get x (w_heap w) = Dead) as Hf.
  { unfold freed. rewrite filter_In, andb_true_iff, negb_true_iff, in_seq. rewrite (allocated_get x (c_heap st)). unfold allocated. split.
    - intros (_ & L & D). split; auto. destruct (get x (w_heap w)); auto; discriminate.
    - intros (L & D). rewrite D. split; [|split; auto]. split; [lia|]. apply get_live in L. lia. }
  assert (negb (is_busO (get x (c_heap st))) = true <-> forall f ks ps, get x (c_heap st) <> BusO f ks ps) as Hb.
  { destruct (get x (c_heap st)); simpl; split; auto; intros; try congruence. exfalso. eapply H; eauto. }
  split.
  - intros (y & E & J). injection E as -> <-. apply filter_In in J as (J & B). apply in_app_or in J. rewrite Hb in B. rewrite Ho, Hf in J. split; auto. split; auto. tauto.
  - intros (-> & B & J). exists x. split; auto. apply filter_In. rewrite Hb. split; auto. apply in_or_app. rewrite Ho, Hf. tauto.
Qed.
Print Assumptions C79_code.

(** A library that has deleted every publisher and subscriber it made, whatever its callbacks captured, is never entered again
    once it was closed. *)
Theorem C79_safe : forall l ls1 st1 lg1 ev1 st1' r e ls2 st2 lg2 ev2,
  cexec ls1 c_init = Some (st1, lg1, ev1) -> cstep (Close l) st1 = Some (st1', r, e) -> cexec ls2 st1' = Some (st2, lg2, ev2) ->
  (forall b x, made lg1 l b x -> deleted lg1 l b x) ->
  forall x, ~ In (x, l) ev2.
Proof.
  intros l ls1 st1 lg1 ev1 st1' r e ls2 st2 lg2 ev2 X1 S X2 Md x.
  pose proof (cexec_cinv _ _ _ _ _ X1 cinv_init) as C1. pose proof (pinv_exec _ _ _ [] _ _ X1 cinv_init pinv_init) as P1. simpl in P1.
  pose proof (cstep_cinv _ _ _ _ _ S C1) as C1'. destruct (close_step _ _ _ _ _ S C1) as (Hl & Nh & H0 & -> & _).
  eapply left_exec; eauto; [simpl; auto|]. intros y O D B. destruct (close_left _ _ _ C1 P1 Hl Nh Md y O D B) as (z & Q). exists z. exact Q.
Qed.
Print Assumptions C79_safe.

(** One it forgot exists when the library is closed; its code is run when the root bus is gone, unless callbacks captured
    something. *)
Theorem C79_unsafe : forall l ls1 st1 lg1 ev1 st1' r e ls2 st2 lg2 ev2 b x,
  cexec ls1 c_init = Some (st1, lg1, ev1) -> cstep (Close l) st1 = Some (st1', r, e) -> cexec ls2 st1' = Some (st2, lg2, ev2) ->
  made lg1 l b x -> ~ deleted lg1 l b x ->
  get x (c_heap st1') <> Dead /\
  (Forall captures_nothing (ls1 ++ ls2) -> c_who st2 = [] -> In (x, l) ev2).
Proof.
  intros l ls1 st1 lg1 ev1 st1' r e ls2 st2 lg2 ev2 b x X1 S X2 M Nd.
  pose proof (cexec_cinv _ _ _ _ _ X1 cinv_init) as C1. pose proof (pinv_exec _ _ _ [] _ _ X1 cinv_init pinv_init) as P1. simpl in P1.
  pose proof (cstep_cinv _ _ _ _ _ S C1) as C1'. pose proof (pinv_step _ _ _ _ _ _ S C1 P1) as P1'.
  pose proof (pinv_exec _ _ _ _ _ _ X2 C1' P1') as P2. pose proof (cexec_cinv _ _ _ _ _ X2 C1') as C2.
  destruct (close_step _ _ _ _ _ S C1) as (Hl & Nh & H0 & E & _).
  assert (get x (c_heap st1') <> Dead) as D.
  { subst st1'. simpl. destruct (p_made _ _ P1 _ _ _ M) as (_ & _ & _ & _ & _ & _ & [G|[G|G]]); [contradiction| |].
    - apply (oi_ref _ (ci_o _ C1)). right. exists b. now apply partof_refs.
    - destruct (p_bus _ _ P1 H0 _ _ _ M) as (f & k & ps & X). congruence. }
  split; auto. intros Nc W. apply Forall_app in Nc as (Nc1 & Nc2).
  assert (plain st1') as Pl1. { subst st1'. exact (plain_exec _ _ _ _ _ X1 cinv_init Nc1 plain_init). }
  assert (made ((lg1 ++ [(Close l, r)]) ++ lg2) l b x) as M2.
  { destruct M as [M|(c & M)]; [left|right; exists c]; apply in_or_app; left; apply in_or_app; auto. }
  destruct (p_made _ _ P1' l b x) as (_ & _ & O & _ & _ & B & _). { destruct M as [M|(c & M)]; [left|right; exists c]; apply in_or_app; auto. }
  rewrite <- O. eapply freed_exec; eauto.
  destruct (p_made _ _ P2 _ _ _ M2) as (_ & _ & _ & _ & Nm & _). destruct (get x (c_heap st2)) eqn:G; auto; exfalso; apply Nm; apply (plain_end _ C2); auto; try congruence; eapply plain_exec; eauto.
Qed.
Print Assumptions C79_unsafe.

(** Together: without captures, the code of a closed library is run if and only if it forgot to delete something. *)
Theorem C79_exact : forall l ls1 st1 lg1 ev1 st1' r e ls2 st2 lg2 ev2,
  cexec ls1 c_init = Some (st1, lg1, ev1) -> cstep (Close l) st1 = Some (st1', r, e) -> cexec ls2 st1' = Some (st2, lg2, ev2) ->
  Forall captures_nothing (ls1 ++ ls2) -> c_who st2 = [] ->
  ((exists x, In (x, l) ev2) <-> exists b x, made lg1 l b x /\ ~ deleted lg1 l b x).
Proof.
  intros l ls1 st1 lg1 ev1 st1' r e ls2 st2 lg2 ev2 X1 S X2 Nc W. split.
  - intros (x & J). destruct (made_cases lg1 lg1 l) as [A|A]; auto. exfalso. exact (C79_safe _ _ _ _ _ _ _ _ _ _ _ _ X1 S X2 A _ J).
  - intros (b & x & M & N). exists x. destruct (C79_unsafe _ _ _ _ _ _ _ _ _ _ _ _ _ _ X1 S X2 M N); auto.
Qed.
Print Assumptions C79_exact.

(** When it happens, it is the root bus that is being destroyed, after the last pointer to it was let go. *)
Theorem C79_when : forall l ls st lg ev lb st' r e x,
  cexec ls c_init = Some (st, lg, ev) -> In l (c_closed st) -> cstep lb st = Some (st', r, e) -> In (x, l) e ->
  lb = DropRoot /\ c_who st' = [] /\ get 0 (c_heap st) <> Dead.
Proof.
  intros l ls st lg ev lb st' r e x X Cl S J. pose proof (cexec_cinv _ _ _ _ _ X cinv_init) as C.
  destruct (closed_root _ _ _ _ _ _ _ S C Cl J) as (-> & W). split; auto. split; auto.
  apply (oi_ref _ (ci_o _ C)). left. simpl. simpl in S. destruct (negb (c_up st) && has 0 0 st) eqn:E; [|discriminate]. apply andb_true_iff in E as (_ & E). apply has_in in E. apply in_map_iff. exists (0, 0). auto.
Qed.
Print Assumptions C79_when.

(** A bus a plugin created cannot be removed by it: it exists when the library is closed, and is destroyed later. *)
Theorem C79_bus : forall l ls1 st1 lg1 ev1 st1' r e ls2 st2 lg2 ev2 b x,
  cexec ls1 c_init = Some (st1, lg1, ev1) -> cstep (Close l) st1 = Some (st1', r, e) -> cexec ls2 st1' = Some (st2, lg2, ev2) ->
  In (By l (NewChild b), New x) lg1 ->
  (exists f k ps, get x (c_heap st1') = BusO f k ps) /\
  (Forall captures_nothing (ls1 ++ ls2) -> c_who st2 = [] -> get x (c_heap st2) = Dead).
Proof.
  intros l ls1 st1 lg1 ev1 st1' r e ls2 st2 lg2 ev2 b x X1 S X2 J.
  pose proof (cexec_cinv _ _ _ _ _ X1 cinv_init) as C1. pose proof (cstep_cinv _ _ _ _ _ S C1) as C1'. pose proof (cexec_cinv _ _ _ _ _ X2 C1') as C2.
  destruct (close_step _ _ _ _ _ S C1) as (Hl & Nh & H0 & E & _). destruct (bus_exec _ _ _ _ _ X1 cinv_init H0) as (_ & _ & Nb). pose proof (Nb _ _ _ J) as B.
  split; [subst st1'; exact B|]. intros Nc W. apply Forall_app in Nc as (Nc1 & Nc2).
  assert (plain st2) as P2. { eapply plain_exec; eauto. subst st1'. exact (plain_exec _ _ _ _ _ X1 cinv_init Nc1 plain_init). }
  destruct (allocated x (c_heap st2)) eqn:A; [exfalso|unfold allocated in A; destruct (get x (c_heap st2)); auto; discriminate].
  apply allocated_get in A. pose proof (plain_end _ C2 P2 W _ A) as M. revert M.
  assert (isbus x (c_heap st1')) as B1 by (subst st1'; exact B). clear - X2 C1' A B1 C2.
  intros M. apply (member_nobus _ _ C2 M). revert st1' lg2 ev2 X2 C1' B1. induction ls2 as [|lb ls2 IH]; intros st1' lg2 ev2 X2 C1 B1; simpl in X2; [injection X2 as <- _ _; auto|].
  destruct (cstep lb st1') as [[[st3 r3] e3]|] eqn:S; [|discriminate]. destruct (cexec ls2 st3) as [[[st4 lg4] e4]|] eqn:E4; [|discriminate]. injection X2 as <- _ _.
  eapply IH; eauto; [eapply cstep_cinv; eauto|]. pose proof (cexec_cinv _ _ _ _ _ E4 (cstep_cinv _ _ _ _ _ S C1)) as C4.
  destruct (cstep_kind _ _ _ _ _ S C1) as [l0 l' o Pf Pr K| -> Up -> _ _|l0 -> Up Hl Nc Nw H0 -> _ _]; auto.
  destruct (perform_frame _ _ _ _ _ _ _ Pf C1 Pr) as (h1 & F & L & K1 & _). apply (fr_bus' _ _ _ _ F) in B1. destruct (K1 x) as [D|D]; [|now apply (isbus_like _ _ _ D)].
  exfalso. apply A. assert (forall ls s s' g v, cexec ls s = Some (s', g, v) -> cinv s -> x < length (c_heap s) -> get x (c_heap s) = Dead -> get x (c_heap s') = Dead) as Dd.
  { clear. induction ls as [|lb ls IH]; intros s s' g v H C Lx D; simpl in H; [injection H as <- _ _; auto|].
    destruct (cstep lb s) as [[[s1 r1] e1]|] eqn:S; [|discriminate]. destruct (cexec ls s1) as [[[s2 g2] e2]|] eqn:E2; [|discriminate]. injection H as <- _ _.
    destruct (cstep_heap _ _ _ _ _ S C) as (_ & Le). eapply IH; eauto; [eapply cstep_cinv; eauto|lia|].
    destruct (cstep_kind _ _ _ _ _ S C) as [l0 l' o Pf Pr K| -> Up -> _ _|l0 -> Up Hl Nc Nw H0 -> _ _]; auto.
    destruct (perform_frame _ _ _ _ _ _ _ Pf C Pr) as (h1 & F & L & K1 & _). destruct (K1 x) as [X|X]; auto. apply (like_dead _ _ X). eapply fr_dead; eauto. }
  eapply Dd; eauto; [eapply cstep_cinv; eauto|]. apply isbus_lt in B1. lia.
Qed.
Print Assumptions C79_bus.

(** "The code of a library that was closed is never run" is false: a plugin that forgot its subscriber. *)
Definition ending : list clabel := [DropRoot; DropRoot].
Theorem C79_refuted : exists ls1 st1 lg1 ev1 st1' r e st2 lg2 ev2,
  cexec ls1 c_init = Some (st1, lg1, ev1) /\ cstep (Close 1) st1 = Some (st1', r, e) /\ cexec ending st1' = Some (st2, lg2, ev2) /\ In (2, 1) ev2.
Proof.
  exists [Instantiate 1; By 1 (NewSub 1 []); By 1 (Drop 2); End; DetachRoot; By 1 (Drop 1)].
  do 9 eexists. split; [vm_compute; reflexivity|]. split; [vm_compute; reflexivity|]. split; [vm_compute; reflexivity|]. simpl. auto.
Qed.
Print Assumptions C79_refuted.

(** SysInfo (SysInfo.cpp:17-68): publisher 2, subscriber 3, action provider 6 (with 4 and 5), which is never freed. It is safe,
    and so is Link (Link.cpp:279-284), here as library 2 with bus 7 and subscriber 8. *)
Definition both : list clabel :=
  [Instantiate 1; By 1 (NewPub 1); By 1 (NewSub 1 []); By 1 (NewProv 1 []);
   Instantiate 2; By 2 (NewSub 7 []); By 1 (Publish 2); End; DetachRoot;
   By 1 (DeleteSub 1 3); By 1 (Drop 3); By 1 (DeletePub 1 2); By 1 (Drop 2); By 1 (Drop 6); By 1 (Drop 1)].
Example C79_safe_meets : exists st1 lg1 ev1 st1' r e st2 lg2 ev2,
  cexec both c_init = Some (st1, lg1, ev1) /\ cstep (Close 1) st1 = Some (st1', r, e) /\
  cexec [By 2 (DeleteSub 7 8); By 2 (Drop 8); By 2 (Drop 7); Close 2; DropRoot; DropRoot] st1' = Some (st2, lg2, ev2) /\
  (forall b x, made lg1 1 b x -> deleted lg1 1 b x) /\ made lg1 1 1 3 /\ ev1 <> [] /\ ev2 = [(8, 2); (8, 2)] /\ c_who st2 = [] /\
  map (fun x => get x (c_heap st2)) [0; 1; 2; 3; 6; 7; 8] = [Dead; Dead; Dead; Dead; ProvO 4 5 []; Dead; Dead].
Proof.
  do 9 eexists. split; [vm_compute; reflexivity|]. split; [vm_compute; reflexivity|]. split; [vm_compute; reflexivity|].
  split; [|split; [|split; [discriminate|split; [vm_compute; reflexivity|split; vm_compute; reflexivity]]]].
  - intros b x [J|(c & J)]; simpl in J; repeat (destruct J as [J|J]; [try discriminate J; injection J; intros; subst; unfold deleted; simpl; auto 20|]); contradiction.
  - right. exists []. simpl. auto 10.
Qed.

(** A plugin with two subscribers that deletes one of them, and creates a bus. *)
Example C79_unsafe_meets : exists st1 lg1 ev1 st1' r e st2 lg2 ev2,
  cexec [Instantiate 1; By 1 (NewSub 1 []); By 1 (NewSub 1 []); By 1 (NewChild 1); By 1 (DeleteSub 1 2); By 1 (Drop 2); By 1 (Drop 3); By 1 (Drop 4); End; DetachRoot; By 1 (Drop 1)] c_init
    = Some (st1, lg1, ev1) /\ cstep (Close 1) st1 = Some (st1', r, e) /\
  cexec ending st1' = Some (st2, lg2, ev2) /\ made lg1 1 1 3 /\ ~ deleted lg1 1 1 3 /\ deleted lg1 1 1 2 /\ In (By 1 (NewChild 1), New 4) lg1 /\ c_who st2 = [] /\ ev2 = [(3, 1)].
Proof.
  do 9 eexists. split; [vm_compute; reflexivity|]. split; [vm_compute; reflexivity|]. split; [vm_compute; reflexivity|].
  split; [right; exists []; simpl; auto 10|]. split; [|split; [right; simpl; auto 10|split; [simpl; auto 10|split; reflexivity]]].
  intros [J|J]; simpl in J; repeat (destruct J as [J|J]; [discriminate J|]); contradiction.
Qed.
Example C79_unsafe_captures : Forall captures_nothing ([Instantiate 1; By 1 (NewSub 1 []); By 1 (NewSub 1 []); By 1 (NewChild 1); By 1 (DeleteSub 1 2); By 1 (Drop 2); By 1 (Drop 3); By 1 (Drop 4); End; DetachRoot; By 1 (Drop 1)] ++ ending).
Proof. repeat constructor. Qed.

(** With a capture it may never be destroyed: two subscribers that captured each other, both forgotten. *)
Example C79_capture : exists st1 lg1 ev1 st1' r e st2 lg2 ev2,
  cexec [Instantiate 1; By 1 (NewSub 1 []); By 1 (NewSub 1 [2]); By 1 (SetCallback 2 [3]); By 1 (Drop 2); By 1 (Drop 3); End; DetachRoot; By 1 (Drop 1)] c_init
    = Some (st1, lg1, ev1) /\ cstep (Close 1) st1 = Some (st1', r, e) /\
  cexec ending st1' = Some (st2, lg2, ev2) /\ made lg1 1 1 2 /\ ~ deleted lg1 1 1 2 /\ c_who st2 = [] /\ ev2 = [].
Proof.
  do 9 eexists. split; [vm_compute; reflexivity|]. split; [vm_compute; reflexivity|]. split; [vm_compute; reflexivity|].
  split; [right; exists []; simpl; auto 10|]. split; [|split; reflexivity].
  intros [J|J]; simpl in J; repeat (destruct J as [J|J]; [discriminate J|]); contradiction.
Qed.

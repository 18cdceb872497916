(** C89: signals on the three platforms. *)
From Coq Require Import List Arith Bool Lia.
From Verif Require Import LifeModel ProgModel ProgProps SigModel.
Import ListNotations.

(** * Specification *)

(** The signals the platform's code asks for. *)
Definition wanted (p : platform) (k : sigkind) : Prop :=
  match p with Xnix => k = SigInt \/ k = SigTerm | Osx => False | Windows => True end.

Definition is_signal (l : slabel) : bool := match l with SSignal _ => true | _ => false end.

(** * Lemmas *)

Lemma sexec_snoc p ls : forall l s s2 e o, sexec p (ls ++ [l]) s = Some (s2, e, o) ->
  exists s1 e1 o1 e2 o2, sexec p ls s = Some (s1, e1, o1) /\ sstep p l s1 = Some (Some (s2, e2, o2)) /\ e = e1 ++ e2 /\ o = o1 ++ o2.
Proof.
  induction ls as [|a ls IH]; intros l s s2 e o H; simpl in H.
  - destruct (sstep p l s) as [[[[s1 e1] o1]|]|] eqn:E; try discriminate. injection H as <- <- <-. exists s, [], [], e1, o1. rewrite !app_nil_r. auto.
  - simpl. destruct (sstep p a s) as [[[[s1 e1] o1]|]|] eqn:E; try discriminate. destruct (sexec p (ls ++ [l]) s1) as [[[s3 e3] o3]|] eqn:E3; [|discriminate]. injection H as <- <- <-.
    destruct (IH _ _ _ _ _ E3) as (s4 & e4 & o4 & e5 & o5 & X & Y & -> & ->). rewrite X. exists s4, (e1 ++ e4), (o1 ++ o4), e5, o5. rewrite !app_assoc. auto.
Qed.
Lemma pexec_snoc' ls : forall l s s1 e1 o1 s2 e2 o2, pexec ls s = Some (s1, e1, o1) -> pstep l s1 = Some (Some (s2, e2, o2)) ->
  pexec (ls ++ [l]) s = Some (s2, e1 ++ e2, o1 ++ o2).
Proof.
  induction ls as [|a ls IH]; intros l s s1 e1 o1 s2 e2 o2 X Y; simpl in *.
  - injection X as <- <- <-. rewrite Y. simpl. now rewrite !app_nil_r.
  - destruct (pstep a s) as [[[[s3 e3] o3]|]|]; try discriminate. destruct (pexec ls s3) as [[[s4 e4] o4]|] eqn:E; [|discriminate]. injection X as <- <- <-.
    rewrite (IH _ _ _ _ _ _ _ _ E Y). now rewrite !app_assoc.
Qed.
Lemma kind_eqb_eq a b : kind_eqb a b = true <-> a = b.
Proof. destruct a, b; simpl; split; congruence. Qed.
Lemma hooks_wanted p k : hooks p k = true <-> wanted p k.
Proof. destruct p, k; simpl; intuition congruence. Qed.
Lemma shuts_hooks p k : shuts_down p k = hooks p k.
Proof. destruct p, k; reflexivity. Qed.

(** Only PHook leads out of PBegin, only it is possible there, and nothing leads back. *)
Lemma pstep_begin l s g e o : pstep l s = Some (Some (g, e, o)) -> pg_pc g <> PBegin /\ (l = PHook <-> pg_pc s = PBegin).
Proof.
  destruct s as [pc f]. destruct l as [| |x| |l|]; destruct pc; cbn; try discriminate; intros H;
    repeat match type of H with context [match ?x with _ => _ end] => destruct x; try discriminate end;
    injection H as <- <- <-; cbn; split; try discriminate; split; congruence.
Qed.
(** Events and output of a signal. *)
Lemma pstep_signal s g e o : pstep PSignal s = Some (Some (g, e, o)) ->
  e = [] /\ o = [] /\ pg_pc g = pg_pc s /\ pg_pc s <> PBegin /\ pg_pc s <> PExit /\ (forall x, pg_pc s <> PAbort x).
Proof.
  destruct s as [pc f]. cbn. destruct pc; try discriminate; destruct (lf_made f && lf_bus f); try discriminate;
    intros H; injection H as <- <- <-; cbn; repeat split; discriminate.
Qed.

Record sinv (p : platform) (ls : list slabel) (s : sproc) (e : list levent) (o : list line) (pls : list plabel) : Prop := mkSI {
  si_run : pexec pls prog_init = Some (sp_prog s, e, o);
  si_sig : In PSignal pls -> exists k, In (SSignal k) ls /\ wanted p k;
  si_make : forall l, l <> PSignal -> In l pls <-> In (SMain l) ls;
  si_exit : sp_end s = Some EndExit <-> pg_pc (sp_prog s) = PExit;
  si_hook : sp_end s = None -> forall k, sp_hook s k = true <->
    pg_pc (sp_prog s) <> PBegin /\ wanted p k /\ (p = Windows -> ~ In (SSignal k) ls);
  si_none : sp_end s = None -> pg_pc (sp_prog s) = PBegin -> ls = [];
  si_kill : forall k, sp_end s = Some (EndSignal k) -> exists ls0, ls = ls0 ++ [SSignal k];
  si_abort : sp_end s = Some EndAbort -> exists ls0, ls = ls0 ++ [SAbort];
  si_other : sp_end s = None -> forall k, In (SSignal k) ls -> wanted p k
}.

Lemma sinv_ok p ls : forall s e o, sexec p ls sinit = Some (s, e, o) -> exists pls, sinv p ls s e o pls.
Proof.
  induction ls as [|l ls IH] using rev_ind; intros s2 e o X.
  { injection X as <- <- <-. exists []. constructor; simpl; auto; try discriminate; try tauto; try (split; discriminate).
    intros _ k. split; [discriminate|]. intros (A & _). now destruct A. }
  destruct (sexec_snoc _ _ _ _ _ _ _ X) as (s & e1 & o1 & e2 & o2 & X1 & St & -> & ->).
  destruct (IH _ _ _ X1) as (pls & [A B C D E F G H I]). clear IH X.
  unfold sstep in St. destruct (sp_end s) eqn:En; [discriminate|].
  destruct l as [l|k|].
  - assert (l <> PSignal /\ exists g, pstep l (sp_prog s) = Some (Some (g, e2, o2)) /\
      s2 = mkSP g (match l with PHook => hooks p | _ => sp_hook s end) (match pg_pc g with PExit => Some EndExit | _ => None end)) as (Nl & g & P & ->).
    { destruct l; try discriminate; split; try discriminate;
      match type of St with context [match ?x with _ => _ end] => destruct x as [[[[g e'] o']|]|] eqn:P; try discriminate end; injection St as <- <- <-; eauto. }
    clear St. exists (pls ++ [l]). destruct (pstep_begin _ _ _ _ _ P) as (NB & HB).
    assert (forall k, sp_end (mkSP g (match l with PHook => hooks p | _ => sp_hook s end) (match pg_pc g with PExit => Some EndExit | _ => None end)) <> Some (EndSignal k)) as K1
      by (intros k; cbn; destruct (pg_pc g); discriminate).
    constructor; cbn [sp_prog sp_hook sp_end] in *.
    + eapply pexec_snoc'; eauto.
    + intros J. apply in_app_iff in J as [J|[J|[]]]; [|congruence]. destruct (B J) as (k & J1 & J2). exists k. rewrite in_app_iff. auto.
    + intros l' Nl'. rewrite !in_app_iff. rewrite (C _ Nl'). simpl. intuition congruence.
    + destruct (pg_pc g); split; congruence.
    + intros Eg k. assert (forall a, In (SSignal k) (ls ++ [SMain a]) <-> In (SSignal k) ls) as Q by (intros a; rewrite in_app_iff; simpl; intuition discriminate).
      destruct l; try (rewrite (E eq_refl k), Q; assert (pg_pc (sp_prog s) <> PBegin) by (intros Z; apply HB in Z; discriminate); tauto).
      rewrite hooks_wanted, Q. rewrite (F eq_refl) by now apply HB. simpl. tauto.
    + intros _ Z. contradiction.
    + intros k Z. destruct (K1 k Z).
    + destruct (pg_pc g); discriminate.
    + intros Eg k J. apply in_app_iff in J as [J|[J|[]]]; [|discriminate]. eauto.
  - destruct (sp_hook s k) eqn:Hk.
    + pose proof (proj1 (E eq_refl k) Hk) as (NB & Wk & Nk). rewrite shuts_hooks in St. rewrite (proj2 (hooks_wanted p k) Wk) in St.
      set (h := if keeps p then sp_hook s else fun k' => if kind_eqb k k' then false else sp_hook s k') in *.
      assert (exists g, pstep PSignal (sp_prog s) = Some (Some (g, e2, o2)) /\ s2 = mkSP g h None) as (g & P & ->).
      { destruct (pg_pc (sp_prog s)) eqn:Pc; try discriminate; destruct (pstep PSignal (sp_prog s)) as [[[[g e'] o']|]|] eqn:P; try discriminate; injection St as <- <- <-; eauto. }
      clear St. exists (pls ++ [PSignal]). destruct (pstep_signal _ _ _ _ P) as (-> & -> & Pg & _ & NX & NA).
      constructor; cbn [sp_prog sp_hook sp_end] in *.
      * eapply pexec_snoc'; eauto.
      * intros _. exists k. rewrite in_app_iff. simpl. auto.
      * intros l' Nl'. rewrite !in_app_iff. rewrite (C _ Nl'). simpl. intuition congruence.
      * rewrite Pg. split; [discriminate|congruence].
      * intros _ k'. unfold h. rewrite in_app_iff, Pg. simpl. destruct p; simpl.
        -- rewrite (E eq_refl k'). split; intros (Z1 & Z2 & _); (split; [auto|split; [auto|discriminate]]).
        -- rewrite (E eq_refl k'). split; intros (Z1 & Z2 & _); (split; [auto|split; [auto|discriminate]]).
        -- destruct (kind_eqb k k') eqn:Kk.
           ++ apply kind_eqb_eq in Kk. subst k'. split; [discriminate|]. intros (_ & _ & Z). exfalso. apply Z; auto.
           ++ rewrite (E eq_refl k'). assert (k <> k') by (intros Z; apply kind_eqb_eq in Z; congruence).
              assert (SSignal k <> SSignal k') by congruence. simpl. intuition.
      * intros _ Z. congruence.
      * discriminate.
      * discriminate.
      * intros _ k' J. apply in_app_iff in J as [J|[J|[]]]; [eauto|]. now injection J as <-.
    + assert (s2 = ended s (EndSignal k) /\ e2 = [] /\ o2 = [] /\ pg_pc (sp_prog s) <> PExit) as (-> & -> & -> & NX).
      { rewrite <- D. split; [|split; [|split; [|discriminate]]]; destruct (pg_pc (sp_prog s)); try discriminate; injection St as <- <- <-; reflexivity. }
      exists pls. rewrite !app_nil_r. constructor; cbn [sp_prog sp_hook sp_end ended] in *; auto; try discriminate.
      * intros J. destruct (B J) as (k' & J1 & J2). exists k'. rewrite in_app_iff. auto.
      * intros l' Nl'. rewrite !in_app_iff. rewrite (C _ Nl'). simpl. intuition congruence.
      * split; [discriminate|congruence].
      * intros k' Z. injection Z as <-. eauto.
  - assert (s2 = ended s EndAbort /\ e2 = [] /\ o2 = [] /\ pg_pc (sp_prog s) <> PExit) as (-> & -> & -> & NX).
    { rewrite <- D. split; [|split; [|split; [|discriminate]]]; destruct (sp_hook s SigAbrt && shuts_down p SigAbrt);
      try (destruct (lstep LStop (pg_life (sp_prog s))) as [[[f' es]|]|]); try discriminate; injection St as <- <- <-; reflexivity. }
    exists pls. rewrite !app_nil_r. constructor; cbn [sp_prog sp_hook sp_end ended] in *; auto; try discriminate.
    + intros J. destruct (B J) as (k' & J1 & J2). exists k'. rewrite in_app_iff. auto.
    + intros l' Nl'. rewrite !in_app_iff. rewrite (C _ Nl'). simpl. intuition congruence.
    + split; [discriminate|congruence].
    + intros _. eauto.
Qed.

Lemma levent_dec (a b : levent) : {a = b} + {a <> b}.
Proof. decide equality. decide equality. Qed.

(** What of main's steps the application object shows. *)
Lemma life_facts ls : forall s e o, pexec ls prog_init = Some (s, e, o) ->
  (pg_pc s <> PBegin <-> In PHook ls) /\ (lf_made (pg_life s) = true <-> In PMake ls) /\
  (lf_made (pg_life s) = true -> lf_bus (pg_life s) = true <-> ~ In EvCleared e).
Proof.
  induction ls as [|l ls IH] using rev_ind; intros s2 e o X.
  { injection X as <- <- <-. simpl. repeat split; intros; try discriminate; try tauto. }
  destruct (pexec_snoc _ _ _ _ _ _ X) as (s & e1 & o1 & e2 & o2 & X1 & St & -> & ->).
  destruct (IH _ _ _ X1) as (A & B & C). destruct (pinv_ok _ _ _ _ X1) as [Pa Pb Pc Pd _ _].
  destruct (pstep_begin _ _ _ _ _ St) as (NB & HB). split.
  { rewrite in_app_iff. simpl. rewrite <- A. split; [intros _|auto]. destruct (pg_pc s) eqn:E; try (left; discriminate). right. left. tauto. }
  rewrite !in_app_iff. destruct s as [pc f]. cbn in *. clear A NB HB X X1 IH.
  destruct l as [| |x| |l|]; cbn in St; destruct pc as [| | | | |y]; cbn in St; try discriminate.
  - injection St as <- <- <-. cbn. intuition (discriminate || auto).
  - destruct (Pb eq_refl) as (-> & -> & _). cbn in St. injection St as <- <- <-. cbn. intuition discriminate.
  - injection St as <- <- <-. cbn. intuition (discriminate || auto).
  - destruct (Pc eq_refl) as (M & Bu & P & -> & _). unfold lstep in St. rewrite P, M in St. injection St as <- <- <-. cbn. rewrite Bu. intuition (discriminate || auto).
  - destruct (Pd eq_refl) as (M & NI & -> & _ & Bu & _). destruct f as [m p b sh r]. cbn in *. subst m.
    assert (~ In EvCleared (upto p) <-> p <> Cleared) as Q by (destruct p; simpl; intuition congruence).
    destruct l as [| |x| | | |n| | | | | |]; try discriminate; destruct p as [| | | | |[|k]| | | |]; cbn in St; try discriminate; try congruence;
      try (assert (b = true) as -> by (apply Bu; discriminate)); try (destruct x); try (destruct sh; try discriminate); injection St as <- <- <-;
      cbn; intuition (discriminate || auto).
  - exfalso. destruct (Pb eq_refl) as (-> & _). discriminate.
  - destruct (Pc eq_refl) as (M & Bu & P & -> & _). rewrite M, Bu in St. injection St as <- <- <-. cbn. intuition (discriminate || auto).
  - destruct (lf_made f && lf_bus f); [|discriminate]. injection St as <- <- <-. cbn. intuition (discriminate || auto).
Qed.

(** Between main:24 and main:36 nothing can have happened: the first handled signal is undefined, any other the end. *)
Lemma just_hooked p ls : forall s e o, sexec p ls sinit = Some (s, e, o) -> sp_end s = None -> pg_pc (sp_prog s) = PHooked -> ls = [SMain PHook].
Proof.
  destruct ls as [|l ls _] using rev_ind; intros s2 e o X En Pc; [injection X as <- <- <-; discriminate|].
  destruct (sexec_snoc _ _ _ _ _ _ _ X) as (s & e1 & o1 & e2 & o2 & X1 & St & -> & ->). destruct (sinv_ok _ _ _ _ _ X1) as (pls & [A B C D E F G H I]).
  unfold sstep in St. destruct (sp_end s) eqn:En1; [discriminate|]. destruct l as [l|k|].
  - assert (exists g, pstep l (sp_prog s) = Some (Some (g, e2, o2)) /\ sp_prog s2 = g /\ l <> PSignal) as (g & P & Eg & Nl).
    { destruct l; try discriminate; match type of St with context [match ?x with _ => _ end] => destruct x as [[[[g e'] o']|]|] eqn:P; try discriminate end;
        injection St as <- <- <-; exists g; repeat split; auto; discriminate. }
    rewrite Eg in Pc. clear St. destruct (sp_prog s) as [pc f]. destruct l as [| |x| |l|]; cbn in P; destruct pc; try discriminate; try congruence;
      repeat match type of P with context [match ?x with _ => _ end] => destruct x; try discriminate end; injection P as <- <- <-; try discriminate.
    rewrite (F eq_refl eq_refl). reflexivity.
  - exfalso. destruct (sp_hook s k) eqn:Hk.
    + pose proof (proj1 (E eq_refl k) Hk) as (NB & Wk & Nk). rewrite shuts_hooks, (proj2 (hooks_wanted p k) Wk) in St.
      assert (exists g, pstep PSignal (sp_prog s) = Some (Some (g, e2, o2)) /\ sp_prog s2 = g) as (g & P & <-).
      { destruct (pg_pc (sp_prog s)); try discriminate; destruct (pstep PSignal (sp_prog s)) as [[[[g e'] o']|]|] eqn:P; try discriminate; injection St as <- <- <-; eauto. }
      destruct (pstep_signal _ _ _ _ P) as (_ & _ & Pg & _). rewrite Pc in Pg. destruct (pinv_ok _ _ _ _ A) as [_ Pb _ _ _ _]. destruct (Pb (eq_sym Pg)) as (Li & _).
      destruct (sp_prog s) as [pc f]. cbn in *. subst pc f. discriminate.
    + destruct (pg_pc (sp_prog s)); try discriminate; injection St as <- <- <-; discriminate.
  - exfalso. destruct (sp_hook s SigAbrt && shuts_down p SigAbrt); try (destruct (lstep LStop (pg_life (sp_prog s))) as [[[f' es]|]|]); try discriminate; injection St as <- <- <-; discriminate.
Qed.

(** * C89 *)

(** On every platform main does what it does in C80 with the signals its handlers get. *)
Theorem C89_refines : forall p ls s e o, sexec p ls sinit = Some (s, e, o) ->
  exists pls, pexec pls prog_init = Some (sp_prog s, e, o) /\ (In PSignal pls -> exists k, In (SSignal k) ls /\ wanted p k) /\
    forall l, l <> PSignal -> In l pls <-> In (SMain l) ls.
Proof. intros p ls s e o X. destruct (sinv_ok _ _ _ _ _ X) as (pls & [A B C D E F G H I]). exists pls. auto. Qed.
Print Assumptions C89_refines.

(** How the process ends: with success exactly if LampPost::Start has returned, and then everything has been torn down and a signal
    the platform asked for has come; or by the last signal or abort. *)
Theorem C89_ends : forall p ls s e o, sexec p ls sinit = Some (s, e, o) ->
  (sp_end s = Some EndExit <-> In EvReturned e) /\
  (In EvReturned e -> e = [EvBusStarted; EvBusEnded; EvDetached; EvUnloaded; EvCleared; EvReturned] /\ exists k, In (SSignal k) ls /\ wanted p k) /\
  (forall k, sp_end s = Some (EndSignal k) -> exists ls0, ls = ls0 ++ [SSignal k]) /\
  (sp_end s = Some EndAbort -> exists ls0, ls = ls0 ++ [SAbort]).
Proof.
  intros p ls s e o X. destruct (sinv_ok _ _ _ _ _ X) as (pls & [A B C D E F G H I]). destruct (C80_exit _ _ _ _ A) as (X1 & _ & X2).
  split; [rewrite D; exact X1|]. split; [|auto]. intros J. destruct (X2 J) as (Ee & l1 & l2 & s1 & o1 & -> & _). split; auto.
  apply B. apply in_app_iff. simpl. auto.
Qed.
Print Assumptions C89_ends.

(** Linux and other Unices: SIGINT and SIGTERM, however often, never end the process once main has hooked them. SIGABRT does. *)
Theorem C89_unix : forall ls s e o k, sexec Xnix ls sinit = Some (s, e, o) -> sp_end s = None -> pg_pc (sp_prog s) <> PBegin -> (forall x, pg_pc (sp_prog s) <> PAbort x) ->
  (k = SigInt \/ k = SigTerm ->
     pstep PSignal (sp_prog s) <> None /\ (pstep PSignal (sp_prog s) = Some None -> sstep Xnix (SSignal k) s = Some None) /\
     forall g e' o', pstep PSignal (sp_prog s) = Some (Some (g, e', o')) -> sstep Xnix (SSignal k) s = Some (Some (mkSP g (sp_hook s) None, e', o'))) /\
  (k = SigAbrt -> exists s', sstep Xnix (SSignal k) s = Some (Some (s', [], [])) /\ sp_end s' = Some (EndSignal SigAbrt)).
Proof.
  intros ls s e o k X En NB NA. destruct (sinv_ok _ _ _ _ _ X) as (pls & [A B C D E F G H I]). pose proof (E En k) as Ek. simpl in Ek.
  assert (pg_pc (sp_prog s) <> PExit) as NX by (intros Z; apply D in Z; congruence).
  unfold sstep. rewrite En. split.
  - intros K. assert (sp_hook s k = true) as Hk by (apply Ek; repeat split; auto; discriminate).
    assert (shuts_down Xnix k = true) as Sk by (destruct K as [-> | ->]; reflexivity).
    assert (pstep PSignal (sp_prog s) <> None) as NN.
    { destruct (sp_prog s) as [pc f]. cbn in *. destruct pc; try congruence; try (now destruct (NA x)); unfold lstep; destruct (lf_phase f), (lf_made f && lf_bus f); discriminate. }
    rewrite Hk, Sk. cbn [keeps]. split; auto. split.
    + intros ->. destruct (pg_pc (sp_prog s)) eqn:Pc; auto. now destruct (NA x).
    + intros g e' o' ->. destruct (pg_pc (sp_prog s)) eqn:Pc; auto. now destruct (NA x).
  - intros ->. assert (sp_hook s SigAbrt = false) as -> by (destruct (sp_hook s SigAbrt); auto; assert (true = true) as Z by auto; apply Ek in Z; destruct Z as (_ & [Z|Z] & _); discriminate).
    destruct (pg_pc (sp_prog s)) eqn:Pc; try (eexists; split; reflexivity). now destruct (NA x).
Qed.
Print Assumptions C89_unix.

(** Windows: each kind of signal is handled once. The second of its kind ends the process on the spot, in whatever phase. *)
Theorem C89_windows : forall ls s e o k, sexec Windows ls sinit = Some (s, e, o) -> sp_end s = None -> pg_pc (sp_prog s) <> PBegin -> (forall x, pg_pc (sp_prog s) <> PAbort x) ->
  (In (SSignal k) ls -> exists s', sstep Windows (SSignal k) s = Some (Some (s', [], [])) /\ sp_end s' = Some (EndSignal k) /\ sp_prog s' = sp_prog s) /\
  (~ In (SSignal k) ls -> pstep PSignal (sp_prog s) <> None /\ (pstep PSignal (sp_prog s) = Some None -> sstep Windows (SSignal k) s = Some None) /\
     forall g e' o', pstep PSignal (sp_prog s) = Some (Some (g, e', o')) ->
       exists s', sstep Windows (SSignal k) s = Some (Some (s', e', o')) /\ sp_end s' = None /\ sp_prog s' = g).
Proof.
  intros ls s e o k X En NB NA. destruct (sinv_ok _ _ _ _ _ X) as (pls & [A B C D E F G H I]). pose proof (E En k) as Ek. simpl in Ek.
  assert (pg_pc (sp_prog s) <> PExit) as NX by (intros Z; apply D in Z; congruence).
  unfold sstep. rewrite En. split.
  - intros K. assert (sp_hook s k = false) as -> by (destruct (sp_hook s k); auto; assert (true = true) as Z by auto; apply Ek in Z; destruct Z as (_ & _ & Z); exfalso; apply Z; auto).
    destruct (pg_pc (sp_prog s)) eqn:Pc; try (eexists; split; [reflexivity|split; reflexivity]). now destruct (NA x).
  - intros K. assert (sp_hook s k = true) as Hk by (apply Ek; repeat split; auto).
    assert (shuts_down Windows k = true) as Sk by (destruct k; reflexivity).
    assert (pstep PSignal (sp_prog s) <> None) as NN.
    { destruct (sp_prog s) as [pc f]. cbn in *. destruct pc; try congruence; try (now destruct (NA x)); unfold lstep; destruct (lf_phase f), (lf_made f && lf_bus f); discriminate. }
    rewrite Hk, Sk. split; auto. split.
    + intros ->. destruct (pg_pc (sp_prog s)) eqn:Pc; auto. now destruct (NA x).
    + intros g e' o' ->. destruct (pg_pc (sp_prog s)) eqn:Pc; try (eexists; split; [reflexivity|split; reflexivity]). now destruct (NA x).
Qed.
Print Assumptions C89_windows.

(** So at most four signals arrive there in a process's life, three of them handled. *)
Theorem C89_windows_few : forall ls s e o, sexec Windows ls sinit = Some (s, e, o) ->
  length (filter is_signal ls) <= 4 /\ (sp_end s = None -> length (filter is_signal ls) <= 3).
Proof.
  intros ls s e o X.
  assert (forall ls s e o, sexec Windows ls sinit = Some (s, e, o) -> sp_end s = None -> NoDup (filter is_signal ls)) as K.
  { clear. intros ls. induction ls as [|l ls IH] using rev_ind; intros s2 e o X En; [constructor|].
    destruct (sexec_snoc _ _ _ _ _ _ _ X) as (s & e1 & o1 & e2 & o2 & X1 & St & -> & ->).
    destruct (sinv_ok _ _ _ _ _ X1) as (pls & [A B C D E F G H I]).
    assert (sp_end s = None) as En1 by (unfold sstep in St; destruct (sp_end s); [discriminate|auto]).
    specialize (IH _ _ _ X1 En1). rewrite filter_app. destruct l as [l|k|]; simpl; try (now rewrite app_nil_r).
    assert (~ In (SSignal k) ls) as NI.
    { intros J. unfold sstep in St. rewrite En1 in St. destruct (sp_hook s k) eqn:Hk.
      - apply (E En1) in Hk. destruct Hk as (_ & _ & Hk). now apply Hk.
      - destruct (pg_pc (sp_prog s)); try discriminate; injection St as <- <- <-; discriminate. }
    apply NoDup_Add with (a := SSignal k) (l := filter is_signal ls); [pose proof (Add_app (SSignal k) (filter is_signal ls) []) as Z; now rewrite app_nil_r in Z|].
    split; auto. intros J. apply filter_In in J. tauto. }
  assert (forall l, NoDup (filter is_signal l) -> length (filter is_signal l) <= 3) as L.
  { intros l N. apply (NoDup_incl_length N (l' := [SSignal SigInt; SSignal SigTerm; SSignal SigAbrt])).
    intros a J. apply filter_In in J as (_ & J). destruct a as [|[]|]; try discriminate; simpl; auto. }
  destruct (sp_end s) eqn:En; [|pose proof (L _ (K _ _ _ _ X En)); lia]. split; [|discriminate].
  destruct ls as [|l ls _] using rev_ind; [simpl; lia|]. destruct (sexec_snoc _ _ _ _ _ _ _ X) as (s1 & e1 & o1 & e2 & o2 & X1 & St & -> & ->).
  assert (sp_end s1 = None) as En1 by (unfold sstep in St; destruct (sp_end s1); [discriminate|auto]).
  pose proof (L _ (K _ _ _ _ X1 En1)) as Q. rewrite filter_app, app_length. assert (length (filter is_signal [l]) <= 1) by (simpl; destruct (is_signal l); simpl; lia). lia.
Qed.
Print Assumptions C89_windows_few.

(** A second Ctrl+C while the plugins are still loaded: on Windows the process is gone, with nothing unloaded; on Linux the same
    two signals lead to the orderly end. *)
Theorem C89_twice_refuted : exists ls ls' sw ew ow sx ex ox,
  sexec Windows ls sinit = Some (sw, ew, ow) /\ sp_end sw = Some (EndSignal SigInt) /\ ~ In EvUnloaded ew /\
  sexec Xnix (ls ++ ls') sinit = Some (sx, ex, ox) /\ sp_end sx = Some EndExit /\ In EvUnloaded ex.
Proof.
  exists (map SMain up ++ [SSignal SigInt; SSignal SigInt]).
  exists (map SMain [PApp LWork; PApp LWork; PApp LWork; PApp LCheck; PApp LDetach; PApp LUnload; PApp LClear; PApp LReturn]).
  do 6 eexists. split; [vm_compute; reflexivity|]. split; [reflexivity|]. split; [simpl; intuition discriminate|].
  split; [vm_compute; reflexivity|]. split; [reflexivity|]. simpl. auto.
Qed.
Print Assumptions C89_twice_refuted.

(** macOS: nothing is hooked. Every signal ends the process on the spot, and main never comes to its end. *)
Theorem C89_osx : forall ls s e o, sexec Osx ls sinit = Some (s, e, o) ->
  sp_end s <> Some EndExit /\ ~ In EvReturned e /\ ~ In EvBusEnded e /\ ~ In Exiting o /\
  forall k, sp_end s = None -> (forall x, pg_pc (sp_prog s) <> PAbort x) ->
    exists s', sstep Osx (SSignal k) s = Some (Some (s', [], [])) /\ sp_end s' = Some (EndSignal k).
Proof.
  intros ls s e o X. destruct (sinv_ok _ _ _ _ _ X) as (pls & [A B C D E F G H I]).
  assert (~ In PSignal pls) as NS by (intros J; destruct (B J) as (k & _ & W); exact W).
  assert (~ signalled pls) as NG by (intros (l1 & l2 & ? & ? & ? & -> & _); apply NS, in_app_iff; simpl; auto).
  destruct (pinv_ok _ _ _ _ A) as [Pa Pb Pc Pd Pe Pf].
  assert (sp_end s <> Some EndExit /\ ~ In EvReturned e /\ ~ In EvBusEnded e /\ ~ In Exiting o) as (Q1 & Q2 & Q3 & Q4).
  { rewrite D. destruct (sp_prog s) as [pc f] eqn:Es. cbn in *. destruct pc.
    - destruct (Pa eq_refl) as (_ & -> & ->). simpl. intuition discriminate.
    - destruct (Pb eq_refl) as (_ & -> & ->). simpl. intuition discriminate.
    - destruct (Pc eq_refl) as (_ & _ & _ & -> & ->). simpl. intuition discriminate.
    - destruct (Pd eq_refl) as (_ & NI & -> & -> & _ & Sg). destruct (lf_phase f); cbn in *; try (exfalso; apply NG, Sg; discriminate); intuition discriminate.
    - destruct (Pe eq_refl) as (_ & _ & Sg). contradiction.
    - destruct (Pf x eq_refl) as [(-> & ->)|((q & Q & -> & Sg) & ->)]; [simpl; intuition discriminate|].
      destruct Q as [-> | [(n & ->) | ->]]; [| |exfalso; apply NG, Sg; reflexivity]; destruct x; simpl; intuition discriminate. }
  split; auto. split; auto. split; auto. split; auto. intros k En NA. pose proof (E En k) as Ek. simpl in Ek.
  unfold sstep. rewrite En. assert (sp_hook s k = false) as -> by (destruct (sp_hook s k); auto; exfalso; tauto).
  destruct (pg_pc (sp_prog s)) eqn:Pc'; try (eexists; split; reflexivity). now destruct (NA x).
Qed.
Print Assumptions C89_osx.

(** When a signal is undefined behaviour: it reaches the handler, and the object is not there yet or its bus no longer. *)
Theorem C89_undefined : forall p ls s e o k, sexec p ls sinit = Some (s, e, o) -> sp_end s = None ->
  (sstep p (SSignal k) s = Some None <->
   wanted p k /\ (p = Windows -> ~ In (SSignal k) ls) /\ (pg_pc (sp_prog s) = PHooked \/ pg_pc (sp_prog s) = PStarted /\ In EvCleared e)).
Proof.
  intros p ls s e o k X En. destruct (sinv_ok _ _ _ _ _ X) as (pls & [A B C D E F G H I]). pose proof (E En k) as Ek.
  pose proof (C80_signal _ _ _ _ A) as U. unfold sstep. rewrite En. destruct (sp_hook s k) eqn:Hk.
  - destruct (proj1 Ek eq_refl) as (NB & W & Nk). rewrite shuts_hooks, (proj2 (hooks_wanted p k) W).
    assert ((match pg_pc (sp_prog s) with PAbort _ => None | _ => match pstep PSignal (sp_prog s) with
      | Some (Some (g, e0, o0)) => Some (Some (mkSP g (if keeps p then sp_hook s else fun k' => if kind_eqb k k' then false else sp_hook s k') None, e0, o0))
      | Some None => Some None | None => None end end = Some None) <-> pstep PSignal (sp_prog s) = Some None) as Q.
    { destruct (pg_pc (sp_prog s)) eqn:Pc; try (destruct (pstep PSignal (sp_prog s)) as [[[[g e'] o']|]|]; split; (discriminate || reflexivity)).
      assert (pstep PSignal (sp_prog s) = None) as -> by (destruct (sp_prog s) as [pc f]; cbn in *; now rewrite Pc). split; discriminate. }
    cbn zeta. rewrite Q, U. tauto.
  - split.
    + destruct (pg_pc (sp_prog s)); discriminate.
    + intros (W & Nk & Ph). exfalso. assert (false = true) as Z; [|discriminate]. apply Ek. repeat split; auto. intros Z. rewrite Z in Ph. destruct Ph as [Ph|(Ph & _)]; discriminate.
Qed.
Print Assumptions C89_undefined.

(** abort and std::terminate. Everywhere the process ends; but on Windows, unless SIGABRT has come before, the handler runs first, and
    is undefined behaviour if the object was never made or has dropped its bus. *)
Theorem C89_abort : forall p ls s e o, sexec p ls sinit = Some (s, e, o) -> sp_end s = None ->
  (sstep p SAbort s = Some None <->
     p = Windows /\ ~ In (SSignal SigAbrt) ls /\ In (SMain PHook) ls /\ (~ In (SMain PMake) ls \/ In EvCleared e)) /\
  (sstep p SAbort s <> Some None -> exists s', sstep p SAbort s = Some (Some (s', [], [])) /\ sp_end s' = Some EndAbort).
Proof.
  intros p ls s e o X En. destruct (sinv_ok _ _ _ _ _ X) as (pls & [A B C D E F G H I]). pose proof (E En SigAbrt) as Ek.
  destruct (life_facts _ _ _ _ A) as (Q1 & Q2 & Q3).
  assert (lstep LStop (pg_life (sp_prog s)) = if lf_made (pg_life (sp_prog s)) && lf_bus (pg_life (sp_prog s))
    then Some (Some (mkLife (lf_made (pg_life (sp_prog s))) (lf_phase (pg_life (sp_prog s))) (lf_bus (pg_life (sp_prog s))) false (lf_run (pg_life (sp_prog s))), [])) else Some None) as L
    by (unfold lstep; destruct (lf_phase (pg_life (sp_prog s))); reflexivity).
  unfold sstep. rewrite En, L. rewrite <- (C PHook), <- (C PMake), <- Q1, <- Q2 by discriminate. rewrite shuts_hooks.
  destruct (sp_hook s SigAbrt) eqn:Hk; cbn [andb].
  - destruct (proj1 Ek eq_refl) as (NB & W & Nk). rewrite (proj2 (hooks_wanted p _) W).
    assert (p = Windows) as -> by (destruct p; simpl in W; intuition discriminate).
    destruct (lf_made (pg_life (sp_prog s))) eqn:M; cbn [andb].
    + specialize (Q3 eq_refl). destruct (lf_bus (pg_life (sp_prog s))).
      * split; [|intros _; eexists; split; reflexivity]. split; [discriminate|]. intros (_ & _ & _ & [Z|Z]); [now destruct Z|]. exfalso. tauto.
      * split; [|intros Z; now destruct Z]. split; auto. intros _. repeat split; auto. right. destruct (in_dec levent_dec EvCleared e) as [J|J]; auto. apply Q3 in J. discriminate.
    + split; [|intros Z; now destruct Z]. split; auto.
  - split; [|intros _; eexists; split; reflexivity]. split; [discriminate|]. intros (-> & Nk & NB & _). exfalso.
    assert (false = true) as Z; [|discriminate]. apply Ek. simpl. auto.
Qed.
Print Assumptions C89_abort.

(** In particular, on Windows an exception that leaves the constructor always ends in undefined behaviour. *)
Theorem C89_constructor : forall ls s e o x, sexec Windows (ls ++ [SMain (PMakeFails x)]) sinit = Some (s, e, o) -> sstep Windows SAbort s = Some None.
Proof.
  intros ls s e o x X. destruct (sexec_snoc _ _ _ _ _ _ _ X) as (s1 & e1 & o1 & e2 & o2 & X1 & St & _ & _).
  assert (sp_end s1 = None) as En1 by (unfold sstep in St; destruct (sp_end s1); [discriminate|auto]).
  assert (pg_pc (sp_prog s1) = PHooked) as Pc.
  { unfold sstep in St. rewrite En1 in St. destruct (sp_prog s1) as [pc f]. cbn in St. destruct pc; try discriminate. reflexivity. }
  rewrite (just_hooked _ _ _ _ _ X1 En1 Pc) in X. vm_compute in X. injection X as <- _ _. reflexivity.
Qed.
Print Assumptions C89_constructor.

(** ** Cases *)

(** One signal of each kind on Windows is survived; a third kind of end. *)
Example C89_windows_case : exists s e o s' e' o',
  sexec Windows (map SMain up ++ [SSignal SigInt; SSignal SigTerm; SSignal SigAbrt]) sinit = Some (s, e, o) /\ sp_end s = None /\ pg_pc (sp_prog s) = PStarted /\
  sexec Windows (map SMain up ++ [SSignal SigInt; SSignal SigTerm; SSignal SigAbrt; SSignal SigTerm]) sinit = Some (s', e', o') /\ sp_end s' = Some (EndSignal SigTerm).
Proof. do 6 eexists. split; [vm_compute; reflexivity|]. split; [reflexivity|]. split; [reflexivity|]. split; [vm_compute; reflexivity|]. reflexivity. Qed.
Example C89_unix_case : exists s e o,
  sexec Xnix (map SMain up ++ [SSignal SigInt; SSignal SigTerm; SSignal SigInt; SSignal SigInt]) sinit = Some (s, e, o) /\ sp_end s = None /\ pg_pc (sp_prog s) = PStarted.
Proof. do 3 eexists. split; [vm_compute; reflexivity|]. split; reflexivity. Qed.
Example C89_osx_case : exists s e o s' e' o',
  sexec Osx (map SMain up) sinit = Some (s, e, o) /\ sp_end s = None /\ pg_pc (sp_prog s) = PStarted /\
  sexec Osx (map SMain up ++ [SSignal SigInt]) sinit = Some (s', e', o') /\ sp_end s' = Some (EndSignal SigInt) /\ ~ In EvBusEnded e'.
Proof.
  do 6 eexists. split; [vm_compute; reflexivity|]. split; [reflexivity|]. split; [reflexivity|]. split; [vm_compute; reflexivity|]. split; [reflexivity|].
  simpl. intuition discriminate.
Qed.
(** An abort of a running program, and one before the object is there, which on Linux is harmless. *)
Example C89_abort_case : exists s e o s' e' o' s'' e'' o'',
  sexec Windows (map SMain up ++ [SAbort]) sinit = Some (s, e, o) /\ sp_end s = Some EndAbort /\
  sexec Windows [SMain PHook; SMain (PMakeFails OtherError)] sinit = Some (s', e', o') /\ sstep Windows SAbort s' = Some None /\
  sexec Xnix [SMain PHook; SMain (PMakeFails OtherError); SAbort] sinit = Some (s'', e'', o'') /\ sp_end s'' = Some EndAbort.
Proof.
  do 9 eexists. split; [vm_compute; reflexivity|]. split; [reflexivity|]. split; [vm_compute; reflexivity|]. split; [reflexivity|]. split; [vm_compute; reflexivity|]. reflexivity.
Qed.
Example C89_undefined_case : exists s e o, sexec Windows [SMain PHook] sinit = Some (s, e, o) /\ sp_end s = None /\ sstep Windows (SSignal SigTerm) s = Some None /\
  exists s' e' o', sexec Osx [SMain PHook; SSignal SigTerm] sinit = Some (s', e', o').
Proof. do 3 eexists. split; [vm_compute; reflexivity|]. split; [reflexivity|]. split; [reflexivity|]. do 3 eexists. vm_compute. reflexivity. Qed.

(** Proofs about the whole program. *)
From Coq Require Import String List Arith NArith Bool Lia Permutation.
From Verif Require Import Prelude OMap DatagramModel DatagramSpec DatagramStmt SerialModel FilesystemModel FilesystemProps PluginModel PluginSpec PluginProofs AppModel AppSpec AppProofs
  LifeModel ProgModel MainModel MainSpec.
Import ListNotations.
Open Scope list_scope.

(** ** The run, phase by phase *)

Lemma flat_map_nil {A B} (f : A -> list B) l : (forall x, In x l -> f x = []) -> flat_map f l = [].
Proof. intros H. induction l as [|x l IH]; [reflexivity|]. cbn [flat_map]. rewrite (H x (or_introl eq_refl)). apply IH. intros y I. apply H. now right. Qed.

Section Run.
  Variables (E : env) (fuel : nat) (argv : list string).

  Definition started_up (a0 a1 : app) (r : res unit) : Prop := make_app E = Ok a0 /\ start_up E fuel (configuration_files argv) a0 = (a1, r).

  Definition phase_inv (p : phase) (a : option app) (T : list mevent) : Prop :=
    match p with
    | Idle => False
    | Setup => exists a0, make_app E = Ok a0 /\ a = Some a0 /\ T = begun []
    | Check | Wait | Test | Work _ => exists a0 a1, started_up a0 a1 (Ok tt) /\ a = Some a1 /\ T = running (ap_trace a1)
    | Ended => exists a0 a1, started_up a0 a1 (Ok tt) /\ a = Some a1 /\ T = running (ap_trace a1) ++ [MLife EvBusEnded]
    | Detached => exists a0 a1, started_up a0 a1 (Ok tt) /\ a = Some a1 /\ T = detached (ap_trace a1)
    | Unloaded => exists a0 a1 m U, started_up a0 a1 (Ok tt) /\ unload_templates (ap_pm a1) = (m, U, Ok tt) /\
                  T = detached (ap_trace a1) ++ map MApp (map AePlugin U) ++ [MLife EvUnloaded]
    | Cleared => exists a0 a1 m U, started_up a0 a1 (Ok tt) /\ unload_templates (ap_pm a1) = (m, U, Ok tt) /\
                 T = detached (ap_trace a1) ++ map MApp (map AePlugin U) ++ [MLife EvUnloaded; MLife EvCleared]
    end.

  Definition minv (s : mstate) (T : list mevent) : Prop :=
    match pg_pc (ms_prog s) with
    | PBegin => T = [] /\ pg_life (ms_prog s) = life_init
    | PHooked => T = begun [] /\ pg_life (ms_prog s) = life_init
    | PMade => lf_phase (pg_life (ms_prog s)) = Idle /\ exists a0, make_app E = Ok a0 /\ ms_app s = Some a0 /\ T = begun []
    | PStarted => phase_inv (lf_phase (pg_life (ms_prog s))) (ms_app s) T
    | PExit => exists a0 a1 m U, started_up a0 a1 (Ok tt) /\ unload_templates (ap_pm a1) = (m, U, Ok tt) /\ T = complete (ap_trace a1) (map AePlugin U)
    | PAbort x => (exists a0 a1 y, started_up a0 a1 (Throw y) /\ class_of E y = x /\ T = begun (ap_trace a1) ++ raised x) \/
                  (exists a0 a1, started_up a0 a1 (Ok tt) /\ T = running (ap_trace a1) ++ raised x)
    end.

  Lemma minv_step l s T s' e : minv s T -> mstep E fuel argv l s = Some (Some (s', e)) -> minv s' (T ++ e).
  Proof.
    intros I H. unfold mstep in H. destruct (ProgModel.pstep l (ms_prog s)) as [[[[g ev] o]|]|] eqn:P; try discriminate.
    destruct (effect E fuel argv l s) as [[[a ae]|x| |]|] eqn:F; try discriminate. injection H as <- <-.
    destruct s as [[pc f] oa]. unfold minv in *. cbn [ms_prog ms_app pg_pc pg_life] in *. destruct l as [| |x| |l|].
    - destruct pc; try discriminate. injection P as <- <- <-. injection F as <- <-. destruct I as (-> & ->). split; reflexivity.
    - destruct pc; try discriminate. destruct I as (-> & ->). cbn in P. injection P as <- <- <-. cbn [effect ms_app] in F.
      assert (Some (res_map (fun a => (Some a, @nil aevent)) (make_app E)) = Some (Ok (a, ae))) as F' by (destruct oa; exact F).
      destruct (make_app E) as [a0| | |] eqn:M; try discriminate. injection F' as <- <-. cbn. split; [reflexivity|]. eauto.
    - discriminate F || (destruct oa; discriminate F).
    - destruct pc; try discriminate. destruct I as (Ph & a0 & M & -> & ->). cbn in P. unfold lstep in P. rewrite Ph in P. destruct (lf_made f); try discriminate. injection P as <- <- <-.
      injection F as <- <-. cbn. eauto.
    - destruct pc; try discriminate. cbn in P.
      destruct l as [| |x| | | |n| | | | | |]; try discriminate; unfold lstep in P; destruct (lf_phase f) as [| | | | |[|k]| | | |] eqn:Ph; try discriminate; cbn [phase_inv] in I.
      (* LRaise *)
      + destruct I as (a0 & M & -> & ->). cbn [effect ms_app ms_prog pg_life] in F. rewrite Ph in F.
        destruct (start_up E fuel (configuration_files argv) a0) as [a1 [u|y| |]] eqn:St; try discriminate.
        destruct x; injection P as <- <- <-; destruct (class_of E y) eqn:C; try discriminate; injection F as <- <-; cbn; left; exists a0, a1, y; (split; [split; auto|]); (split; [exact C|]); unfold begun; reflexivity.
      + destruct I as (a0 & a1 & St & -> & ->). cbn [effect ms_app ms_prog pg_life] in F. rewrite Ph in F.
        destruct x; injection P as <- <- <-; injection F as <- <-; cbn; right; exists a0, a1; auto.
      + destruct I as (a0 & a1 & St & -> & ->). cbn [effect ms_app ms_prog pg_life] in F. rewrite Ph in F. discriminate.
      (* LBus *)
      + destruct I as (a0 & M & -> & ->). cbn [effect ms_app] in F. destruct (lf_bus f); try discriminate. injection P as <- <- <-.
        destruct (start_up E fuel (configuration_files argv) a0) as [a1 [[]|y| |]] eqn:St; try discriminate. injection F as <- <-. cbn. exists a0, a1. split; [split; auto|]. split; reflexivity.
      (* LCheck *)
      + destruct I as (a0 & a1 & St & -> & ->). injection F as <- <-. destruct (lf_should f); injection P as <- <- <-; cbn; exists a0, a1; rewrite ?app_nil_r; auto.
      + destruct I as (a0 & a1 & St & -> & ->). injection F as <- <-. injection P as <- <- <-; cbn; exists a0, a1; rewrite ?app_nil_r; auto.
      + destruct I as (a0 & a1 & St & -> & ->). injection F as <- <-. destruct (lf_should f); injection P as <- <- <-; cbn; exists a0, a1; rewrite ?app_nil_r; auto.
      (* LWork *)
      + destruct I as (a0 & a1 & St & -> & ->). injection F as <- <-. injection P as <- <- <-; cbn; exists a0, a1; rewrite ?app_nil_r; auto.
      + destruct I as (a0 & a1 & St & -> & ->). injection F as <- <-. injection P as <- <- <-; cbn; exists a0, a1; rewrite ?app_nil_r; auto.
      (* LDetach *)
      + destruct I as (a0 & a1 & St & -> & ->). injection F as <- <-. destruct (lf_bus f); try discriminate. injection P as <- <- <-; cbn. exists a0, a1. split; [auto|]. split; [auto|]. unfold detached. rewrite <- app_assoc. reflexivity.
      (* LUnload *)
      + destruct I as (a0 & a1 & St & -> & ->). cbn [effect ms_app] in F. destruct (unload_templates (ap_pm a1)) as [[m U] [[]|y| |]] eqn:Un; try discriminate. injection F as <- <-. injection P as <- <- <-. cbn.
        exists a0, a1, m, U. auto.
      (* LClear *)
      + destruct I as (a0 & a1 & m & U & St & Un & ->). injection P as <- <- <-. assert (ae = []) as -> by (destruct oa; injection F as _ <-; reflexivity). cbn.
        exists a0, a1, m, U. split; [auto|]. split; [auto|]. rewrite <- !app_assoc. reflexivity.
      (* LReturn *)
      + destruct I as (a0 & a1 & m & U & St & Un & ->). injection P as <- <- <-. assert (ae = []) as -> by (destruct oa; injection F as _ <-; reflexivity). cbn.
        exists a0, a1, m, U. split; [auto|]. split; [auto|]. unfold complete. rewrite <- !app_assoc. reflexivity.
    - assert (a = oa /\ ae = []) as (-> & ->) by (destruct oa; injection F; auto).
      destruct pc; try discriminate; cbn in P; unfold lstep in P.
      + destruct I as (-> & ->). discriminate.
      + destruct I as (Ph & a0 & M & -> & ->). rewrite Ph in P. destruct (lf_made f && lf_bus f); try discriminate. injection P as <- <- <-. cbn. split; [reflexivity|]. eauto.
      + destruct (lf_phase f) eqn:Ph; try contradiction; (destruct (lf_made f && lf_bus f); [|discriminate]; injection P as <- <- <-; cbn [pg_pc pg_life lf_phase map List.app ms_app ms_prog]; rewrite app_nil_r; exact I).
  Qed.

  Lemma minv_exec ls : forall s T s' T', minv s T -> mexec E fuel argv ls s = Some (s', T') -> minv s' (T ++ T').
  Proof.
    induction ls as [|l ls IH]; intros s T s' T' I X; cbn [mexec] in X; [injection X as <- <-; now rewrite app_nil_r|].
    destruct (mstep E fuel argv l s) as [[[s1 e1]|]|] eqn:P; try discriminate. destruct (mexec E fuel argv ls s1) as [[s2 e2]|] eqn:X1; try discriminate.
    injection X as <- <-. rewrite app_assoc. eapply IH; [|exact X1]. eapply minv_step; eauto.
  Qed.
  Lemma minv_run ls s T : mexec E fuel argv ls minit = Some (s, T) -> minv s T.
  Proof. intros X. apply (minv_exec ls minit [] s T); [split; reflexivity|exact X]. Qed.

  Lemma phases_step ae e o : phases (map MApp ae ++ map MLife e ++ map MLine o) = e.
  Proof.
    unfold phases. rewrite !flat_map_app, (flat_map_nil _ (map MApp ae)), (flat_map_nil _ (map MLine o)), app_nil_r by (intros x I; apply in_map_iff in I as (y & <- & _); reflexivity).
    cbn [List.app]. induction e as [|x e IH]; [reflexivity|]. cbn. now f_equal.
  Qed.
  Lemma output_step ae e o : output (map MApp ae ++ map MLife e ++ map MLine o) = o.
  Proof.
    unfold output. rewrite !flat_map_app, (flat_map_nil _ (map MApp ae)), (flat_map_nil _ (map MLife e)) by (intros x I; apply in_map_iff in I as (y & <- & _); reflexivity).
    cbn [List.app]. induction o as [|x o IH]; [reflexivity|]. cbn. now f_equal.
  Qed.
  Lemma projects ls : forall s s' T, mexec E fuel argv ls s = Some (s', T) -> pexec ls (ms_prog s) = Some (ms_prog s', phases T, output T).
  Proof.
    induction ls as [|l ls IH]; intros s s' T X; cbn [mexec pexec] in *; [now injection X as <- <-|].
    unfold mstep in X. destruct (ProgModel.pstep l (ms_prog s)) as [[[[g ev] o]|]|] eqn:P; try discriminate.
    destruct (effect E fuel argv l s) as [[[a ae]|x| |]|] eqn:F; try discriminate.
    destruct (mexec E fuel argv ls (mkMS g a)) as [[s2 e2]|] eqn:X1; try discriminate. injection X as <- <-.
    apply IH in X1. cbn [ms_prog] in X1. rewrite X1. unfold phases, output. rewrite !(flat_map_app _ (map MApp ae ++ map MLife ev ++ map MLine o) e2).
    fold (phases (map MApp ae ++ map MLife ev ++ map MLine o)). fold (output (map MApp ae ++ map MLife ev ++ map MLine o)). rewrite phases_step, output_step. reflexivity.
  Qed.
  Lemma mexec_app l1 : forall l2 s, mexec E fuel argv (l1 ++ l2) s =
    match mexec E fuel argv l1 s with Some (s1, T1) => match mexec E fuel argv l2 s1 with Some (s2, T2) => Some (s2, T1 ++ T2) | None => None end | None => None end.
  Proof.
    induction l1 as [|l l1 IH]; intros l2 s; cbn [List.app mexec]; [destruct (mexec E fuel argv l2 s) as [[? ?]|]; reflexivity|].
    destruct (mstep E fuel argv l s) as [[[s1 e1]|]|]; auto. rewrite IH. destruct (mexec E fuel argv l1 s1) as [[s2 T2]|]; auto.
    destruct (mexec E fuel argv l2 s2) as [[s3 T3]|]; auto. now rewrite app_assoc.
  Qed.
End Run.

(** ** Start-up *)

Definition plain (e : pevent) : Prop := match e with PeOpen _ | PeClose _ | PeLoaded _ _ => True | _ => False end.
Definition bare (st : pm) : Prop := forall k t, In (k, t) (pm_templates st) -> tp_insts t = [].

Lemma load_template_bare w path st st' e r : inv st [] \/ osorted (pm_templates st) -> bare st -> load_template w path st = (st', e, r) -> Forall plain e /\ bare st' /\ osorted (pm_templates st').
Proof.
  intros S B H. assert (osorted (pm_templates st)) as So by (destruct S as [S|S]; [apply S|exact S]). clear S. unfold load_template in H.
  destruct (candidate w path); [|injection H as <- <- <-; auto].
  destruct (w_open w (c_str path)) as [l|]; [|injection H as <- <- <-; auto].
  destruct (lb_info l) as [[id|]|]; [|injection H as <- <- <-; repeat split; auto; repeat constructor|injection H as <- <- <-; repeat split; auto; repeat constructor].
  destruct (String.eqb id ""); [injection H as <- <- <-; repeat split; auto; repeat constructor|].
  destruct (lb_create l); [|injection H as <- <- <-; repeat split; auto; repeat constructor].
  assert (forall k t, In (k, t) (oinsert id (mkTemplate id true [] (pm_handles st)) (pm_templates st)) -> tp_insts t = []) as B'.
  { intros k t I. apply in_oinsert in I as [I|I]; auto; [injection I as _ ->; reflexivity|eapply B; eauto]. }
  cbn [pm_templates] in H. destruct (olookup id (pm_templates st)) as [old|] eqn:L.
  - assert (tp_insts old = []) as Eo by (eapply B; eapply olookup_in; eauto). unfold unload in H. rewrite Eo in H. cbn in H. injection H as <- <- <-. repeat split; [repeat constructor|exact B'|cbn; now apply osorted_insert].
  - injection H as <- <- <-. repeat split; [repeat constructor|exact B'|cbn; now apply osorted_insert].
Qed.
Lemma load_files_bare w dir fs : forall st st' e r, osorted (pm_templates st) -> bare st -> load_files w dir fs st = (st', e, r) -> Forall plain e /\ bare st' /\ osorted (pm_templates st').
Proof.
  induction fs as [|f fs IH]; intros st st' e r S B H; cbn [load_files] in H; [injection H as <- <- <-; auto|].
  destruct (load_template w (combine_paths dir f) st) as [[s1 e1] r1] eqn:L. apply load_template_bare in L as (P1 & B1 & S1); auto.
  destruct r1 as [b|x| |]; try (injection H as <- <- <-; auto). destruct (load_files w dir fs s1) as [[s2 e2] r2] eqn:L2. injection H as <- <- <-.
  apply IH in L2 as (P2 & B2 & S2); auto. repeat split; auto. apply Forall_app. auto.
Qed.
Lemma load_paths_bare w ps : forall st st' e r, osorted (pm_templates st) -> bare st -> load_paths w ps st = (st', e, r) -> Forall plain e /\ bare st' /\ osorted (pm_templates st').
Proof.
  induction ps as [|p ps IH]; intros st st' e r S B H; cbn [load_paths] in H; [injection H as <- <- <-; auto|].
  destruct (load_files w p (get_directory_contents (w_fs w) p OtFile) st) as [[s1 e1] r1] eqn:L. apply load_files_bare in L as (P1 & B1 & S1); auto.
  destruct r1 as [b|x| |]; try (injection H as <- <- <-; auto). destruct (load_paths w ps s1) as [[s2 e2] r2] eqn:L2. injection H as <- <- <-.
  apply IH in L2 as (P2 & B2 & S2); auto. repeat split; auto. apply Forall_app. auto.
Qed.

Definition entries (st : pm) : list (string * option inst) := flat_map (fun kt => tp_insts (snd kt)) (pm_templates st).

Lemma entry_added {B} (g : string * option inst -> list B) tid t name o (m : omap template) : osorted m -> olookup tid m = Some t -> osorted (tp_insts t) -> ~ In name (names_in_use t) ->
  Permutation (flat_map (fun kt => flat_map g (tp_insts (snd kt))) (oinsert tid (set_insts t (oinsert name o (tp_insts t))) m)) (g (name, o) ++ flat_map (fun kt => flat_map g (tp_insts (snd kt))) m).
Proof.
  intros S L St N. rewrite (perm_flat_map _ _ _ (oinsert_perm tid _ m S)). rewrite (perm_flat_map _ _ _ (oremove_perm tid t m S L)). cbn [flat_map snd set_insts tp_insts].
  rewrite (perm_flat_map g _ _ (oinsert_perm name o _ St)). cbn [flat_map]. rewrite oremove_absent by now apply olookup_not_in. rewrite <- app_assoc. reflexivity.
Qed.

Section Boot.
  Variables (slot : bool) (plug : nat -> created * option exc).

  Record boot_inv (a : app) : Prop := mkBoot {
    bi_reached : reached (ap_pm a) (manager (ap_trace a));
    bi_made : Permutation (made (ap_trace a)) (live (ap_pm a));
    bi_quiet : stopped (manager (ap_trace a)) = [] /\ deinited (manager (ap_trace a)) = [];
    bi_going : forall i, In i (set_going (ap_trace a)) -> In i (made (ap_trace a));
    bi_count : (forall n x, fst (plug n) <> CrThrow x) -> length (buses (ap_trace a)) = length (entries (ap_pm a));
    bi_null : slot = false -> (forall n, fst (plug n) <> CrNull) -> forall k t, In (k, t) (pm_templates (ap_pm a)) -> ~ null_entry t;
    bi_of : forall k t i, In (k, t) (pm_templates (ap_pm a)) -> In i (instances t) -> In (AePlugin (PeCreate k i)) (ap_trace a)
  }.

  Definition silent (e : aevent) : Prop := match e with AeCall _ _ _ | AeError _ _ | AeInit _ => True | _ => False end.
  Lemma silent_all e : Forall silent e -> manager e = [] /\ made e = [] /\ set_going e = [] /\ buses e = [].
  Proof. intros F. repeat split; apply flat_map_nil; intros x I; rewrite Forall_forall in F; apply F in I; destruct x; cbn in I |- *; try contradiction; reflexivity. Qed.
  Lemma silent_keeps e a n : Forall silent e -> boot_inv a -> boot_inv (mkApp (ap_pm a) n (ap_trace a ++ e)).
  Proof.
    intros F [A B C D G H Q]. destruct (silent_all e F) as (E1 & E2 & E3 & E4).
    constructor; cbn [ap_pm ap_trace]; unfold manager, made, set_going, buses in *; rewrite ?flat_map_app, ?E1, ?E2, ?E3, ?E4, ?app_nil_r; auto.
    intros k t i I1 I2. apply in_app_iff. left. eauto.
  Qed.
  Lemma start_keeps i a : In i (made (ap_trace a)) -> boot_inv a -> boot_inv (emit [AeStart i] a).
  Proof.
    intros Ii [A B C D G H Q]. constructor; cbn [emit ap_pm ap_trace]; unfold manager, made, set_going, buses in *; rewrite ?flat_map_app; cbn [flat_map List.app]; rewrite ?app_nil_r; auto.
    - intros j J. apply in_app_iff in J as [J|[<-|[]]]; auto.
    - intros k t j I1 I2. apply in_app_iff. left. eauto.
  Qed.
  Lemma counts l : length (flat_map (fun kt : string * template => tp_insts (snd kt)) l) = length (flat_map (fun kt => flat_map (fun s : string * option inst => [s]) (tp_insts (snd kt))) l).
  Proof. f_equal. apply flat_map_ext. intros kt. induction (tp_insts (snd kt)) as [|x m IH]; [reflexivity|]. cbn. now f_equal. Qed.

  Lemma inst_keeps ty conf a a' r : boot_inv a -> instantiate_plugin slot plug ty conf a = (a', r) -> r <> UB -> boot_inv a'.
  Proof.
    intros I X NU. unfold instantiate_plugin in X. pose proof I as [A B C D G H Q].
    destruct (instantiate_template slot ty None conf (fst (plug (ap_calls a))) (ap_pm a)) as [[pm' e] r1] eqn:T.
    set (a1 := mkApp pm' (S (ap_calls a)) (ap_trace a ++ map AePlugin e)) in X.
    assert (r1 <> UB) as NU1 by (intros ->; injection X as _ <-; congruence).
    assert (reached pm' (manager (ap_trace a1))) as R1.
    { unfold a1. cbn [ap_trace]. unfold manager. rewrite flat_map_app. replace (flat_map _ (map AePlugin e)) with e by (clear; induction e; cbn; congruence).
      eapply (reached_step _ _ (PInstantiate slot ty None conf (fst (plug (ap_calls a)))) pm' e (res_map PInst r1)); eauto; [cbn [PluginModel.pstep]; now rewrite T|destruct r1; discriminate || congruence]. }
    assert (boot_inv a1 /\ forall i, r1 = Ok (Some i) -> In i (made (ap_trace a1))) as (I1 & Mi).
    { destruct (olookup ty (pm_templates (ap_pm a))) as [t|] eqn:L.
      2: { unfold instantiate_template in T. rewrite L in T. injection T as <- <- <-. split; [|discriminate]. unfold a1. cbn [map]. apply silent_keeps; [constructor|exact I]. }
      pose proof (reached_inv _ _ A) as IV. destruct (iv_tp _ _ IV _ _ L) as [B1 B2 B3 B4 B5]. pose proof (iv_sorted _ _ IV) as So.
      assert (forall o n bs k, lowest t ty k ->
        let st := mkPm (pm_paths (ap_pm a)) (pm_bus (ap_pm a)) (oinsert ty (set_insts t (oinsert (ty ++ to_string k)%string o (tp_insts t))) (pm_templates (ap_pm a))) bs (pm_handles (ap_pm a)) n in
        Permutation (live st) (match o with Some i => [i] | None => [] end ++ live (ap_pm a)) /\ length (entries st) = S (length (entries (ap_pm a))) /\
        (o <> None -> (forall k t, In (k, t) (pm_templates (ap_pm a)) -> ~ null_entry t) -> forall k t, In (k, t) (pm_templates st) -> ~ null_entry t) /\
        (forall k' t' i, In (k', t') (pm_templates st) -> In i (instances t') -> k' = ty /\ o = Some i \/ In (AePlugin (PeCreate k' i)) (ap_trace a))) as Ad.
      { intros o n bs k (Nk & _) st. split; [|split; [|split]].
        - apply (entry_added (fun s => match snd s with Some i => [i] | None => [] end) ty t (ty ++ to_string k)%string o _ So L B4 Nk).
        - unfold entries, st. cbn [pm_templates]. rewrite !counts. rewrite (Permutation_length (entry_added (fun s => [s]) ty t (ty ++ to_string k)%string o _ So L B4 Nk)). reflexivity.
        - intros No Nn k' t' In'. unfold st in In'. cbn [pm_templates] in In'. apply in_oinsert in In' as [In'|In']; auto; [|eapply Nn; eauto].
          injection In' as -> ->. intros (n' & In''). cbn [set_insts tp_insts] in In''. apply in_oinsert in In'' as [In''|In'']; auto; [injection In'' as _ <-; congruence|].
          apply (Nn ty t); [eapply olookup_in; eauto|]. now exists n'.
        - intros k' t' i In' Ii. unfold st in In'. cbn [pm_templates] in In'. apply in_oinsert in In' as [In'|In']; auto; [|right; eapply Q; eauto].
          injection In' as -> ->. apply instances_in in Ii as (n' & In''). cbn [set_insts tp_insts] in In''. apply in_oinsert in In'' as [In''|In'']; auto; [injection In'' as _ <-; auto|].
          right. apply (Q ty t); [eapply olookup_in; eauto|]. apply instances_in. eauto. }
      destruct (instantiate_cases _ _ slot ty None conf (fst (plug (ap_calls a))) t IV L) as (k & Lo & [(D1 & _)|(p & kids & _ & _ & [(_ & D1)|(_ & D1)])]); cbn zeta in D1.
      - rewrite D1 in T. injection T as _ _ <-. congruence.
      - rewrite D1 in T. injection T as <- <- <-. split; [|discriminate]. unfold a1. cbn [map]. apply silent_keeps; [constructor|exact I].
      - destruct (fst (plug (ap_calls a))) as [| |x] eqn:Cr; rewrite D1 in T.
        + injection T as <- <- <-. destruct (Ad (Some (mkInst (pm_insts (ap_pm a)) (ty ++ to_string k) (length (pm_buses (ap_pm a))) conf)) (S (pm_insts (ap_pm a))) (list_set p (kids ++ [(ty ++ to_string k)%string]) (pm_buses (ap_pm a)) ++ [[]]) k Lo) as (P1 & P2 & P3 & P4).
          split.
          * constructor; auto; unfold a1; cbn [ap_pm ap_trace map]; unfold made, manager, set_going, buses, stopped, deinited in *; rewrite ?flat_map_app; cbn [flat_map List.app]; rewrite ?app_nil_r; auto.
            -- rewrite P1, B. symmetry. apply Permutation_cons_append.
            -- intros i J. apply in_app_iff. left. auto.
            -- intros Nt. rewrite app_length, G by auto. cbn [length]. rewrite P2. lia.
            -- intros Sl Nn. refine (P3 _ (H Sl Nn)). discriminate.
            -- intros k' t' i I1 I2. apply in_app_iff. destruct (P4 _ _ _ I1 I2) as [(-> & Ei)|Ii]; [injection Ei as <-; right; right; now left|now left].
          * intros i Ei. injection Ei as <-. unfold a1. cbn [ap_trace map]. unfold made. rewrite flat_map_app. apply in_app_iff. right. now left.
        + injection T as <- <- <-. destruct (Ad None (pm_insts (ap_pm a)) (list_set p (kids ++ [(ty ++ to_string k)%string]) (pm_buses (ap_pm a)) ++ [[]]) k Lo) as (P1 & P2 & _ & P4).
          split; [|discriminate]. constructor; auto; unfold a1; cbn [ap_pm ap_trace map]; unfold made, manager, set_going, buses, stopped, deinited in *; rewrite ?flat_map_app; cbn [flat_map List.app]; rewrite ?app_nil_r; auto.
          * now rewrite P1.
          * intros Nt. rewrite app_length, G by auto. cbn [length]. rewrite P2. lia.
          * intros _ Nn. now destruct (Nn (ap_calls a)).
          * intros k' t' i I1 I2. apply in_app_iff. destruct (P4 _ _ _ I1 I2) as [(_ & Ei)|Ii]; [discriminate|now left].
        + injection T as Ep <- <-. split; [|discriminate].
          destruct (Ad None (pm_insts (ap_pm a)) (list_set p (kids ++ [(ty ++ to_string k)%string]) (pm_buses (ap_pm a)) ++ [[]]) k Lo) as (P1 & P2 & _ & P4).
          constructor; auto; unfold a1; cbn [ap_pm ap_trace map]; unfold made, manager, set_going, buses, stopped, deinited in *; rewrite ?flat_map_app; cbn [flat_map List.app]; rewrite ?app_nil_r; auto.
          * destruct slot; subst pm'; [now rewrite P1|]. exact B.
          * intros Nt. now destruct (Nt (ap_calls a) x).
          * intros Sl Nn. rewrite Sl in Ep. subst pm'. cbn [pm_templates]. exact (H Sl Nn).
          * intros k' t' i I1 I2. apply in_app_iff. left. destruct slot; subst pm'; [destruct (P4 _ _ _ I1 I2) as [(_ & Ei)|Ii]; [discriminate|exact Ii]|]. eapply Q; eauto. }
    destruct r1 as [[i|]|x| |]; [| | | |].
    - destruct (snd (plug (ap_calls a))) as [ex|]; injection X as <- _.
      + apply silent_keeps; [repeat constructor|exact I1].
      + apply start_keeps; [|apply silent_keeps; [repeat constructor|exact I1]]. cbn [emit ap_trace]. unfold made. rewrite flat_map_app. apply in_app_iff. left. now apply Mi.
    - injection X as <- _. exact I1.
    - injection X as <- _. exact I1.
    - congruence.
    - injection X as <- _. exact I1.
  Qed.

  Variables (tokener : string -> option json) (sd : N -> string) (so : string -> string -> string) (fuel : nat).

  Lemma attempt_keeps h ty conf a a' r : boot_inv a -> attempt slot plug sd so fuel h ty conf a = (a', r) -> r <> UB -> boot_inv a'.
  Proof.
    intros I X NU. unfold attempt in X. destruct (contents fuel h conf) as [t|x| |]; try (injection X as <- <-; exact I).
    destruct (instantiate_plugin slot plug ty t a) as [a1 r1] eqn:P.
    assert (r1 <> UB -> boot_inv (emit [AeCall ty t r1] a1)) as K by (intros N; apply silent_keeps; [repeat constructor|eapply inst_keeps; eauto]).
    destruct r1 as [u|x| |]; try (injection X as <- <-; apply K; congruence).
    destruct x; try (injection X as <- <-; apply K; congruence).
    destruct (PrintModel.raw_print sd so fuel h conf); injection X as <- <-; try (apply K; congruence).
    apply silent_keeps; [repeat constructor|apply K; congruence].
  Qed.
  Lemma read_items_keeps config todo : forall i h a h' a' r, boot_inv a -> read_items slot plug sd so fuel config i todo h a = (h', a', r) -> r <> UB -> boot_inv a'.
  Proof.
    induction todo as [|todo IH]; intros i h a h' a' r I X NU; cbn [read_items] in X; [injection X as <- <- <-; exact I|].
    destruct (has_type config i h) as [h1 r1]. destruct r1 as [v|x| |]; try (injection X as <- <- <-; exact I). destruct v as [| | | |[|]| |]; try (injection X as <- <- <-; exact I).
    2: eapply IH; eauto.
    destruct (get_type config i h1) as [h2 r2]. destruct r2 as [v|x| |]; try (injection X as <- <- <-; exact I). destruct v; try (injection X as <- <- <-; exact I).
    destruct d; try (injection X as <- <- <-; exact I).
    destruct (get_configuration fuel config i h2) as [h3 r3]. destruct r3 as [conf|x| |]; try (injection X as <- <- <-; exact I).
    destruct (attempt slot plug sd so fuel h3 s conf a) as [a1 r4] eqn:At. pose proof (attempt_keeps h3 s conf a a1 r4 I At) as K.
    destruct r4 as [u|x| |]; try (injection X as <- <- <-; apply K; congruence). eapply IH; [|exact X|exact NU]. apply K. discriminate.
  Qed.
  Lemma read_files_keeps texts : forall h a h' a' r, boot_inv a -> read_files slot plug tokener sd so fuel texts h a = (h', a', r) -> r <> UB -> boot_inv a'.
  Proof.
    induction texts as [|t ts IH]; intros h a h' a' r I X NU; cbn [read_files] in X; [injection X as <- <- <-; exact I|].
    destruct (read_file slot plug tokener sd so fuel t h a) as [[h1 a1] r1] eqn:F.
    assert (r1 <> UB -> boot_inv a1) as K.
    { intros N. unfold read_file in F. destruct (raw_from_json tokener t h) as [h2 r2]. destruct r2 as [config|x| |]; try (injection F as <- <- <-; exact I).
      unfold read_config in F. destruct (h_op (OExists "plugins") config h2) as [h3 r3]. destruct r3 as [v|x| |]; try (injection F as <- <- <-; exact I).
      destruct v as [| | | |[|]| |]; try (injection F as <- <- <-; exact I).
      destruct (bind (h_path [SKey "plugins"] config) (fun c => h_op OCount c) h3) as [h4 r4]. destruct r4 as [v|x| |]; try (injection F as <- <- <-; exact I).
      destruct v; try (injection F as <- <- <-; exact I). eapply read_items_keeps; eauto. }
    destruct r1 as [u|x| |]; try (injection X as <- <- <-; apply K; congruence). eapply IH; [|exact X|exact NU]. apply K. discriminate.
  Qed.
End Boot.

Lemma made_app E a0 : make_app E = Ok a0 -> exists paths, a0 = mkApp (mkPm paths None [] [[]] 0 0) 0 [].
Proof. unfold make_app, new_manager. destruct (get_path_of_running_executable (en_exe E)); cbn; try discriminate. intros H. injection H as <-. eauto. Qed.
Lemma c_string_cases b : (exists t, read_c_string b = Ok t) \/ read_c_string b = UB.
Proof. induction b as [|[c|] b IH]; cbn; auto. destruct (Ascii.eqb c _); eauto. destruct IH as [(t & ->)| ->]; cbn; eauto. Qed.
Lemma make_app_cases E : (exists a0, make_app E = Ok a0) \/ make_app E = UB.
Proof.
  assert ((exists t, get_path_of_running_executable (en_exe E) = Ok t) \/ get_path_of_running_executable (en_exe E) = UB) as C by (unfold get_path_of_running_executable; destruct (en_exe E); apply c_string_cases).
  unfold make_app, new_manager. destruct C as [(t & ->)| ->]; cbn; eauto.
Qed.
Lemma paths_run paths : forall l, prun (map PAddPath paths) (mkPm l None [] [] 0 0) = (mkPm (l ++ paths) None [] [] 0 0, [], map (fun _ => Ok PUnit) paths).
Proof. induction paths as [|p paths IH]; intros l; cbn [map prun]; [now rewrite app_nil_r|]. cbn. rewrite IH, <- app_assoc. reflexivity. Qed.
Lemma booted paths : reached (mkPm paths (Some 0) [] [[]] 0 0) [].
Proof.
  assert (reached (mkPm paths None [] [] 0 0) []) as R.
  { exists (map PAddPath paths), (map (fun _ => Ok PUnit) paths). split; [exact (paths_run paths [])|]. intros I. apply in_map_iff in I as (x & H & _). discriminate. }
  eapply (reached_step _ _ PNewBus) in R; [|reflexivity|discriminate]. eapply (reached_step _ _ (PSetBus (Some 0))) in R; [|reflexivity|discriminate]. exact R.
Qed.
Lemma manager_map e : manager (map AePlugin e) = e.
Proof. unfold manager. induction e; cbn; congruence. Qed.
Lemma plain_quiet e : Forall plain e -> stopped e = [] /\ deinited e = [] /\ made (map AePlugin e) = [] /\ set_going (map AePlugin e) = [] /\ buses (map AePlugin e) = [].
Proof. induction 1 as [|x e P F (A & B & C & D & G)]; [repeat split|]. unfold stopped, deinited, made, set_going, buses in *. destruct x; try contradiction; cbn; auto. Qed.
Lemma bare_live st : bare st -> live st = [] /\ entries st = [].
Proof. intros B. split; apply flat_map_nil; intros [k t] I; cbn; [unfold instances|]; rewrite (B k t I); reflexivity. Qed.

Lemma loaded E paths m1 e r : load_paths (en_world E) paths (mkPm paths (Some 0) [] [[]] 0 0) = (m1, e, r) -> r <> UB ->
  r = Ok tt /\ boot_inv (en_slot E) (en_plug E) (mkApp m1 0 (map AePlugin e)) /\ bare m1 /\ Forall plain e.
Proof.
  intros L NU. pose proof (load_paths_bare _ _ _ _ _ _ (osorted_nil : osorted (pm_templates (mkPm paths (Some 0) [] [[]] 0 0))) (fun k t I => match I : False with end) L) as (P & B & _).
  assert (r = Ok tt) as -> by (apply load_paths_res in L as [->| ->]; [reflexivity|congruence]). split; [reflexivity|].
  destruct (plain_quiet e P) as (Q1 & Q2 & Q3 & Q4 & Q5). destruct (bare_live m1 B) as (V1 & V2).
  split; [|auto]. constructor; cbn [ap_pm ap_trace]; rewrite ?manager_map, ?Q1, ?Q2, ?Q3, ?Q4, ?Q5, ?V1, ?V2; auto.
  - refine (reached_step _ _ (PLoadAll (en_world E)) m1 e (Ok PUnit) (booted paths) _ _); [|discriminate]. cbn [PluginModel.pstep pm_paths]. rewrite L. reflexivity.
  - intros _ _ k t I (n & I2). rewrite (B k t I) in I2. destruct I2.
  - intros k t i I I2. unfold instances in I2. rewrite (B k t I) in I2. destruct I2.
Qed.
Lemma boot E fuel files a0 a1 r : make_app E = Ok a0 -> start_up E fuel files a0 = (a1, r) -> r <> UB -> boot_inv (en_slot E) (en_plug E) a1.
Proof.
  intros M H NU. apply made_app in M as (paths & ->). unfold start_up in H. cbn [ap_pm ap_trace ap_calls PluginModel.pstep fst pm_paths pm_templates pm_buses pm_handles pm_insts List.app] in H.
  destruct (load_paths (en_world E) paths (mkPm paths (Some 0) [] [[]] 0 0)) as [[m1 e] r1] eqn:L.
  destruct r1 as [u|x| |]; [| | |].
  - destruct (loaded _ _ _ _ _ L) as (_ & I & _); [discriminate|].
    destruct (read_files (en_slot E) (en_plug E) (en_json E) (en_double E) (en_other E) fuel (map (en_text E) files) [] (mkApp m1 0 (map AePlugin e))) as [[h2 a2] r2] eqn:R. injection H as <- <-.
    eapply read_files_keeps; eauto.
  - destruct (loaded _ _ _ _ _ L) as (X & _); discriminate.
  - injection H as _ <-. congruence.
  - destruct (loaded _ _ _ _ _ L) as (X & _); discriminate.
Qed.

(** ** What the parts say together *)

Lemma ledger_from tr : forall s p, In p (fst (fold_left ledger_step tr s)) -> In p (fst s) \/ In (PeLoaded (fst p) (snd p)) tr.
Proof.
  induction tr as [|e tr IH]; intros s p H; cbn [fold_left] in H; [auto|]. apply IH in H as [H|H]; [|right; now right].
  destruct e; cbn in H; auto; [|destruct H]. destruct H as [<-|H]; auto. right. now left.
Qed.
Lemma ledger_plain tr : Forall plain tr -> forall s p, In p (fst s) \/ In (PeLoaded (fst p) (snd p)) tr -> In p (fst (fold_left ledger_step tr s)).
Proof.
  induction 1 as [|e tr P F IH]; intros s p H; cbn [fold_left]; [destruct H as [H|[]]; exact H|]. apply IH.
  destruct H as [H|[->|H]]; auto; left; [destruct e; try contradiction; cbn; auto|]. destruct p. now left.
Qed.
Lemma assoc_in id h l : assoc id l = Some h -> In (id, h) l.
Proof. unfold assoc. destruct (find _ l) as [[k v]|] eqn:F; [|discriminate]. intros H. injection H as <-. apply find_some in F as (I & Q). apply String.eqb_eq in Q. now subst. Qed.
Lemma assoc_some id h l : In (id, h) l -> assoc id l <> None.
Proof. intros I. unfold assoc. destruct (find _ l) as [p|] eqn:F; [discriminate|]. pose proof (find_none _ _ F _ I) as N. cbn in N. now rewrite String.eqb_refl in N. Qed.

Lemma keys_loaded st e : inv st e -> Forall plain e -> forall id, In id (okeys (pm_templates st)) <-> exists h, In (PeLoaded id h) e.
Proof.
  intros IV P id. pose proof (iv_assoc _ _ IV id) as A. split.
  - intros I. destruct (olookup id (pm_templates st)) as [t|] eqn:L; [|apply okeys_lookup in L; contradiction]. cbn in A. apply assoc_in in A.
    apply ledger_from in A as [[]|A]. eauto.
  - intros (h & I). destruct (olookup id (pm_templates st)) as [t|] eqn:L; [apply olookup_in in L; unfold okeys; apply in_map_iff; now exists (id, t)|].
    cbn in A. exfalso. eapply assoc_some; [|exact A]. apply (ledger_plain e P ([], []) (id, h)). now right.
Qed.

Lemma instance_end E a1 m U i : boot_inv (en_slot E) (en_plug E) a1 -> unload_templates (ap_pm a1) = (m, U, Ok tt) -> In i (made (ap_trace a1)) ->
  exists tid h U1 U2 U3 U4, In (AePlugin (PeCreate tid i)) (ap_trace a1) /\ In (PeLoaded tid h) (manager (ap_trace a1)) /\ U = U1 ++ PeStop i :: U2 ++ PeDeinit i :: U3 ++ PeClose h :: U4.
Proof.
  intros B H I. apply unload_templates_ok in H as (_ & _ & ->). rewrite (bi_made _ _ _ B) in I. apply live_in in I as (k & t & I & J).
  pose proof (reached_inv _ _ (bi_reached _ _ _ B)) as IV. exists k, (tp_handle t).
  destruct (in_split _ _ I) as (x & y & Exy). destruct (in_split _ _ J) as (v & w & Evw).
  exists (flat_map (fun kt => block (snd kt)) x ++ map PeStop v), (map PeStop w ++ map PeDeinit v), (map PeDeinit w), (flat_map (fun kt => block (snd kt)) y ++ match pm_templates (ap_pm a1) with [] => [] | _ => [PeUnloaded] end).
  split; [eapply bi_of; eauto|]. split.
  - pose proof (iv_assoc _ _ IV k) as A. rewrite (in_olookup _ _ _ (iv_sorted _ _ IV) I) in A. cbn in A. apply assoc_in in A. apply ledger_from in A as [[]|A]. exact A.
  - rewrite Exy at 1. rewrite flat_map_app. cbn [flat_map snd]. unfold block at 2. rewrite Evw, !map_app. cbn [map]. repeat (rewrite <- ?app_assoc; cbn [List.app]). reflexivity.
Qed.

Lemma all_ended E a1 m U : boot_inv (en_slot E) (en_plug E) a1 -> unload_templates (ap_pm a1) = (m, U, Ok tt) ->
  let S := ap_trace a1 in
  Permutation (made S) (stopped U) /\ deinited U = stopped U /\ NoDup (map in_num (made S)) /\ stopped (manager S) = [] /\ deinited (manager S) = [] /\ incl (set_going S) (made S) /\
  Permutation (opened (manager S ++ U)) (closed (manager S ++ U) ++ replaced (manager S)).
Proof.
  intros B H S. destruct B as [A Bm (Q1 & Q2) D _ _ _]. pose proof (reached_inv _ _ A) as IV.
  pose proof (unload_inv _ _ _ _ _ IV H) as IV2. pose proof (unload_templates_ok _ _ _ _ H) as (_ & Em & EU).
  destruct (blocks_facts (pm_templates (ap_pm a1))) as (_ & _ & Lg & St & De).
  assert (stopped U = live (ap_pm a1) /\ deinited U = live (ap_pm a1)) as (S1 & S2).
  { rewrite EU. unfold stopped, deinited, live in *. rewrite !flat_map_app, St, De. destruct (pm_templates (ap_pm a1)) as [|p l]; [split; reflexivity|]. cbn [flat_map List.app]. rewrite !app_nil_r. auto. }
  rewrite S1, S2. split; [exact Bm|]. split; [reflexivity|].
  split; [eapply Permutation_NoDup; [symmetry; apply Permutation_map; exact Bm|apply IV]|]. split; [exact Q1|]. split; [exact Q2|]. split; [exact D|].
  pose proof (iv_perm _ _ IV2) as Pm. subst m. cbn [set_templates pm_templates map] in Pm. rewrite app_nil_r in Pm. fold S in Pm.
  replace (replaced (manager S)) with (replaced (manager S ++ U)); [exact Pm|]. unfold replaced. rewrite ledger_app, EU, fold_left_app, Lg. destruct (pm_templates (ap_pm a1)); reflexivity.
Qed.

Lemma null_count E a1 : boot_inv (en_slot E) (en_plug E) a1 -> (forall n x, fst (en_plug E n) <> CrThrow x) ->
  (snd (unload_templates (ap_pm a1)) = UB <-> length (made (ap_trace a1)) <> length (buses (ap_trace a1))).
Proof.
  intros B Nt. rewrite (Permutation_length (bi_made _ _ _ B)), (bi_count _ _ _ B Nt).
  assert (forall l : list (string * template), (forall k t, In (k, t) l -> ~ null_entry t) <-> length (flat_map (fun kt => instances (snd kt)) l) = length (flat_map (fun kt => tp_insts (snd kt)) l)) as Cn.
  { assert (forall m : list (string * option inst), let n := length (flat_map (fun s : string * option inst => match snd s with Some i => [i] | None => [] end) m) in n <= length m /\ (n = length m <-> forall x, ~ In (x, None) m)) as C1.
    { induction m as [|[x [i|]] m (Le & IH)]; cbn [flat_map length List.app snd] in *; [split; [lia|]; split; [intros _ x []|reflexivity]| |].
      - split; [lia|]. split; [intros Eq y [Q|Q]; [discriminate|]; apply IH in Q; [exact Q|lia]|]. intros Q. f_equal. apply IH. intros y J. apply (Q y). now right.
      - split; [lia|]. split; [lia|]. intros Q. destruct (Q x). now left. }
    assert (forall l : list (string * template), length (flat_map (fun kt => instances (snd kt)) l) <= length (flat_map (fun kt => tp_insts (snd kt)) l)) as Cl.
    { induction l as [|[k t] l IH]; cbn [flat_map snd]; [auto|]. rewrite !app_length. destruct (C1 (tp_insts t)) as (Le & _). fold (instances t) in Le. lia. }
    induction l as [|[k t] l IH]; cbn [flat_map snd]; [split; [reflexivity|intros _ k t []]|]. rewrite !app_length. destruct (C1 (tp_insts t)) as (Le & Eq). fold (instances t) in Le, Eq. pose proof (Cl l) as Le2.
    split.
    - intros N. assert (length (instances t) = length (tp_insts t)) as -> by (apply Eq; intros x I; apply (N k t (or_introl eq_refl)); now exists x). f_equal. apply IH. intros k' t' I. apply (N k' t'). now right.
    - intros Q k' t' [I|I]; [injection I as <- <-; intros (x & J); assert (length (instances t) = length (tp_insts t)) as Q' by lia; apply Eq in J; auto|]. apply IH with k'; [lia|exact I]. }
  fold (live (ap_pm a1)). specialize (Cn (pm_templates (ap_pm a1))). fold (live (ap_pm a1)) in Cn. fold (entries (ap_pm a1)) in Cn.
  destruct (null_dec_all (pm_templates (ap_pm a1))) as [NN|(k & t & I & Nn)].
  - destruct (unload_templates_fine _ NN) as (m & U & ->). cbn. apply Cn in NN. split; [discriminate|congruence].
  - rewrite (unload_templates_null _ _ _ I Nn). split; [|reflexivity]. intros _ Eq. exact (proj2 Cn Eq _ _ I Nn).
Qed.

(** ** The parts of the shapes *)

Lemma phases_app a b : phases (a ++ b) = phases a ++ phases b.
Proof. apply flat_map_app. Qed.
Lemma deeds_app a b : deeds (a ++ b) = deeds a ++ deeds b.
Proof. apply flat_map_app. Qed.
Lemma phases_done S : phases (map MApp S) = [].
Proof. apply flat_map_nil. intros x I. apply in_map_iff in I as (y & <- & _). reflexivity. Qed.
Lemma deeds_done S : deeds (map MApp S) = S.
Proof. unfold deeds. induction S; cbn; congruence. Qed.
Lemma phases_begun S : phases (begun S) = [].
Proof. exact (phases_done S). Qed.
Lemma phases_running S : phases (running S) = [EvBusStarted].
Proof. unfold running. now rewrite phases_app, phases_begun. Qed.
Lemma phases_detached S : phases (detached S) = [EvBusStarted; EvBusEnded; EvDetached].
Proof. unfold detached. now rewrite phases_app, phases_running. Qed.
Lemma deeds_begun S : deeds (begun S) = S.
Proof. exact (deeds_done S). Qed.
Lemma deeds_running S : deeds (running S) = S.
Proof. unfold running. rewrite deeds_app, deeds_begun. apply app_nil_r. Qed.
Lemma deeds_detached S : deeds (detached S) = S.
Proof. unfold detached. rewrite deeds_app, deeds_running. apply app_nil_r. Qed.
Lemma phases_raised x : phases (raised x) = [EvRaised x].
Proof. destruct x; reflexivity. Qed.
Lemma deeds_raised x : deeds (raised x) = [].
Proof. destruct x; reflexivity. Qed.
Lemma phases_complete S U : phases (complete S U) = [EvBusStarted; EvBusEnded; EvDetached; EvUnloaded; EvCleared; EvReturned].
Proof. unfold complete. now rewrite !phases_app, phases_detached, phases_done. Qed.
Lemma deeds_complete S U : deeds (complete S U) = S ++ U.
Proof. unfold complete. rewrite !deeds_app, deeds_detached, deeds_done. cbn. now rewrite app_nil_r. Qed.

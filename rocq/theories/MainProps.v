(** C92: the program, from its command line to its end. *)
From Coq Require Import String Ascii List Arith NArith ZArith Bool Lia Permutation.
From Verif Require Import Prelude OMap DatagramModel DatagramSpec SerialModel SerialSpec FilesystemModel FilesystemProps PluginModel PluginSpec PluginProofs PluginProps
  LoadProps AppModel AppSpec AppProofs AppProps LifeModel ProgModel ProgProps MainModel MainSpec MainProofs.
Import ListNotations.
Open Scope list_scope.

(** * C92 *)

(** Phases and output are those of ProgModel, so C80 holds of every execution. *)
Theorem C92_projects : forall E fuel argv ls s T, mexec E fuel argv ls minit = Some (s, T) ->
  pexec ls prog_init = Some (ms_prog s, phases T, output T).
Proof. intros E fuel argv ls s T X. exact (projects E fuel argv ls minit s T X). Qed.
Print Assumptions C92_projects.

Lemma exec_split E fuel argv l1 l2 s s2 T : mexec E fuel argv (l1 ++ l2) s = Some (s2, T) -> exists s1 T1 T2, mexec E fuel argv l1 s = Some (s1, T1) /\ mexec E fuel argv l2 s1 = Some (s2, T2) /\ T = T1 ++ T2.
Proof.
  rewrite mexec_app. intros H. destruct (mexec E fuel argv l1 s) as [[s1 T1]|]; [|discriminate H]. destruct (mexec E fuel argv l2 s1) as [[s3 T2]|] eqn:X2; [|discriminate H].
  injection H as <- <-. exists s1, T1, T2. auto.
Qed.

(** How the program ends normally: [S] is what was done before the bus started, [U] the unloading. *)
Theorem C92_exit : forall E fuel argv ls s T, mexec E fuel argv ls minit = Some (s, T) -> pg_pc (ms_prog s) = PExit ->
  exists S U, T = complete S (map AePlugin U) /\
  (* a signal came while the bus ran *)
  (exists l1 l2 s1, ls = l1 ++ PSignal :: l2 /\ mexec E fuel argv l1 minit = Some (s1, running S)) /\
  (* exactly the instances that were made have been stopped and deinitialised, each once *)
  Permutation (made S) (stopped U) /\ deinited U = stopped U /\ NoDup (map in_num (made S)) /\
  stopped (manager S) = [] /\ deinited (manager S) = [] /\
  (* each before its library was closed *)
  (forall i, In i (made S) -> exists tid h U1 U2 U3 U4,
     In (AePlugin (PeCreate tid i)) S /\ In (PeLoaded tid h) (manager S) /\ U = U1 ++ PeStop i :: U2 ++ PeDeinit i :: U3 ++ PeClose h :: U4) /\
  incl (set_going S) (made S) /\
  (* every library is closed, but those of templates that were replaced *)
  Permutation (opened (manager S ++ U)) (closed (manager S ++ U) ++ replaced (manager S)).
Proof.
  intros E fuel argv ls s T X P. pose proof (minv_run _ _ _ _ _ _ X) as I. unfold minv in I. rewrite P in I. destruct I as (a0 & a1 & m & U & St & Un & ->).
  pose proof (boot _ _ _ _ _ _ (proj1 St) (proj2 St) ltac:(discriminate)) as B. exists (ap_trace a1), U. split; [reflexivity|].
  destruct (all_ended _ _ _ _ B Un) as (A1 & A2 & A3 & A4 & A5 & A6 & A7). split; [|intuition; eapply instance_end; eauto].
  pose proof (C92_projects _ _ _ _ _ _ X) as Pr. destruct (C80_exit _ _ _ _ Pr) as (Q1 & _ & Q3). apply Q1 in P. destruct (Q3 P) as (_ & l1 & l2 & s1 & o1 & -> & Y).
  destruct (exec_split _ _ _ _ _ _ _ _ X) as (t1 & T1 & T2 & X1 & _ & _). exists l1, l2, t1. split; [reflexivity|].
  pose proof (C92_projects _ _ _ _ _ _ X1) as Pr1. rewrite Pr1 in Y. injection Y as _ Ph _. pose proof (minv_run _ _ _ _ _ _ X1) as J. rewrite X1. f_equal. f_equal.
  assert (forall b0 b1, started_up E fuel argv b0 b1 (Ok tt) -> b1 = a1) as Un1 by (intros b0 b1 (M1 & S1); destruct St as (M0 & S0); congruence).
  unfold minv in J. destruct (pg_pc (ms_prog t1)) eqn:P1.
  - destruct J as (-> & _). discriminate Ph.
  - destruct J as (-> & _). discriminate Ph.
  - destruct J as (_ & b0 & _ & _ & ->). discriminate Ph.
  - destruct (lf_phase (pg_life (ms_prog t1))) eqn:P2; cbn [phase_inv] in J; try contradiction.
    + destruct J as (b0 & _ & _ & ->). discriminate Ph.
    + destruct J as (b0 & b1 & Sb & _ & ->). now rewrite (Un1 _ _ Sb).
    + destruct J as (b0 & b1 & Sb & _ & ->). now rewrite (Un1 _ _ Sb).
    + destruct J as (b0 & b1 & Sb & _ & ->). now rewrite (Un1 _ _ Sb).
    + destruct J as (b0 & b1 & Sb & _ & ->). now rewrite (Un1 _ _ Sb).
    + destruct J as (b0 & b1 & Sb & _ & ->). rewrite phases_app, phases_running in Ph. discriminate Ph.
    + destruct J as (b0 & b1 & Sb & _ & ->). rewrite phases_detached in Ph. discriminate Ph.
    + destruct J as (b0 & b1 & m' & U' & Sb & _ & ->). rewrite phases_app, phases_detached in Ph. discriminate Ph.
    + destruct J as (b0 & b1 & m' & U' & Sb & _ & ->). rewrite phases_app, phases_detached in Ph. discriminate Ph.
  - destruct J as (b0 & b1 & m' & U' & Sb & _ & ->). rewrite phases_complete in Ph. discriminate Ph.
  - destruct J as [(b0 & b1 & y & Sb & _ & ->)|(b0 & b1 & Sb & ->)]; rewrite phases_app, phases_raised in Ph; [rewrite phases_begun in Ph|rewrite phases_running in Ph]; discriminate Ph.
Qed.
Print Assumptions C92_exit.

Lemma started_shape E fuel argv ls s T : mexec E fuel argv ls minit = Some (s, T) -> In EvBusStarted (phases T) ->
  exists a0 a1 rest, started_up E fuel argv a0 a1 (Ok tt) /\ T = running (ap_trace a1) ++ rest.
Proof.
  intros X H. pose proof (minv_run _ _ _ _ _ _ X) as J. unfold minv in J. destruct (pg_pc (ms_prog s)).
  - destruct J as (-> & _). destruct H.
  - destruct J as (-> & _). destruct H.
  - destruct J as (_ & b0 & _ & _ & ->). destruct H.
  - destruct (lf_phase (pg_life (ms_prog s))); cbn [phase_inv] in J; try contradiction.
    + destruct J as (b0 & _ & _ & ->). destruct H.
    + destruct J as (b0 & b1 & Sb & _ & ->). exists b0, b1, []. rewrite app_nil_r. auto.
    + destruct J as (b0 & b1 & Sb & _ & ->). exists b0, b1, []. rewrite app_nil_r. auto.
    + destruct J as (b0 & b1 & Sb & _ & ->). exists b0, b1, []. rewrite app_nil_r. auto.
    + destruct J as (b0 & b1 & Sb & _ & ->). exists b0, b1, []. rewrite app_nil_r. auto.
    + destruct J as (b0 & b1 & Sb & _ & ->). exists b0, b1. eauto.
    + destruct J as (b0 & b1 & Sb & _ & ->). exists b0, b1. unfold detached. eauto.
    + destruct J as (b0 & b1 & m' & U' & Sb & _ & ->). exists b0, b1. unfold detached. rewrite <- !app_assoc. eauto.
    + destruct J as (b0 & b1 & m' & U' & Sb & _ & ->). exists b0, b1. unfold detached. rewrite <- !app_assoc. eauto.
  - destruct J as (b0 & b1 & m' & U' & Sb & _ & ->). exists b0, b1. unfold complete, detached. rewrite <- !app_assoc. eauto.
  - destruct J as [(b0 & b1 & y & Sb & _ & ->)|(b0 & b1 & Sb & ->)]; [|eauto].
    exfalso. rewrite phases_app, phases_raised, phases_begun in H. destruct H as [H|[]]. discriminate H.
Qed.

Lemma deeds_shape E fuel argv ls s T : mexec E fuel argv ls minit = Some (s, T) ->
  deeds T = [] \/ exists a0 a1 r, started_up E fuel argv a0 a1 r /\ r <> UB /\ (deeds T = ap_trace a1 \/ exists m U, unload_templates (ap_pm a1) = (m, U, Ok tt) /\ deeds T = ap_trace a1 ++ map AePlugin U).
Proof.
  intros X. pose proof (minv_run _ _ _ _ _ _ X) as J. unfold minv in J. destruct (pg_pc (ms_prog s)).
  - destruct J as (-> & _). auto.
  - destruct J as (-> & _). auto.
  - destruct J as (_ & b0 & _ & _ & ->). auto.
  - destruct (lf_phase (pg_life (ms_prog s))); cbn [phase_inv] in J; try contradiction; [destruct J as (b0 & _ & _ & ->); auto|..];
    try (destruct J as (b0 & b1 & Sb & _ & ->); right; exists b0, b1, (Ok tt); (split; [exact Sb|]); (split; [discriminate|]); left; rewrite ?deeds_app, ?deeds_running, ?deeds_detached; cbn; rewrite ?app_nil_r; reflexivity);
    (destruct J as (b0 & b1 & m' & U' & Sb & Un & ->); right; exists b0, b1, (Ok tt); (split; [exact Sb|]); (split; [discriminate|]); right; exists m', U'; split; auto; rewrite !deeds_app, deeds_detached, deeds_done; cbn; now rewrite app_nil_r).
  - destruct J as (b0 & b1 & m' & U' & Sb & Un & ->). right. exists b0, b1, (Ok tt). split; auto. split; [discriminate|]. right. exists m', U'. split; auto. apply deeds_complete.
  - destruct J as [(b0 & b1 & y & Sb & _ & ->)|(b0 & b1 & Sb & ->)]; right.
    + exists b0, b1, (Throw y). split; auto. split; [discriminate|]. left. rewrite deeds_app, deeds_begun, deeds_raised. apply app_nil_r.
    + exists b0, b1, (Ok tt). split; auto. split; [discriminate|]. left. rewrite deeds_app, deeds_running, deeds_raised. apply app_nil_r.
Qed.

(** How the program ends by an exception: whatever was made is neither stopped nor deinitialised. *)
Theorem C92_raises : forall E fuel argv ls s T x, mexec E fuel argv ls minit = Some (s, T) -> pg_pc (ms_prog s) = PAbort x ->
  exists S a0 a1 r, make_app E = Ok a0 /\ start_up E fuel (configuration_files argv) a0 = (a1, r) /\ S = ap_trace a1 /\
  (T = begun S ++ raised x /\ (exists y, r = Throw y /\ (x = OtherError <-> y = BadFunctionCall \/ exists w, y = OtherException w /\ en_runtime E w = false)) \/ T = running S ++ raised x /\ r = Ok tt) /\
  stopped (manager S) = [] /\ deinited (manager S) = [] /\ incl (set_going S) (made S).
Proof.
  intros E fuel argv ls s T x X P. pose proof (minv_run _ _ _ _ _ _ X) as J. unfold minv in J. rewrite P in J.
  destruct J as [(b0 & b1 & y & Sb & C & ->)|(b0 & b1 & Sb & ->)].
  - pose proof (boot _ _ _ _ _ _ (proj1 Sb) (proj2 Sb) ltac:(discriminate)) as [_ _ (Q1 & Q2) Q3 _ _ _]. exists (ap_trace b1), b0, b1, (Throw y). destruct Sb. repeat (split; [solve [eauto]|]). split; [|auto].
    left. split; [reflexivity|]. exists y. split; [reflexivity|]. subst x. clear. destruct y; cbn; try (split; [discriminate|intros [D|(w & D & _)]; discriminate D]); [tauto|].
    split; [intros D; right; eexists; split; [reflexivity|]|intros [D|(w & D & R)]; [discriminate D|injection D as ->; now rewrite R]].
    match type of D with context [if ?b then _ else _] => destruct b end; [discriminate D|reflexivity].
  - pose proof (boot _ _ _ _ _ _ (proj1 Sb) (proj2 Sb) ltac:(discriminate)) as [_ _ (Q1 & Q2) Q3 _ _ _]. exists (ap_trace b1), b0, b1, (Ok tt). destruct Sb. repeat (split; [solve [eauto]|]). exact Q3.
Qed.
Print Assumptions C92_raises.

Lemma load_template_bus w p st st' e r : load_template w p st = (st', e, r) -> pm_bus st' = pm_bus st /\ pm_buses st' = pm_buses st.
Proof.
  unfold load_template. destruct (candidate w p); [|intros H; injection H as <- _ _; auto]. destruct (w_open w (c_str p)) as [l|]; [|intros H; injection H as <- _ _; auto].
  destruct (lb_info l) as [[id|]|]; try (intros H; injection H as <- _ _; auto). destruct (String.eqb id ""); [intros H; injection H as <- _ _; auto|].
  destruct (lb_create l); [|intros H; injection H as <- _ _; auto]. destruct (olookup id (pm_templates st)) as [old|]; [|intros H; injection H as <- _ _; auto].
  destruct (unload old) as [[t e1] r1]. intros H; injection H as <- _ _; auto.
Qed.
Lemma load_files_bus w d fs : forall st st' e r, load_files w d fs st = (st', e, r) -> pm_bus st' = pm_bus st /\ pm_buses st' = pm_buses st.
Proof.
  induction fs as [|f fs IH]; intros st st' e r H; cbn [load_files] in H; [injection H as <- _ _; auto|].
  destruct (load_template w (combine_paths d f) st) as [[s1 e1] r1] eqn:L. apply load_template_bus in L as (A & B).
  destruct r1; try (injection H as <- _ _; auto). destruct (load_files w d fs s1) as [[s2 e2] r2] eqn:L2. injection H as <- _ _. apply IH in L2 as (C & D). split; congruence.
Qed.
Lemma load_paths_bus w ps : forall st st' e r, load_paths w ps st = (st', e, r) -> pm_bus st' = pm_bus st /\ pm_buses st' = pm_buses st.
Proof.
  induction ps as [|p ps IH]; intros st st' e r H; cbn [load_paths] in H; [injection H as <- _ _; auto|].
  destruct (load_files w p (get_directory_contents (w_fs w) p OtFile) st) as [[s1 e1] r1] eqn:L. apply load_files_bus in L as (A & B).
  destruct r1; try (injection H as <- _ _; auto). destruct (load_paths w ps s1) as [[s2 e2] r2] eqn:L2. injection H as <- _ _. apply IH in L2 as (C & D). split; congruence.
Qed.

Lemma boots E argv ts : readable (en_json E) (map (en_text E) (configuration_files argv)) ts ->
  exists N, forall fuel a0 a1 r, N <= fuel -> make_app E = Ok a0 -> start_up E fuel (configuration_files argv) a0 = (a1, r) ->
  (r = UB /\ exists m e, load_paths (en_world E) (pm_paths (ap_pm a0)) (mkPm (pm_paths (ap_pm a0)) (Some 0) [] [[]] 0 0) = (m, e, UB)) \/
  exists L st bs, ap_trace a1 = map AePlugin L ++ concat (map (whole (en_double E) (en_other E)) bs) /\ Forall plain L /\
    (forall id, In id (okeys (pm_templates st)) <-> exists h, In (PeLoaded id h) L) /\ Forall (fun b => did st (fst b) (snd b)) bs /\
    ran_all (map doc_of ts) (map fst bs) r /\ (r = Ok tt \/ exists x, r = Throw x).
Proof.
  intros Rb. destruct (reads (en_slot E) (en_plug E) (en_json E) (en_double E) (en_other E) _ _ Rb) as (N & H). exists N. intros fuel a0 a1 r Le M St.
  apply made_app in M as (paths & ->). unfold start_up in St. cbn [ap_pm ap_trace ap_calls PluginModel.pstep fst pm_paths pm_templates pm_buses pm_handles pm_insts List.app] in St |- *.
  destruct (load_paths (en_world E) paths (mkPm paths (Some 0) [] [[]] 0 0)) as [[m1 e] r1] eqn:L.
  destruct (load_paths_res _ _ _ _ _ _ L) as [->| ->]; [right|left; injection St as _ <-; eauto].
  destruct (loaded _ _ _ _ _ L) as (_ & B & _ & P); [discriminate|]. pose proof (bi_reached _ _ _ B) as R. cbn [ap_pm ap_trace] in R. rewrite manager_map in R.
  destruct (load_paths_bus _ _ _ _ _ _ L) as (Bu & Bs). cbn in Bu, Bs.
  destruct (H fuel [] (mkApp m1 0 (map AePlugin e)) Le) as (h' & a' & r' & bs & Er & Tr & Ra & Di & _ & Rr).
  { split; [eauto|]. exists 0, []. cbn. unfold children. rewrite Bu, Bs. auto. }
  rewrite Er in St. injection St as <- <-. exists e, m1, bs. split; [exact Tr|]. split; [exact P|]. split; [|auto]. apply keys_loaded; [apply (reached_inv _ _ R)|exact P].
Qed.

(** What has been done when the bus starts: libraries were loaded, then every plugin was attempted that the file asks for,
    in order. [L]: the loading; [bs]: the calls with their events, where [st] has the templates that were loaded. *)
Theorem C92_started : forall E argv ts, readable (en_json E) (map (en_text E) (configuration_files argv)) ts ->
  exists N, forall fuel ls s T, N <= fuel -> mexec E fuel argv ls minit = Some (s, T) -> In EvBusStarted (phases T) ->
  exists L st bs rest, T = running (map AePlugin L ++ concat (map (whole (en_double E) (en_other E)) bs)) ++ rest /\
    (forall e, In e L -> match e with PeOpen _ | PeClose _ | PeLoaded _ _ => True | _ => False end) /\
    (forall id, In id (okeys (pm_templates st)) <-> exists h, In (PeLoaded id h) L) /\
    Forall (fun b => did st (fst b) (snd b)) bs /\
    map fst (map fst bs) = requested (map doc_of ts) /\ Forall (fun b => contained (snd (fst b))) bs.
Proof.
  intros E argv ts Rb. destruct (boots E argv ts Rb) as (N & H). exists N. intros fuel ls s T Le X I.
  destruct (started_shape _ _ _ _ _ _ X I) as (a0 & a1 & rest & (M & St) & ->).
  destruct (H fuel a0 a1 (Ok tt) Le M St) as [(D & _)|(L & st & bs & Tr & P & K & Di & Ra & _)]; [discriminate D|].
  exists L, st, bs, rest. split; [now rewrite Tr|]. split; [intros e Ie; rewrite Forall_forall in P; exact (P e Ie)|]. split; [exact K|]. split; [exact Di|].
  destruct (ran_all_prefix _ _ _ Ra) as (rem & Eq & Nr). rewrite (Nr eq_refl), app_nil_r in Eq. split; [auto|].
  apply ran_all_raises in Ra as [(_ & _ & _ & F)|(Nr' & _)]; [|congruence]. rewrite Forall_map in F. exact F.
Qed.
Print Assumptions C92_started.

(** A file whose "plugins" entry is of the wrong kind, or one of whose types is not a string, keeps the bus from ever starting. *)
Theorem C92_refused : forall E argv ts, readable (en_json E) (map (en_text E) (configuration_files argv)) ts ->
  In Wrong (map doc_of ts) \/ (exists l, In (Items l) (map doc_of ts) /\ In Bad l) ->
  exists N, forall fuel ls s T, N <= fuel -> mexec E fuel argv ls minit = Some (s, T) -> ~ In EvBusStarted (phases T) /\ pg_pc (ms_prog s) <> PExit.
Proof.
  intros E argv ts Rb Hw. destruct (boots E argv ts Rb) as (N & H). exists N. intros fuel ls s T Le X.
  assert (~ In EvBusStarted (phases T)) as Nb.
  { intros I. destruct (started_shape _ _ _ _ _ _ X I) as (a0 & a1 & rest & (M & St) & ->).
    destruct (H fuel a0 a1 (Ok tt) Le M St) as [(D & _)|(L & st & bs & Tr & P & K & Di & Ra & _)]; [discriminate D|].
    apply ran_all_raises in Ra as [(_ & Nw & Nb & _)|(Nr' & _)]; [|congruence]. destruct Hw as [Hw|(l & I1 & I2)]; [auto|]. exact (Nb l I1 I2). }
  split; [exact Nb|]. intros P. destruct (C92_exit _ _ _ _ _ _ X P) as (S & U & -> & _). apply Nb. rewrite phases_complete. now left.
Qed.
Print Assumptions C92_refused.

Lemma setup_shape E fuel argv ls s T : mexec E fuel argv ls minit = Some (s, T) -> pg_pc (ms_prog s) = PStarted -> lf_phase (pg_life (ms_prog s)) = Setup ->
  lf_bus (pg_life (ms_prog s)) = true /\ exists a0, make_app E = Ok a0 /\ ms_app s = Some a0 /\ T = begun [].
Proof.
  intros X P Ph. pose proof (minv_run _ _ _ _ _ _ X) as J. unfold minv in J. rewrite P, Ph in J. split; [|exact J].
  pose proof (C92_projects _ _ _ _ _ _ X) as Pr. destruct (pinv_ok _ _ _ _ Pr) as [_ _ _ D _ _]. destruct (D P) as (_ & _ & _ & _ & Bu & _). apply Bu. rewrite Ph. discriminate.
Qed.

(** Where libraries are searched. *)
Theorem C92_places : forall E exe, en_exe E = Some exe -> String.length exe < 1024 -> ~ occurs "000"%char exe ->
  let dir := get_base_directory exe in
  let work := match en_cwd E with Some p => if (String.length p <? 1024)%nat then c_str p else ""%string | None => ""%string end in
  exists a0, make_app E = Ok a0 /\ pm_paths (ap_pm a0) = (if string_dec dir work then [dir] else [dir; work]) ++ [(work ++ "/lib")%string].
Proof.
  intros E exe He Le Nz dir work. destruct (C71_search_paths (mkPmConf [] None) exe (en_cwd E) Le Nz) as (st & Eq & _ & _ & Pa).
  unfold make_app. rewrite He, Eq. cbn [res_map]. eexists. split; [reflexivity|]. exact Pa.
Qed.
Print Assumptions C92_places.

(** When start-up is undefined, for a file that can be read: a library in a search directory returns no plugin info. *)
Theorem C92_undefined : forall E argv ts, readable (en_json E) (map (en_text E) (configuration_files argv)) ts ->
  exists N, forall fuel ls s T a0, N <= fuel -> mexec E fuel argv ls minit = Some (s, T) -> pg_pc (ms_prog s) = PStarted -> lf_phase (pg_life (ms_prog s)) = Setup -> make_app E = Ok a0 ->
  (mstep E fuel argv (PApp LBus) s = Some None <-> exists f, In f (search_list (w_fs (en_world E)) (pm_paths (ap_pm a0))) /\ null_info (en_world E) f).
Proof.
  intros E argv ts Rb. destruct (boots E argv ts Rb) as (N & H). exists N. intros fuel ls s T a0 Le X P Ph M.
  destruct (setup_shape _ _ _ _ _ _ X P Ph) as (Bu & a0' & M' & Sa & _). assert (a0' = a0) as -> by congruence.
  assert (mstep E fuel argv (PApp LBus) s = Some None <-> snd (start_up E fuel (configuration_files argv) a0) = UB) as ->.
  { unfold mstep, ProgModel.pstep, lstep, effect. rewrite P, Ph, Bu, Sa. destruct (start_up E fuel (configuration_files argv) a0) as [a1 [u|x| |]]; cbn; split; intros Q; try discriminate Q; reflexivity. }
  destruct (C71_outcome (en_world E) (mkPm (pm_paths (ap_pm a0)) (Some 0) [] [[]] 0 0)) as (m & e & r & Q1 & _ & Q2). cbn [PluginModel.pstep pm_paths] in Q1, Q2.
  destruct (load_paths (en_world E) (pm_paths (ap_pm a0)) (mkPm (pm_paths (ap_pm a0)) (Some 0) [] [[]] 0 0)) as [[m1 e1] r1] eqn:L. injection Q1 as _ _ <-.
  destruct (start_up E fuel (configuration_files argv) a0) as [a1 r] eqn:St. cbn [snd].
  assert (r = UB <-> r1 = UB) as ->.
  { destruct (H fuel a0 a1 r Le M St) as [(-> & m' & e' & L')|(L' & st & bs & _ & _ & _ & _ & _ & Rr)].
    - rewrite L in L'. injection L' as _ _ ->. tauto.
    - split; [intros ->; destruct Rr as [D|(x & D)]; discriminate D|]. intros ->. pose proof (made_app _ _ M) as (ps & ->). unfold start_up in St. cbn [ap_pm ap_trace ap_calls PluginModel.pstep fst pm_paths pm_templates pm_buses pm_handles pm_insts List.app] in St, L.
      rewrite L in St. injection St as _ <-. reflexivity. }
  assert (r1 = UB <-> res_map (fun _ : unit => PUnit) r1 = UB) as -> by (destruct r1; cbn; split; congruence). rewrite Q2. split; [|auto].
  intros [D|(f & id & t & _ & _ & D & _)]; [exact D|]. discriminate D.
Qed.
Print Assumptions C92_undefined.

Lemma detached_shape E fuel argv ls s T : mexec E fuel argv ls minit = Some (s, T) -> pg_pc (ms_prog s) = PStarted -> lf_phase (pg_life (ms_prog s)) = Detached ->
  exists a1, ms_app s = Some a1 /\ boot_inv (en_slot E) (en_plug E) a1 /\ T = detached (ap_trace a1) /\ (mstep E fuel argv (PApp LUnload) s = Some None <-> snd (unload_templates (ap_pm a1)) = UB).
Proof.
  intros X P Ph. pose proof (minv_run _ _ _ _ _ _ X) as J. unfold minv in J. rewrite P, Ph in J. destruct J as (a0 & a1 & (M & St) & Sa & ->). exists a1. split; [exact Sa|].
  pose proof (boot _ _ _ _ _ _ M St ltac:(discriminate)) as B. split; [exact B|]. split; [reflexivity|].
  unfold mstep, ProgModel.pstep, lstep, effect. rewrite P, Ph, Sa. destruct (unload_templates (ap_pm a1)) as [[m U] [u|x| |]]; cbn; split; intros Q; try discriminate Q; reflexivity.
Qed.

(** Where CreateInstance does not throw, the end is undefined exactly if fewer instances were made than buses for them, that is
    if CreateInstance has returned null. *)
Theorem C92_null : forall E fuel argv ls s T, mexec E fuel argv ls minit = Some (s, T) -> pg_pc (ms_prog s) = PStarted -> lf_phase (pg_life (ms_prog s)) = Detached ->
  (forall n x, fst (en_plug E n) <> CrThrow x) ->
  (mstep E fuel argv (PApp LUnload) s = Some None <-> length (made (deeds T)) <> length (buses (deeds T))).
Proof.
  intros E fuel argv ls s T X P Ph Nt. destruct (detached_shape _ _ _ _ _ _ X P Ph) as (a1 & _ & B & -> & ->). rewrite deeds_detached. now apply (null_count E).
Qed.
Print Assumptions C92_null.

Theorem C92_clean : forall E fuel argv ls s T, mexec E fuel argv ls minit = Some (s, T) ->
  en_slot E = false -> (forall n, fst (en_plug E n) <> CrNull) -> mstep E fuel argv (PApp LUnload) s <> Some None.
Proof.
  intros E fuel argv ls s T X Sl Nn H.
  destruct (pg_pc (ms_prog s)) eqn:P; try (unfold mstep, ProgModel.pstep in H; rewrite P in H; discriminate H).
  destruct (lf_phase (pg_life (ms_prog s))) eqn:Ph; try (unfold mstep, ProgModel.pstep, lstep in H; rewrite P, Ph in H; discriminate H).
  destruct (detached_shape _ _ _ _ _ _ X P Ph) as (a1 & _ & B & -> & Iff). apply Iff in H.
  destruct (unload_templates_fine _ (bi_null _ _ _ B Sl Nn)) as (m & U & Eq). rewrite Eq in H. discriminate H.
Qed.
Print Assumptions C92_clean.

(** Without an argument no plugin is ever attempted, and no exception comes before the bus runs. *)
Theorem C92_alone : forall E fuel argv ls s T, length argv <= 1 -> mexec E fuel argv ls minit = Some (s, T) ->
  made (deeds T) = [] /\ set_going (deeds T) = [] /\ (forall ty conf r, ~ In (AeCall ty conf r) (deeds T)) /\
  (forall x, In (EvRaised x) (phases T) -> In EvBusStarted (phases T)).
Proof.
  intros E fuel argv ls s T Le X. assert (configuration_files argv = []) as Ef by (destruct argv as [|a [|b argv]]; [reflexivity|reflexivity|cbn in Le; lia]).
  assert (forall a0 a1 r, started_up E fuel argv a0 a1 r -> r <> UB -> r = Ok tt /\ exists e, Forall plain e /\ ap_trace a1 = map AePlugin e /\ bare (ap_pm a1)) as K.
  { intros a0 a1 r (M & St) NU. apply made_app in M as (paths & ->). unfold start_up in St. rewrite Ef in St. cbn [ap_pm ap_trace ap_calls PluginModel.pstep fst pm_paths pm_templates pm_buses pm_handles pm_insts List.app map read_files] in St.
    destruct (load_paths (en_world E) paths (mkPm paths (Some 0) [] [[]] 0 0)) as [[m1 e] r1] eqn:L.
    destruct (load_paths_res _ _ _ _ _ _ L) as [->| ->]; [|injection St as _ <-; congruence]. destruct (loaded _ _ _ _ _ L) as (_ & _ & Ba & P); [discriminate|].
    injection St as <- <-. split; [reflexivity|]. exists e. auto. }
  split; [|split; [|split]].
  - destruct (deeds_shape _ _ _ _ _ _ X) as [->|(a0 & a1 & r & St & NU & Ds)]; [reflexivity|]. destruct (K _ _ _ St NU) as (_ & e & P & Et & Ba). destruct (plain_quiet e P) as (_ & _ & Q & _).
    destruct Ds as [->|(m & U & Un & ->)]; rewrite Et; [exact Q|]. unfold made in *. rewrite flat_map_app, Q. cbn [List.app].
    apply unload_templates_ok in Un as (_ & _ & ->). apply flat_map_nil. intros x I. apply in_map_iff in I as (y & <- & I). destruct y; try reflexivity. exfalso.
    apply in_app_iff in I as [I|I]; [|destruct (pm_templates (ap_pm a1)); [destruct I|destruct I as [I|[]]; discriminate I]].
    apply in_flat_map in I as ([k t] & _ & I). unfold block in I. cbn [snd] in I. apply in_app_iff in I as [I|I]; [apply in_map_iff in I as (z & D & _); discriminate D|].
    apply in_app_iff in I as [I|I]; [apply in_map_iff in I as (z & D & _); discriminate D|]. destruct I as [I|[]]. discriminate I.
  - destruct (deeds_shape _ _ _ _ _ _ X) as [->|(a0 & a1 & r & St & NU & Ds)]; [reflexivity|]. destruct (K _ _ _ St NU) as (_ & e & P & Et & Ba).
    destruct Ds as [->|(m & U & Un & ->)]; rewrite Et; apply flat_map_nil; intros x I; [|apply in_app_iff in I as [I|I]]; apply in_map_iff in I as (y & <- & I); reflexivity.
  - intros ty conf rr I. destruct (deeds_shape _ _ _ _ _ _ X) as [D|(a0 & a1 & r & St & NU & Ds)]; [rewrite D in I; destruct I|]. destruct (K _ _ _ St NU) as (_ & e & P & Et & Ba).
    destruct Ds as [D|(m & U & Un & D)]; rewrite D, Et in I; [|apply in_app_iff in I as [I|I]]; apply in_map_iff in I as (y & Q & _); discriminate Q.
  - intros x I. pose proof (minv_run _ _ _ _ _ _ X) as J. pose proof (C92_projects _ _ _ _ _ _ X) as Pr. destruct (pinv_ok _ _ _ _ Pr) as [A B C D G _].
    destruct (pg_pc (ms_prog s)) eqn:Pc.
    + destruct (A eq_refl) as (_ & Eq & _). rewrite Eq in I. destruct I.
    + destruct (B eq_refl) as (_ & Eq & _). rewrite Eq in I. destruct I.
    + destruct (C eq_refl) as (_ & _ & _ & Eq & _). rewrite Eq in I. destruct I.
    + destruct (D eq_refl) as (_ & _ & Eq & _). rewrite Eq in I. destruct (lf_phase (pg_life (ms_prog s))); cbn in I; intuition discriminate.
    + destruct (G eq_refl) as (Eq & _). rewrite Eq. now left.
    + unfold minv in J. rewrite Pc in J. destruct J as [(b0 & b1 & y & Sb & _)|(b0 & b1 & Sb & ->)]; [|rewrite phases_app, phases_running; now left].
      destruct (K _ _ _ Sb) as (Q & _); discriminate.
Qed.
Print Assumptions C92_alone.

(** A signal is undefined behaviour exactly before LampPost is made and after its members are cleared. *)
Theorem C92_signal : forall E fuel argv ls s T, mexec E fuel argv ls minit = Some (s, T) ->
  (mstep E fuel argv PSignal s = Some None <-> pg_pc (ms_prog s) = PHooked \/ pg_pc (ms_prog s) = PStarted /\ In EvCleared (phases T)).
Proof.
  intros E fuel argv ls s T X. pose proof (C92_projects _ _ _ _ _ _ X) as Pr. rewrite <- (C80_signal _ _ _ _ Pr).
  unfold mstep. destruct (ProgModel.pstep PSignal (ms_prog s)) as [[((g & e) & o)|]|] eqn:P; [|tauto|split; intros H; discriminate H]. split; intros H; [|discriminate H].
  destruct (ms_app s); cbn in H; discriminate H.
Qed.
Print Assumptions C92_signal.

(** Of the command line, only the first argument matters; it is the configuration file. *)
Theorem C92_arguments : forall E fuel n f more,
  configuration_files (n :: f :: more) = [f] /\ configuration_files [n] = [] /\
  forall n' more' ls s, mexec E fuel (n :: f :: more) ls s = mexec E fuel (n' :: f :: more') ls s.
Proof.
  intros E fuel n f more. split; [reflexivity|]. split; [reflexivity|]. intros n' more' ls. induction ls as [|l ls IH]; intros s; cbn [mexec]; [reflexivity|].
  change (mstep E fuel (n' :: f :: more') l s) with (mstep E fuel (n :: f :: more) l s). destruct (mstep E fuel (n :: f :: more) l s) as [[[s1 e1]|]|]; auto. now rewrite IH.
Qed.
Print Assumptions C92_arguments.

(** The program can always go on, unless start-up never ends. *)
Theorem C92_goes_on : forall E fuel argv ls s T, mexec E fuel argv ls minit = Some (s, T) -> pg_pc (ms_prog s) <> PExit -> (forall x, pg_pc (ms_prog s) <> PAbort x) ->
  (exists l, l <> PSignal /\ mstep E fuel argv l s <> None) \/
  (exists a0, make_app E = Ok a0 /\ snd (start_up E fuel (configuration_files argv) a0) = NoFuel).
Proof.
  intros E fuel argv ls s T X N1 N2. pose proof (C92_projects _ _ _ _ _ _ X) as Pr. pose proof (minv_run _ _ _ _ _ _ X) as J.
  destruct (pinv_ok _ _ _ _ Pr) as [A B C D _ _]. unfold minv in J. destruct (pg_pc (ms_prog s)) eqn:P; [| | | |congruence|now destruct (N2 x)].
  - left. exists PHook. split; [discriminate|]. unfold mstep, ProgModel.pstep. rewrite P. cbn. discriminate.
  - left. exists PMake. split; [discriminate|]. destruct (B eq_refl) as (Lf & _). unfold mstep, ProgModel.pstep. rewrite P, Lf. cbn [lstep life_init lf_phase lf_made].
    assert (effect E fuel argv PMake s = Some (res_map (fun a => (Some a, @nil aevent)) (make_app E))) as -> by (unfold effect; destruct (ms_app s); reflexivity).
    destruct (make_app_cases E) as [(a0 & ->)| ->]; cbn; discriminate.
  - left. exists PStart. split; [discriminate|]. destruct (C eq_refl) as (Ma & _ & Ph & _). destruct J as (_ & a0 & _ & Sa & _). unfold mstep, ProgModel.pstep, lstep, effect. rewrite P, Ph, Ma, Sa. cbn. discriminate.
  - destruct (D eq_refl) as (Ma & NI & _ & _ & Bu & _). destruct (lf_phase (pg_life (ms_prog s))) eqn:Ph; cbn [phase_inv] in J; try contradiction.
    + destruct J as (a0 & M & Sa & _). assert (lf_bus (pg_life (ms_prog s)) = true) as Bt by (apply Bu; discriminate).
      destruct (start_up E fuel (configuration_files argv) a0) as [a1 r] eqn:St. destruct r as [u|x| |]; [left|left|left|right; exists a0; rewrite St; auto].
      * exists (PApp LBus). split; [discriminate|]. unfold mstep, ProgModel.pstep, lstep, effect. rewrite P, Ph, Bt, Sa, St. discriminate.
      * exists (PApp (LRaise (class_of E x))). split; [discriminate|]. unfold mstep, ProgModel.pstep, lstep, effect. rewrite P, Ph, Sa, St. destruct (class_of E x); discriminate.
      * exists (PApp LBus). split; [discriminate|]. unfold mstep, ProgModel.pstep, lstep, effect. rewrite P, Ph, Bt, Sa, St. discriminate.
    + left. exists (PApp LCheck). split; [discriminate|]. destruct J as (a0 & a1 & _ & Sa & _). unfold mstep, ProgModel.pstep, lstep, effect. rewrite P, Ph, Sa. destruct (lf_should (pg_life (ms_prog s))); discriminate.
    + left. exists (PApp LWake). split; [discriminate|]. destruct J as (a0 & a1 & _ & Sa & _). unfold mstep, ProgModel.pstep, lstep, effect. rewrite P, Ph, Sa. discriminate.
    + left. exists (PApp (LTest 0)). split; [discriminate|]. destruct J as (a0 & a1 & _ & Sa & _). unfold mstep, ProgModel.pstep, lstep, effect. rewrite P, Ph, Sa. destruct (lf_should (pg_life (ms_prog s))); discriminate.
    + left. exists (PApp LWork). split; [discriminate|]. destruct J as (a0 & a1 & _ & Sa & _). unfold mstep, ProgModel.pstep, lstep, effect. rewrite P, Ph, Sa. destruct n; discriminate.
    + left. exists (PApp LDetach). split; [discriminate|]. destruct J as (a0 & a1 & _ & Sa & _). assert (lf_bus (pg_life (ms_prog s)) = true) as Bt by (apply Bu; discriminate). unfold mstep, ProgModel.pstep, lstep, effect. rewrite P, Ph, Sa, Bt. discriminate.
    + left. exists (PApp LUnload). split; [discriminate|]. destruct J as (a0 & a1 & _ & Sa & _). unfold mstep, ProgModel.pstep, lstep, effect. rewrite P, Ph, Sa.
      destruct (null_dec_all (pm_templates (ap_pm a1))) as [NN|(k & t & I & Nn)].
      * destruct (unload_templates_fine _ NN) as (m & U & ->). discriminate.
      * pose proof (unload_templates_null _ _ _ I Nn) as Eq. destruct (unload_templates (ap_pm a1)) as [[m U] r]. cbn in Eq. subst r. discriminate.
    + left. exists (PApp LClear). split; [discriminate|]. unfold mstep, ProgModel.pstep, lstep, effect. rewrite P, Ph. destruct (ms_app s); discriminate.
    + left. exists (PApp LReturn). split; [discriminate|]. unfold mstep, ProgModel.pstep, lstep, effect. rewrite P, Ph. destruct (ms_app s); discriminate.
Qed.
Print Assumptions C92_goes_on.

Section Leads.
  Variables (E : env) (fuel : nat) (argv : list string) (a : app) (m : pm) (U : list pevent) (Un : unload_templates (ap_pm a) = (m, U, Ok tt)) (r : runstate).
  Let at_ (p : phase) : mstate := mkMS (mkProg PStarted (mkLife true p true false r)) (Some a).
  Let leads (p : phase) : Prop := exists ls s T, mexec E fuel argv ls (at_ p) = Some (s, T) /\ pg_pc (ms_prog s) = PExit /\ forall l, In l ls -> exists l', l = PApp l'.
  Lemma leads_step p q l e : mstep E fuel argv (PApp l) (at_ p) = Some (Some (at_ q, e)) -> leads q -> leads p.
  Proof.
    intros H (ls & s & T & X & P & F). exists (PApp l :: ls), s, (e ++ T). cbn [mexec]. rewrite H, X. split; [reflexivity|]. split; [exact P|]. intros l' [<-|I]; eauto.
  Qed.
  Lemma leads_ended : leads Ended.
  Proof.
    exists [PApp LDetach; PApp LUnload; PApp LClear; PApp LReturn]. eexists _, _. split; [|split].
    - unfold at_. cbn [mexec mstep ProgModel.pstep ms_prog pg_pc pg_life lstep lf_phase lf_bus lf_made lf_should lf_run effect ms_app]. rewrite Un.
      cbn [res_map map List.app mexec mstep ProgModel.pstep ms_prog pg_pc pg_life lstep lf_phase lf_bus lf_made lf_should lf_run effect ms_app]. reflexivity.
    - reflexivity.
    - intros l I. repeat (destruct I as [<-|I]; [eauto|]). destruct I.
  Qed.
  Lemma leads_check : leads Check.
  Proof. eapply (leads_step _ _ LCheck); [reflexivity|apply leads_ended]. Qed.
  Lemma leads_running p : match p with Check | Wait | Test | Work _ => True | _ => False end -> leads p.
  Proof.
    destruct p as [| | | | |n| | | |]; intros Q; try contradiction.
    - apply leads_check.
    - eapply (leads_step _ _ LWake); [reflexivity|]. eapply (leads_step _ _ (LTest 0)); [reflexivity|apply leads_ended].
    - eapply (leads_step _ _ (LTest 0)); [reflexivity|apply leads_ended].
    - induction n as [|n IH]; (eapply (leads_step _ _ LWork); [reflexivity|]); [apply leads_check|]. now apply IH.
  Qed.
End Leads.

(** While the bus runs, a signal lets the program end normally. *)
Theorem C92_stops : forall E fuel argv ls s T, mexec E fuel argv ls minit = Some (s, T) ->
  pg_pc (ms_prog s) = PStarted -> phases T = [EvBusStarted] -> en_slot E = false -> (forall n, fst (en_plug E n) <> CrNull) ->
  exists ls' s' T', mexec E fuel argv (ls ++ PSignal :: ls') minit = Some (s', T') /\ pg_pc (ms_prog s') = PExit /\ (forall l, In l ls' -> exists l', l = PApp l').
Proof.
  intros E fuel argv ls s T X P Hs Sl Nn. pose proof (C92_projects _ _ _ _ _ _ X) as Pr. pose proof (minv_run _ _ _ _ _ _ X) as J.
  destruct (pinv_ok _ _ _ _ Pr) as [_ _ _ D _ _]. destruct (D P) as (Ma & _ & Up & _ & Bu & _). rewrite Hs in Up. unfold minv in J. rewrite P in J.
  assert (match lf_phase (pg_life (ms_prog s)) with Check | Wait | Test | Work _ => True | _ => False end) as Q by (destruct (lf_phase (pg_life (ms_prog s))); try discriminate Up; exact I).
  assert (exists a0 a1, started_up E fuel argv a0 a1 (Ok tt) /\ ms_app s = Some a1) as (a0 & a1 & (M & St) & Sa).
  { destruct (lf_phase (pg_life (ms_prog s))); try contradiction; destruct J as (a0 & a1 & St & Sa & _); eauto. }
  pose proof (boot _ _ _ _ _ _ M St ltac:(discriminate)) as B. destruct (unload_templates_fine _ (bi_null _ _ _ B Sl Nn)) as (m & U & Un).
  assert (lf_bus (pg_life (ms_prog s)) = true) as Bt by (apply Bu; destruct (lf_phase (pg_life (ms_prog s))); try contradiction; discriminate).
  destruct (leads_running E fuel argv a1 m U Un (lf_run (pg_life (ms_prog s))) _ Q) as (ls' & s' & T' & X' & P' & F).
  exists ls', s', (T ++ T'). split; [|auto]. rewrite mexec_app, X. cbn [mexec].
  assert (mstep E fuel argv PSignal s = Some (Some (mkMS (mkProg PStarted (mkLife true (lf_phase (pg_life (ms_prog s))) true false (lf_run (pg_life (ms_prog s))))) (Some a1), []))) as ->.
  { unfold mstep, ProgModel.pstep, lstep, effect. rewrite P, Ma, Bt, Sa. destruct (lf_phase (pg_life (ms_prog s))); reflexivity. }
  rewrite X'. reflexivity.
Qed.
Print Assumptions C92_stops.

(** ** Cases *)

(** A program in /p with the libraries of [a_world], and a file as in C47. *)
Definition a_place (tok : string -> option json) (plug : nat -> created * option exc) : env :=
  mkEnv (Some "/p/lamppost"%string) (Some "/w"%string) a_world (fun f => f) false plug tok no_text no_text2 (fun _ => true).
Definition a_run : list plabel := [PHook; PMake; PSignal; PStart; PApp LBus; PApp LCheck; PApp LWake; PApp (LTest 1); PApp LWork; PSignal; PApp LWork; PApp LCheck; PApp LDetach; PApp LUnload; PApp LClear; PApp LReturn].
Definition seen {A} (f : list mevent -> A) (r : option (mstate * list mevent)) : option (ppc * A) := option_map (fun p => (pg_pc (ms_prog (fst p)), f (snd p))) r.

Example C92_case :
  readable good_file (map (en_text (a_place good_file plain_plugs)) (configuration_files ["lamppost"; "x"; "y"]%string)) [good_means] /\
  seen (fun T => T) (mexec (a_place good_file plain_plugs) 10 ["lamppost"; "x"; "y"]%string a_run minit) =
    Some (PExit,
      let i := mkInst 0 "A0" 1 (Dct [("port"%string, Val (DInt 7))]) in
      let k := mkInst 1 "A10" 2 Emp in
      complete
        [AePlugin (PeOpen 0); AePlugin (PeLoaded "A" 0); AePlugin (PeOpen 1); AePlugin (PeLoaded "A1" 1);
         AePlugin (PeBus 0 "A0" 1); AePlugin (PeCreate "A" i); AeInit i; AeStart i; AeCall "A" (in_conf i) (Ok tt);
         AeCall "missing" Emp (Throw (OperationFailed "Failed to instantiate plugin: 'missing'"));
         AeError "Failed to instantiate plugin: 'missing'" "null";
         AePlugin (PeBus 0 "A10" 2); AePlugin (PeCreate "A1" k); AeInit k; AeStart k; AeCall "A1" Emp (Ok tt)]
        (map AePlugin [PeStop i; PeDeinit i; PeClose 0; PeStop k; PeDeinit k; PeClose 1; PeUnloaded])).
Proof. split; [exact good_readable|]. vm_compute. reflexivity. Qed.

(** A "type" that is not a string: the first plugin was started and stays as it is. *)
Definition bad_file : string -> option json := file_of (JArray [JObject [("type", JString "A")]; JObject [("type", JInt 3)]])%string.
Example C92_refused_case :
  readable bad_file ["x"%string] [Dct [("plugins", Lst [Dct [("type", Val (DStr "A"))]; Dct [("type", Val (DInt 3))]])]%string] /\
  (exists l, In (Items l) (map doc_of [Dct [("plugins", Lst [Dct [("type", Val (DStr "A"))]; Dct [("type", Val (DInt 3))]])]%string]) /\ In Bad l) /\
  seen (fun T => (output T, phases T, map in_name (set_going (deeds T)), map in_name (stopped (manager (deeds T)))))
    (mexec (a_place bad_file plain_plugs) 10 ["lamppost"; "x"]%string [PHook; PMake; PStart; PApp (LRaise RuntimeError)] minit) =
    Some (PAbort RuntimeError, ([Hooking; Starting; What], [EvRaised RuntimeError], ["A0"%string], [])).
Proof.
  split; [|split; [|vm_compute; reflexivity]].
  - split; [|split].
    + constructor; [|constructor]. unfold file_means, bad_file, file_of. apply (means_by_parser _ _ 10); vm_compute; reflexivity.
    + intros text j [<-|[]] Ej. injection Ej as <-. apply has_nul_ok. vm_compute. reflexivity.
    + repeat constructor.
  - eexists. split; [left; reflexivity|]. right. now left.
Qed.

(** CreateInstance returns null: the end is undefined. Without arguments, there is nothing to stop. *)
Definition to_the_end : list plabel := [PHook; PMake; PStart; PApp LBus; PApp LCheck; PApp LWake; PSignal; PApp (LTest 0); PApp LDetach].
Example C92_null_case :
  let E := a_place good_file (fun n => (match n with 0 => CrNull | _ => CrObject end, None)) in
  (forall n x, fst (en_plug E n) <> CrThrow x) /\
  seen (fun T => (length (made (deeds T)), length (buses (deeds T)))) (mexec E 10 ["lamppost"; "x"]%string to_the_end minit) = Some (PStarted, (1, 2)) /\
  mexec E 10 ["lamppost"; "x"]%string (to_the_end ++ [PApp LUnload]) minit = None /\
  seen (fun T => (phases T, closed (manager (deeds T)))) (mexec E 10 ["lamppost"]%string (to_the_end ++ [PApp LUnload]) minit) =
    Some (PStarted, ([EvBusStarted; EvBusEnded; EvDetached; EvUnloaded], [0; 1])).
Proof. split; [intros [|n] x; discriminate|]. repeat split; vm_compute; reflexivity. Qed.

(** The hypotheses of C92_stops and C92_undefined: the state while the bus runs, and before it starts. *)
Example C92_stops_case :
  seen phases (mexec (a_place good_file plain_plugs) 10 ["lamppost"; "x"]%string [PHook; PMake; PStart; PApp LBus; PApp LCheck; PApp LWake; PApp (LTest 3)] minit) = Some (PStarted, [EvBusStarted]) /\
  (forall n, fst (plain_plugs n) <> CrNull) /\
  option_map (fun p => lf_phase (pg_life (ms_prog (fst p)))) (mexec (a_place good_file plain_plugs) 10 ["lamppost"; "x"]%string [PHook; PMake; PStart] minit) = Some Setup /\
  exists a0, make_app (a_place good_file plain_plugs) = Ok a0 /\ pm_paths (ap_pm a0) = ["/p"; "/w"; "/w/lib"]%string.
Proof. split; [vm_compute; reflexivity|]. split; [discriminate|]. split; [vm_compute; reflexivity|]. eexists. split; vm_compute; reflexivity. Qed.

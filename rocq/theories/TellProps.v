(** C99: what the plugin manager writes. *)
From Coq Require Import String Ascii List Arith Bool Lia ZArith.
From Verif Require Import Prelude OMap DatagramSpec FilesystemModel FilesystemProps PluginModel PluginSpec PluginProofs PluginProps LoadProps
  LogModel TellModel TellSpec.
Import ListNotations.
Open Scope list_scope.

(** ** Proofs *)

Lemma did_app a b : did (a ++ b) = did a ++ did b. Proof. apply flat_map_app. Qed.
Lemma said_app a b : said (a ++ b) = said a ++ said b. Proof. apply flat_map_app. Qed.
Lemma did_map e : did (map Did e) = e. Proof. induction e as [|x e IH]; simpl; congruence. Qed.
Lemma said_map e : said (map Did e) = []. Proof. induction e as [|x e IH]; simpl; congruence. Qed.

Lemma said_says c t : said (Said c :: t) = c :: said t. Proof. reflexivity. Qed.
Lemma said_does e t : said (Did e :: t) = said t. Proof. reflexivity. Qed.
Lemma did_says c t : did (Said c :: t) = did t. Proof. reflexivity. Qed.
Lemma did_does e t : did (Did e :: t) = e :: did t. Proof. reflexivity. Qed.

Lemma lib_candidate w path : candidate w path = true <-> library_file w path.
Proof. apply candidate_iff. Qed.

Lemma erase_load w path st : forall st' t r, load_template_told w path st = (st', t, r) -> load_template w path st = (st', did t, r).
Proof.
  intros st' t r H. unfold load_template_told in H. unfold load_template. destruct (candidate w path); [|injection H as <- <- <-; reflexivity].
  destruct (w_open w (c_str path)) as [l|]; [|injection H as <- <- <-; reflexivity].
  destruct (lb_info l) as [[id|]|]; [|injection H as <- <- <-; reflexivity|injection H as <- <- <-; reflexivity].
  destruct (String.eqb id ""); [injection H as <- <- <-; reflexivity|].
  destruct (lb_create l); [|injection H as <- <- <-; reflexivity].
  destruct (olookup id (pm_templates st)) as [old|]; [|injection H as <- <- <-; reflexivity].
  destruct (unload old) as [[t' e] r']. destruct r'; injection H as <- <- <-; rewrite ?did_app, ?did_map; cbn; rewrite ?did_app, ?did_map, ?app_nil_r; reflexivity.
Qed.
Lemma erase_files w dir fs : forall st st' t r, load_files_told w dir fs st = (st', t, r) -> load_files w dir fs st = (st', did t, r).
Proof.
  induction fs as [|f fs IH]; intros st st' t r H; [cbn in H; injection H as <- <- <-; reflexivity|]. cbn [load_files_told load_files] in *.
  destruct (load_template_told w (combine_paths dir f) st) as [[s1 t1] r1] eqn:L. rewrite (erase_load _ _ _ _ _ _ L).
  destruct r1; try (injection H as <- <- <-; reflexivity).
  destruct (load_files_told w dir fs s1) as [[s2 t2] r2] eqn:F. rewrite (IH _ _ _ _ F). injection H as <- <- <-. now rewrite did_app.
Qed.
Lemma erase_paths w ps : forall st st' t r, load_paths_told w ps st = (st', t, r) -> load_paths w ps st = (st', did t, r).
Proof.
  induction ps as [|p ps IH]; intros st st' t r H; [cbn in H; injection H as <- <- <-; reflexivity|]. cbn [load_paths_told load_paths] in *.
  destruct (load_files_told w p _ st) as [[s1 t1] r1] eqn:L. rewrite (erase_files _ _ _ _ _ _ _ L).
  destruct r1; try (injection H as <- <- <-; reflexivity).
  destruct (load_paths_told w ps s1) as [[s2 t2] r2] eqn:F. rewrite (IH _ _ _ _ F). injection H as <- <- <-. cbn. now rewrite did_app.
Qed.
Lemma erase_each l : forall t r, unload_each_told l = (t, r) -> unload_each l = (did t, r).
Proof.
  induction l as [|[k x] l IH]; intros t r H; [cbn in H; injection H as <- <-; reflexivity|]. cbn [unload_each_told unload_each] in *.
  destruct (unload x) as [[x' e1] r1]. destruct r1; try (injection H as <- <-; cbn; now rewrite did_map).
  destruct (unload_each_told l) as [t2 r2] eqn:E. rewrite (IH _ _ eq_refl). injection H as <- <-. cbn. rewrite did_app, did_map. reflexivity.
Qed.
Lemma erase_unload st : forall st' t r, unload_templates_told st = (st', t, r) -> unload_templates st = (st', did t, r).
Proof.
  intros st' t r H. unfold unload_templates_told in H. unfold unload_templates. destruct (pm_templates st) as [|p l]; [injection H as <- <- <-; reflexivity|].
  destruct (unload_each_told (p :: l)) as [t1 r1] eqn:E. rewrite (erase_each _ _ _ E). destruct r1; try (injection H as <- <- <-; reflexivity).
  destruct (destroy_each _) as [e' r']. destruct r'; injection H as <- <- <-; cbn; rewrite did_app, did_map; reflexivity.
Qed.
Lemma erase_instantiate slot tid bus conf cr st : forall st' t r, instantiate_template_told slot tid bus conf cr st = (st', t, r) ->
  instantiate_template slot tid bus conf cr st = (st', did t, r).
Proof.
  intros st' t r H. unfold instantiate_template_told in H. unfold instantiate_template. destruct (olookup tid (pm_templates st)) as [x|].
  - destruct (instantiate _ _ _ _ _ _ _) as [[[[t' bs] n] e] r']. injection H as <- <- <-. destruct bus; cbn; now rewrite did_map.
  - injection H as <- <- <-. destruct bus; reflexivity.
Qed.
Lemma erase_step o st : forall st' t r, pstep_told o st = (st', t, r) -> pstep o st = (st', did t, r).
Proof.
  intros st' t r H.
  destruct o as [p|b|w path|w| |slot tid bus conf cr| |b name]; unfold pstep_told in H;
    try (destruct (pstep _ st) as [[s e] q] eqn:P; injection H as <- <- <-; now rewrite did_map).
  - destruct (load_template_told w path st) as [[s e] q] eqn:L. injection H as <- <- <-. cbn [pstep]. now rewrite (erase_load _ _ _ _ _ _ L).
  - destruct (load_paths_told w (pm_paths st) st) as [[s e] q] eqn:L. injection H as <- <- <-. cbn [pstep]. now rewrite (erase_paths _ _ _ _ _ _ L).
  - destruct (unload_templates_told st) as [[s e] q] eqn:L. injection H as <- <- <-. cbn [pstep]. now rewrite (erase_unload _ _ _ _ L).
  - destruct (instantiate_template_told slot tid bus conf cr st) as [[s e] q] eqn:L. injection H as <- <- <-. cbn [pstep].
    now rewrite (erase_instantiate _ _ _ _ _ _ _ _ _ L).
Qed.

(** * C99 *)

(** Writing changes nothing of what the manager does. *)
Theorem C99_same : forall os st st' t rs, prun_told os st = (st', t, rs) -> prun os st = (st', did t, rs).
Proof.
  induction os as [|o os IH]; intros st st' t rs H; [cbn in H; injection H as <- <- <-; reflexivity|]. cbn [prun_told prun] in *.
  destruct (pstep_told o st) as [[s1 t1] r1] eqn:P. rewrite (erase_step _ _ _ _ _ P).
  destruct r1; try (injection H as <- <- <-; reflexivity);
    destruct (prun_told os s1) as [[s2 t2] rs2] eqn:R; rewrite (IH _ _ _ _ R); injection H as <- <- <-; now rewrite did_app.
Qed.
Print Assumptions C99_same.

Lemma load_report w path st st' t b : load_template_told w path st = (st', t, Ok b) ->
  report w path (said t) /\ (b = true <-> In (line "Load successful" 3) (said t)) /\ (b = true <-> exists id, usable w path id).
Proof.
  intros H. pose proof (lib_candidate w path) as C. unfold load_template_told in H. destruct (candidate w path).
  2: { injection H as <- <- <-. split; [constructor; intros L; apply C in L; discriminate|]. cbn. split; [split; [discriminate|tauto]|].
       split; [discriminate|]. intros (id & A & B & _). assert (false = true) by (apply C; split; auto). discriminate. }
  assert (library_file w path) as L by (apply C; auto). clear C.
  destruct (w_open w (c_str path)) as [l|] eqn:O.
  2: { injection H as <- <- <-. split; [now constructor|]. cbn. split; [split; [discriminate|intros [E|[E|[]]]; discriminate]|].
       split; [discriminate|]. intros (id & _ & _ & l & E & _). congruence. }
  destruct (lb_info l) as [[id|]|] eqn:I; [|discriminate|].
  2: { injection H as <- <- <-. split; [econstructor; eauto|]. cbn. split; [split; [discriminate|intros [E|[E|[E|[]]]]; discriminate]|].
       split; [discriminate|]. intros (id & _ & _ & l' & E & I' & _). congruence. }
  destruct (String.eqb_spec id "").
  { injection H as <- <- <-. subst id. split; [econstructor; eauto|]. cbn. split; [split; [discriminate|intros [E|[E|[E|[E|[]]]]]; discriminate]|].
    split; [discriminate|]. intros (id & _ & _ & l' & E & I' & N & _). congruence. }
  destruct (lb_create l) eqn:Cr.
  2: { injection H as <- <- <-. split; [econstructor; eauto|]. cbn. split; [split; [discriminate|intros [E|[E|[E|[E|[E|[]]]]]]; discriminate]|].
       split; [discriminate|]. intros (id' & _ & _ & l' & E & I' & N & Cr'). congruence. }
  assert (usable w path id) as U. { destruct L as (A & B). repeat split; auto. exists l. auto. }
  destruct (olookup id (pm_templates st)) as [old|].
  - destruct (unload old) as [[t' e] r']. destruct r'; try discriminate. injection H as <- <- <-.
    unfold say. cbn [List.app]. rewrite !said_says, said_does, !said_says, said_does, said_app, said_map. cbn [List.app said flat_map]. split; [now constructor|]. split; [|split; eauto]. split; auto. intros _. do 5 right. now left.
  - injection H as <- <- <-. cbn. split; [now constructor|]. split; [|split; eauto]. split; auto. intros _. do 5 right. now left.
Qed.

(** What LoadTemplate writes, by what is found of the file; it ends in "Load successful" exactly if it returns true, and exactly for usable files. *)
Theorem C99_load : forall w path st st' t b, pstep_told (PLoad w path) st = (st', t, Ok (PBool b)) ->
  report w path (said t) /\ (b = true <-> In (line "Load successful" 3) (said t)) /\ (b = true <-> exists id, usable w path id).
Proof.
  intros w path st st' t b H. cbn [pstep_told] in H. destruct (load_template_told w path st) as [[s e] q] eqn:L.
  destruct q; try discriminate. injection H as <- <- <-. eapply load_report; eauto.
Qed.
Print Assumptions C99_load.

(** A file is announced directly before it is opened, and the handle directly after; nothing else is opened. *)
Theorem C99_opened : forall w path st st' t r h, pstep_told (PLoad w path) st = (st', t, r) -> In (Did (PeOpen h)) t ->
  h = pm_handles st /\ exists b, t = Said (line ("Now loading: " ++ path) 2) :: Did (PeOpen h) :: Said (line "Acquired library handle" 3) :: b /\
    opened (did b) = [].
Proof.
  intros w path st st' t r h H I. pose proof (erase_step _ _ _ _ _ H) as E. cbn [pstep_told] in H. destruct (load_template_told w path st) as [[s e] q] eqn:L.
  injection H as _ <- _. assert (exists b, e = Said (line ("Now loading: " ++ path) 2) :: Did (PeOpen (pm_handles st)) :: Said (line "Acquired library handle" 3) :: b) as (b & ->).
  { unfold load_template_told in L. destruct (candidate w path); [|injection L as _ <- _; destruct I].
    destruct (w_open w (c_str path)) as [l|]; [|injection L as _ <- _; cbn in I; repeat destruct I as [I|I]; try discriminate I; destruct I].
    destruct (lb_info l) as [[id|]|]; [|injection L as _ <- _; eexists; reflexivity..]. destruct (String.eqb id ""); [injection L as _ <- _; eexists; reflexivity|].
    destruct (lb_create l); [|injection L as _ <- _; eexists; reflexivity].
    destruct (match olookup id (pm_templates st) with Some old => _ | None => _ end) as [e' r']. destruct r'; injection L as _ <- _; eexists; reflexivity. }
  assert (opened (did b) = []) as O.
  { pose proof E as E2. cbn [pstep] in E2. destruct (load_template w path st) as [[s2 e2] r2] eqn:L2. assert (e2 = PeOpen (pm_handles st) :: did b) as E3 by (injection E2 as _ E2 _; rewrite E2; reflexivity). clear E2. rename E3 into E2.
    unfold load_template in L2. destruct (candidate w path); [|injection L2 as _ <- _; discriminate]. destruct (w_open w (c_str path)) as [l|]; [|injection L2 as _ <- _; discriminate].
    assert (opened (did b) = tl (opened e2)) as -> by (rewrite E2; reflexivity).
    destruct (lb_info l) as [[id|]|]; [|injection L2 as _ <- _; reflexivity..]. destruct (String.eqb id ""); [injection L2 as _ <- _; reflexivity|].
    destruct (lb_create l); [|injection L2 as _ <- _; reflexivity]. destruct (olookup id (pm_templates st)) as [old|]; [|injection L2 as _ <- _; reflexivity].
    assert (opened (snd (fst (unload old))) = []) as Q.
    { assert (forall k, opened (fst (stop_all k)) = []) as S1 by (induction k as [|[n [i|]] k IHk]; cbn; auto; destruct (stop_all k); cbn in *; auto).
      assert (forall k, opened (fst (deinit_all k)) = []) as S2 by (induction k as [|[n [i|]] k IHk]; cbn; auto; destruct (deinit_all k); cbn in *; auto).
      specialize (S1 (tp_insts old)). specialize (S2 (tp_insts old)). unfold unload. destruct (stop_all (tp_insts old)) as [x1 y1].
      destruct (deinit_all (tp_insts old)) as [x2 y2]. cbn in S1, S2. unfold opened in *. destruct y1; cbn; auto. destruct y2; cbn; rewrite flat_map_app, S1, S2; reflexivity. }
    destruct (unload old) as [[? x] ?]. cbn in Q. injection L2 as _ <- _. exact Q. }
  destruct I as [I|[I|[I|I]]]; try discriminate I.
  - injection I as <-. split; auto. exists b. auto.
  - exfalso. assert (In h (opened (did b))) as X; [|rewrite O in X; destruct X]. unfold opened. apply in_flat_map. exists (PeOpen h). split; [|cbn; auto].
    unfold did. apply in_flat_map. exists (Did (PeOpen h)). cbn. auto.
Qed.
Print Assumptions C99_opened.

(** The lines and the actions of a successful load in their order: the file is announced before it is opened; the template it replaces, if any,
    is stopped and deinitialised before "Load successful". *)
Theorem C99_success : forall w path st st' t id, pstep_told (PLoad w path) st = (st', t, Ok (PBool true)) -> usable w path id ->
  t = [Said (line ("Now loading: " ++ path) 2); Did (PeOpen (pm_handles st)); Said (line "Acquired library handle" 3);
       Said (line "Info method present" 3); Said (line ("Identifier = " ++ id) 3); Said (line "Creation method present" 3);
       Did (PeLoaded id (pm_handles st))] ++
      map Did (match olookup id (pm_templates st) with
               | Some old => map PeStop (instances old) ++ map PeDeinit (instances old)
               | None => []
               end) ++ [Said (line "Load successful" 3)].
Proof.
  intros w path st st' t id H U. cbn [pstep_told] in H. destruct (load_template_told w path st) as [[s e] q] eqn:L.
  destruct q as [b| | |]; try discriminate. injection H as <- <- ->. pose proof (usable_opens _ _ _ U) as O. apply opens_candidate in O as (C & _).
  destruct U as (_ & _ & l & O & I & N & Cr). unfold load_template_told in L. rewrite C, O, I, Cr in L. apply String.eqb_neq in N. rewrite N in L.
  destruct (olookup id (pm_templates st)) as [old|]; [|injection L as _ <-; reflexivity].
  destruct (unload old) as [[t' e'] r'] eqn:Un. destruct r'; try discriminate. injection L as _ <-. apply unload_ok in Un as (_ & ->). reflexivity.
Qed.
Print Assumptions C99_success.

(** A library that was opened but is not used is closed at once, after the line that says why; and only then is one closed. *)
Theorem C99_refused : forall w path st st' t r, pstep_told (PLoad w path) st = (st', t, r) ->
  (forall h, In (Did (PeClose h)) t -> h = pm_handles st /\ r = Ok (PBool false) /\
     exists a m, t = a ++ [Said (line m 3); Did (PeClose h)] /\ ~ In (Did (PeClose h)) a /\
       In m ["Info methods missing"; "Identifier empty"; "Creation methods missing"]%string) /\
  (r = Ok (PBool false) -> In (Did (PeOpen (pm_handles st))) t -> In (Did (PeClose (pm_handles st))) t).
Proof.
  intros w path st st' t r H. cbn [pstep_told] in H. destruct (load_template_told w path st) as [[s e] q] eqn:L.
  injection H as <- <- <-. unfold load_template_told in L. destruct (candidate w path).
  2: { injection L as <- <- <-. cbn. split; tauto. }
  destruct (w_open w (c_str path)) as [l|].
  2: { injection L as <- <- <-. split; cbn; [intros h I|intros _ I]; repeat destruct I as [I|I]; try tauto; discriminate I. }
  destruct (lb_info l) as [[id|]|].
  - destruct (String.eqb id "").
    { injection L as <- <- <-. split; [|cbn; tauto]. intros h I.
      assert (h = pm_handles st) as -> by (cbn in I; repeat destruct I as [I|I]; try discriminate I; [injection I as I; auto|tauto]).
      split; auto. split; auto. eexists (_ :: _ :: _ :: [_]), _. split; [reflexivity|]. split; [|cbn; auto].
      cbn. intros X. repeat destruct X as [X|X]; try discriminate X. tauto. }
    destruct (lb_create l).
    2: { injection L as <- <- <-. split; [|cbn; tauto]. intros h I.
      assert (h = pm_handles st) as -> by (cbn in I; repeat destruct I as [I|I]; try discriminate I; [injection I as I; auto|tauto]).
      split; auto. split; auto. eexists (_ :: _ :: _ :: _ :: [_]), _. split; [reflexivity|]. split; [|cbn; auto].
      cbn. intros X. repeat destruct X as [X|X]; try discriminate X. tauto. }
    assert (forall old h, ~ In (Did (PeClose h)) (map Did (snd (fst (unload old))))) as NC.
    { intros old h X. apply in_map_iff in X as (x & E & X). injection E as ->. unfold unload in X.
      assert (forall k, ~ In (PeClose h) (fst (stop_all k))) as S1.
      { induction k as [|[n [i|]] k IHk]; cbn; auto. destruct (stop_all k). cbn in *. intros [Y|Y]; [discriminate|auto]. }
      assert (forall k, ~ In (PeClose h) (fst (deinit_all k))) as S2.
      { induction k as [|[n [i|]] k IHk]; cbn; auto. destruct (deinit_all k). cbn in *. intros [Y|Y]; [discriminate|auto]. }
      specialize (S1 (tp_insts old)). specialize (S2 (tp_insts old)). destruct (stop_all (tp_insts old)) as [e1 r1].
      destruct (deinit_all (tp_insts old)) as [e2 r2]. cbn in S1, S2. destruct r1; cbn in X; try tauto.
      destruct r2; cbn in X; apply in_app_or in X; tauto. }
    destruct (olookup id (pm_templates st)) as [old|].
    + specialize (NC old). destruct (unload old) as [[t' e'] r']. cbn in NC. assert (forall h, ~ In (Did (PeClose h)) e) as NE.
      { intros h X. specialize (NC h). destruct r'; injection L as <- <- <-; cbn [List.app In] in X; repeat (destruct X as [X|X]; [discriminate X|]);
          try (apply in_app_or in X as [X|X]; [|cbn in X; destruct X as [X|X]; [discriminate X|]]); tauto. }
      split; [intros h X; exfalso; eapply NE; eauto|]. intros Er. destruct r'; injection L as <- <- <-; discriminate Er.
    + injection L as <- <- <-. split; [|discriminate]. intros h X. cbn in X. repeat destruct X as [X|X]; try discriminate X. tauto.
  - injection L as <- <- <-. split; [|discriminate]. intros h X. cbn in X. repeat destruct X as [X|X]; try discriminate X. tauto.
  - injection L as <- <- <-. split; [|cbn; tauto]. intros h I.
    assert (h = pm_handles st) as -> by (cbn in I; repeat destruct I as [I|I]; try discriminate I; [injection I as I; auto|tauto]).
    split; auto. split; auto. eexists (_ :: _ :: [_]), _. split; [reflexivity|]. split; [|cbn; auto].
    cbn. intros X. repeat destruct X as [X|X]; try discriminate X. tauto.
Qed.
Print Assumptions C99_refused.

(** If LoadTemplate runs into undefined behaviour, its last line says how far it came: the library's CreateInfo returns null, or the template that is
    replaced has a null instance. *)
Theorem C99_undefined : forall w path st st' t, pstep_told (PLoad w path) st = (st', t, UB) ->
  (null_info w path /\
     said t = [line ("Now loading: " ++ path) 2; line "Acquired library handle" 3; line "Info method present" 3]) \/
  (exists id old, usable w path id /\ registered st id old /\ null_entry old /\
     said t = [line ("Now loading: " ++ path) 2; line "Acquired library handle" 3; line "Info method present" 3;
               line ("Identifier = " ++ id) 3; line "Creation method present" 3]).
Proof.
  intros w path st st' t H. cbn [pstep_told] in H. destruct (load_template_told w path st) as [[s e] q] eqn:L.
  destruct q; try discriminate H. injection H as <- <-. pose proof (lib_candidate w path) as C. unfold load_template_told in L.
  destruct (candidate w path) eqn:Ca; [|discriminate]. assert (library_file w path) as LF by (apply C; auto).
  destruct (w_open w (c_str path)) as [l|] eqn:O; [|discriminate]. destruct (lb_info l) as [[id|]|] eqn:I; [|left|discriminate].
  - right. destruct (String.eqb_spec id "") as [->|N]; [discriminate|]. destruct (lb_create l) eqn:Cr; [|discriminate].
    destruct (olookup id (pm_templates st)) as [old|] eqn:Ol; [|discriminate]. exists id, old.
    destruct (unload old) as [[t' e'] r'] eqn:U. destruct (null_dec old) as [Nu|Nu].
    + apply unload_null in Nu as X. rewrite U in X. cbn in X. subst r'. injection L as _ <-.
      split; [|split; [exact Ol|split; [exact Nu|]]]. { destruct LF as (A & B). repeat split; auto. exists l. auto. }
      unfold say. cbn [List.app]. rewrite !said_says, said_does, !said_says, said_does, said_map. reflexivity.
    + destruct (unload_fine old Nu) as (? & X). rewrite U in X. injection X as _ _ ->. discriminate.
  - injection L as _ <-. split; [|reflexivity]. split; [|eauto]. apply opens_candidate. rewrite O. split; auto. discriminate.
Qed.
Print Assumptions C99_undefined.

Lemma tour_files w dir fs : forall st st' t u, load_files_told w dir fs st = (st', t, Ok u) ->
  reports w (map (fun n => (dir ++ "/" ++ n)%string) fs) (said t).
Proof.
  induction fs as [|f fs IH]; intros st st' t u H; [cbn in H; injection H as <- <-; constructor|]. cbn [load_files_told] in H.
  destruct (load_template_told w (combine_paths dir f) st) as [[s1 t1] r1] eqn:L. destruct r1; try discriminate.
  destruct (load_files_told w dir fs s1) as [[s2 t2] r2] eqn:F. injection H as _ <- ->. rewrite said_app. cbn [map]. constructor; [|eauto].
  apply load_report in L. apply L.
Qed.
Lemma tour_paths w ps : forall st st' t u, load_paths_told w ps st = (st', t, Ok u) -> tour w ps (said t).
Proof.
  induction ps as [|p ps IH]; intros st st' t u H; [cbn in H; injection H as <- <-; constructor|]. cbn [load_paths_told] in H.
  destruct (load_files_told w p _ st) as [[s1 t1] r1] eqn:L. destruct r1; try discriminate.
  destruct (load_paths_told w ps s1) as [[s2 t2] r2] eqn:F. injection H as _ <- ->. unfold say. rewrite said_says, said_app. constructor; [|eauto].
  apply tour_files in L. rewrite contents_list in L. unfold search_list in L. cbn [flat_map] in L. rewrite app_nil_r in L. exact L.
Qed.

(** LoadTemplates writes its heading and then, for each search path in order, the path and what LoadTemplate writes about each file in it. *)
Theorem C99_all : forall w st st' t r, pstep_told (PLoadAll w) st = (st', t, Ok r) ->
  exists ls, said t = line "Loading plugin templates from search paths:" 0 :: ls /\ tour w (pm_paths st) ls.
Proof.
  intros w st st' t r H. cbn [pstep_told] in H. destruct (load_paths_told w (pm_paths st) st) as [[s e] q] eqn:L. destruct q; try discriminate.
  injection H as _ <- _. eexists. split; [reflexivity|]. eapply tour_paths; eauto.
Qed.
Print Assumptions C99_all.

Lemma load_broken w path st st' t : load_template_told w path st = (st', t, UB) -> broken w path (said t).
Proof.
  intros L. assert (pstep_told (PLoad w path) st = (st', t, UB)) as H by (cbn [pstep_told]; rewrite L; reflexivity).
  apply C99_undefined in H as [((O & l & E & I) & ->)|(id & old & U & _ & _ & ->)]; [|now constructor].
  eapply broken_info; eauto. destruct O as (A & B & _). split; auto.
Qed.
Lemma broken_files w dir fs : forall st st' t, load_files_told w dir fs st = (st', t, UB) ->
  exists a f b l1 l2, map (fun n => (dir ++ "/" ++ n)%string) fs = a ++ f :: b /\ reports w a l1 /\ broken w f l2 /\ said t = l1 ++ l2.
Proof.
  induction fs as [|f fs IH]; intros st st' t H; [discriminate|]. cbn [load_files_told] in H.
  destruct (load_template_told w (combine_paths dir f) st) as [[s1 t1] r1] eqn:L. destruct r1; try discriminate.
  - destruct (load_files_told w dir fs s1) as [[s2 t2] r2] eqn:F. injection H as _ <- ->.
    destruct (IH _ _ _ F) as (a' & g & b & l1 & l2 & E & R & B & S). cbn [map]. rewrite E. apply load_report in L as (L & _).
    exists ((dir ++ "/" ++ f)%string :: a'), g, b, (said t1 ++ l1), l2. split; [reflexivity|]. split; [constructor; auto|]. split; auto.
    rewrite said_app, S. apply app_assoc.
  - injection H as _ <-. apply load_broken in L. exists [], (dir ++ "/" ++ f)%string, (map (fun n => (dir ++ "/" ++ n)%string) fs), [], (said t1).
    split; [reflexivity|]. split; [constructor|]. auto.
Qed.
Lemma broken_paths w ps : forall st st' t, load_paths_told w ps st = (st', t, UB) ->
  exists qs p rs fs f gs l1 l2 l3, ps = qs ++ p :: rs /\ listed (w_fs w) p = fs ++ f :: gs /\ tour w qs l1 /\ reports w fs l2 /\ broken w f l3 /\
    said t = l1 ++ line p 1 :: l2 ++ l3.
Proof.
  induction ps as [|p ps IH]; intros st st' t H; [discriminate|]. cbn [load_paths_told] in H.
  destruct (load_files_told w p _ st) as [[s1 t1] r1] eqn:L.
  assert (search_list (w_fs w) [p] = listed (w_fs w) p) as SL by (unfold search_list; cbn [flat_map]; apply app_nil_r).
  destruct r1; try discriminate.
  - destruct (load_paths_told w ps s1) as [[s2 t2] r2] eqn:F. injection H as _ <- ->.
    destruct (IH _ _ _ F) as (qs & q & rs & fs & f & gs & l1 & l2 & l3 & E & Li & T & R & B & S).
    apply tour_files in L. rewrite contents_list, SL in L.
    exists (p :: qs), q, rs, fs, f, gs, (line p 1 :: said t1 ++ l1), l2, l3. split; [now rewrite E|]. split; auto. split; [constructor; auto|].
    split; auto. split; auto. unfold say. rewrite said_says, said_app, S. cbn [List.app]. now rewrite <- app_assoc.
  - injection H as _ <-. apply broken_files in L as (fs & f & gs & l1 & l2 & E & R & B & S). rewrite contents_list, SL in E.
    exists [], p, ps, fs, f, gs, [], l1, l2. split; [reflexivity|]. split; auto. split; [constructor|]. split; auto. split; auto.
    unfold say. rewrite said_says, S. reflexivity.
Qed.

(** If LoadTemplates runs into undefined behaviour, the lines lead up to the file at which it does. *)
Theorem C99_all_undefined : forall w st st' t, pstep_told (PLoadAll w) st = (st', t, UB) ->
  exists qs p rs fs f gs l1 l2 l3, pm_paths st = qs ++ p :: rs /\ listed (w_fs w) p = fs ++ f :: gs /\
    tour w qs l1 /\ reports w fs l2 /\ broken w f l3 /\
    said t = line "Loading plugin templates from search paths:" 0 :: l1 ++ line p 1 :: l2 ++ l3.
Proof.
  intros w st st' t H. cbn [pstep_told] in H. destruct (load_paths_told w (pm_paths st) st) as [[s e] q] eqn:L. destruct q; try discriminate.
  injection H as _ <-. apply broken_paths in L as (qs & p & rs & fs & f & gs & l1 & l2 & l3 & E & Li & T & R & B & S).
  exists qs, p, rs, fs, f, gs, l1, l2, l3. repeat (split; [assumption|]). unfold say. now rewrite said_says, S.
Qed.
Print Assumptions C99_all_undefined.

Lemma each_farewell l : forall t u, unload_each_told l = (t, Ok u) -> t = flat_map farewell l.
Proof.
  induction l as [|[k x] l IH]; intros t u H; [cbn in H; injection H as <-; reflexivity|]. cbn [unload_each_told flat_map] in *.
  destruct (unload x) as [[x' e1] r1] eqn:U. destruct r1; try discriminate. apply unload_ok in U as (_ & ->).
  destruct (unload_each_told l) as [t2 r2]. injection H as <- ->. rewrite (IH _ _ eq_refl). unfold farewell, say. cbn [fst snd List.app].
  rewrite !map_app, <- !app_assoc. reflexivity.
Qed.

(** UnloadTemplates writes nothing if there are no templates; else its heading and, in the order of the identifiers, each identifier before that template's
    instances are stopped and deinitialised and its library is closed. *)
Theorem C99_unload : forall st st' t r, pstep_told PUnload st = (st', t, Ok r) ->
  (pm_templates st = [] -> t = []) /\
  (pm_templates st <> [] ->
     t = Said (line "Unloading plugin templates:" 0) :: flat_map farewell (pm_templates st) ++ [Did PeUnloaded]).
Proof.
  intros st st' t r H. cbn [pstep_told] in H. destruct (unload_templates_told st) as [[s e] q] eqn:L. destruct q; try discriminate.
  injection H as _ <- _. pose proof (erase_unload _ _ _ _ L) as E. apply unload_templates_ok in E as (_ & _ & E). unfold unload_templates_told in L.
  destruct (pm_templates st) as [|p l]; [injection L as _ <-; split; [auto|congruence]|]. split; [discriminate|]. intros _.
  destruct (unload_each_told (p :: l)) as [t1 r1] eqn:U. destruct r1; try discriminate.
  destruct (destroy_each _) as [e' r']. destruct r'; try discriminate. injection L as _ <-. apply each_farewell in U. subst t1.
  unfold say. do 2 f_equal. change [Did PeUnloaded] with (map Did [PeUnloaded]). f_equal. unfold say in E. rewrite did_says, did_app, did_map in E.
  assert (did (flat_map farewell (p :: l)) = flat_map (fun kt => block (snd kt)) (p :: l)) as X.
  { generalize (p :: l). induction l0 as [|y l0 IH]; cbn [flat_map]; auto. rewrite did_app, IH. f_equal. unfold farewell. now rewrite did_says, did_map. }
  rewrite X in E. apply app_inv_head in E. exact E.
Qed.
Print Assumptions C99_unload.

Lemma each_broken l : forall t, unload_each_told l = (t, UB) ->
  exists a k x b is, l = a ++ (k, x) :: b /\ null_entry x /\ t = flat_map farewell a ++ Said (line k 1) :: map Did (map PeStop is) /\ incl is (instances x).
Proof.
  induction l as [|[k x] l IH]; intros t H; [discriminate|]. cbn [unload_each_told] in *.
  destruct (unload x) as [[x' e1] r1] eqn:U. destruct (null_dec x) as [Nu|Nu].
  - apply unload_null in Nu as X. rewrite U in X. cbn in X. subst r1. injection H as <-.
    assert (exists is, e1 = map PeStop is /\ incl is (instances x)) as (is & -> & I).
    { unfold unload in U. destruct (stop_all (tp_insts x)) as [e2 r2] eqn:S. destruct Nu as (n & Nu). pose proof (stop_all_null _ _ Nu) as Y. rewrite S in Y. cbn in Y. subst r2.
      injection U as _ <-. unfold instances. clear Nu. revert e2 S. induction (tp_insts x) as [|[m [i|]] q IHq]; intros e2 S; cbn [stop_all] in S.
      - discriminate.
      - destruct (stop_all q) as [e3 r3]. injection S as <- ->. destruct (IHq _ eq_refl) as (is & -> & I). exists (i :: is). split; [reflexivity|].
        cbn. intros y [Y|Y]; [left; auto|right; auto].
      - injection S as <-. exists []. split; [reflexivity|]. intros y []. }
    exists [], k, x, l, is. repeat split; auto.
  - destruct (unload_fine x Nu) as (? & X). rewrite U in X. injection X as _ -> ->. destruct (unload_each_told l) as [t2 r2]. injection H as <- ->.
    destruct (IH _ eq_refl) as (a & k' & x'' & b & is & -> & N & -> & I). exists ((k, x) :: a), k', x'', b, is. repeat split; auto.
    cbn [flat_map]. unfold farewell at 2, say. cbn [fst snd List.app]. rewrite !map_app, <- !app_assoc. reflexivity.
Qed.

(** If UnloadTemplates runs into undefined behaviour, the last line is the identifier of the template that has a null instance, and after it nothing but
    instances of this template are stopped. *)
Theorem C99_unload_undefined : forall st st' t, pstep_told PUnload st = (st', t, UB) ->
  exists a k x b is, pm_templates st = a ++ (k, x) :: b /\ null_entry x /\ incl is (instances x) /\
    t = Said (line "Unloading plugin templates:" 0) :: flat_map farewell a ++ Said (line k 1) :: map Did (map PeStop is).
Proof.
  intros st st' t H. cbn [pstep_told] in H. destruct (unload_templates_told st) as [[s e] q] eqn:L. destruct q; try discriminate.
  injection H as _ <-. apply erase_unload in L as E. rewrite unload_templates_eq in E. unfold unload_templates_told in L.
  destruct (pm_templates st) as [|p l]; [discriminate|]. destruct (unload_each_told (p :: l)) as [t1 r1] eqn:U. rewrite (erase_each _ _ _ U) in E.
  destruct r1; try discriminate. injection L as _ <-. apply each_broken in U as (a & k & x & b & is & E' & N & -> & I).
  exists a, k, x, b, is. auto.
Qed.
Print Assumptions C99_unload_undefined.

(** InstantiateTemplate: all its lines come first. They say whether the manager's own bus is used and whether there is such a template, not
    whether an instance was made. *)
Theorem C99_instantiate : forall slot tid bus conf cr st st' t r, pstep_told (PInstantiate slot tid bus conf cr) st = (st', t, r) ->
  exists found e,
    t = map Said (line ("Instantiating plugin template: " ++ tid) 0 :: match bus with Some _ => [] | None => [line "Using default bus" 1] end ++ [line found 1])
        ++ map Did e /\
    ((exists x, registered st tid x) /\ found = "Template found, instantiating"%string \/
     ~ (exists x, registered st tid x) /\ found = "Template not found, failed to instantiate."%string /\ e = [] /\ r = Ok (PInst None)).
Proof.
  intros slot tid bus conf cr st st' t r H. cbn [pstep_told] in H.
  destruct (instantiate_template_told slot tid bus conf cr st) as [[s e] q] eqn:L. injection H as _ <- <-. unfold instantiate_template_told in L. unfold registered.
  destruct (olookup tid (pm_templates st)) as [x|].
  - destruct (instantiate _ _ _ _ _ _ _) as [[[[t' bs] n] e'] r']. injection L as _ <- <-. eexists _, e'. split; [|left; split; [eauto|reflexivity]].
    destruct bus; reflexivity.
  - injection L as _ <- <-. eexists _, []. split; [|right; split; [intros (? & ?); discriminate|repeat split]]. destruct bus; reflexivity.
Qed.
Print Assumptions C99_instantiate.

(** ** Counting *)

Definition counted (t : list told) : Prop :=
  times (line "Acquired library handle" 3) t = length (opened (did t)) /\ times (line "Load successful" 3) t = length (registered_ids (did t)).
Lemma counted_app a b : counted a -> counted b -> counted (a ++ b).
Proof.
  unfold counted, times, opened, registered_ids. intros (A & B) (C & D). rewrite said_app, did_app, !count_occ_app, !flat_map_app, !app_length. lia.
Qed.
Lemma counted_nil : counted []. Proof. split; reflexivity. Qed.
Lemma counted_say c : c <> line "Acquired library handle" 3 -> c <> line "Load successful" 3 -> counted [Said c].
Proof. unfold counted, times. cbn. intros A B. destruct (call_dec c _); [congruence|]. destruct (call_dec c _); [congruence|]. auto. Qed.
Lemma counted_quiet e : opened e = [] -> registered_ids e = [] -> counted (map Did e).
Proof. unfold counted, times. rewrite said_map, did_map. intros -> ->. auto. Qed.
Lemma quiet_stops l : opened (map PeStop l ++ map PeDeinit l) = [] /\ registered_ids (map PeStop l ++ map PeDeinit l) = [].
Proof.
  unfold opened, registered_ids. rewrite !flat_map_app. assert (forall (A : Type) (f : pevent -> list A) g, (forall i, f (g i) = []) -> flat_map f (map g l) = []) as X.
  { intros A f g E. clear -E. induction l as [|i l IH]; cbn; auto. now rewrite E, IH. }
  rewrite !X by reflexivity. auto.
Qed.

Lemma count_report w path st st' t b : load_template_told w path st = (st', t, Ok b) -> counted t.
Proof.
  intros H. unfold load_template_told in H. destruct (candidate w path); [|injection H as _ <- _; apply counted_nil].
  destruct (w_open w (c_str path)) as [l|].
  2: { injection H as _ <- _. unfold counted, times, say. cbn. repeat (destruct (call_dec _ _); try discriminate). auto. }
  destruct (lb_info l) as [[id|]|]; [|discriminate|].
  2: { injection H as _ <- _. unfold counted, times, say. cbn. repeat (destruct (call_dec _ _); try discriminate; try (exfalso; congruence)). auto. }
  destruct (String.eqb id "").
  { injection H as _ <- _. unfold counted, times, say. cbn. repeat (destruct (call_dec _ _); try discriminate; try (exfalso; congruence)). auto. }
  destruct (lb_create l).
  2: { injection H as _ <- _. unfold counted, times, say. cbn. repeat (destruct (call_dec _ _); try discriminate; try (exfalso; congruence)). auto. }
  assert (forall e, opened e = [] -> registered_ids e = [] ->
    counted (([say ("Now loading: " ++ path) 2] ++ [Did (PeOpen (pm_handles st)); say "Acquired library handle" 3]) ++ [say "Info method present" 3]
       ++ [say ("Identifier = " ++ id) 3] ++ [say "Creation method present" 3; Did (PeLoaded id (pm_handles st))] ++ map Did e ++ [say "Load successful" 3])) as X.
  { intros e A B. unfold counted, times, say. cbn [List.app]. rewrite !said_says, said_does, !said_says, said_does, said_app, said_map.
    rewrite !did_says, did_does, !did_says, did_does, did_app, did_map. unfold opened, registered_ids in *. cbn [flat_map List.app]. rewrite !flat_map_app, A, B.
    cbn. repeat (destruct (call_dec _ _); try discriminate; try (exfalso; congruence)). auto. }
  destruct (olookup id (pm_templates st)) as [old|].
  - destruct (unload old) as [[t' e] r'] eqn:U. destruct r'; try discriminate. apply unload_ok in U as (_ & ->). injection H as _ <- _.
    destruct (quiet_stops (instances old)) as (A & B). exact (X _ A B).
  - injection H as _ <- _. exact (X [] eq_refl eq_refl).
Qed.
Lemma count_files w dir fs : forall st st' t u, load_files_told w dir fs st = (st', t, Ok u) -> counted t.
Proof.
  induction fs as [|f fs IH]; intros st st' t u H; [cbn in H; injection H as <- <-; apply counted_nil|]. cbn [load_files_told] in H.
  destruct (load_template_told w (combine_paths dir f) st) as [[s1 t1] r1] eqn:L. destruct r1; try discriminate.
  destruct (load_files_told w dir fs s1) as [[s2 t2] r2] eqn:F. injection H as _ <- ->. apply counted_app; eauto. eapply count_report; eauto.
Qed.
Lemma count_paths w ps : forall st st' t u, load_paths_told w ps st = (st', t, Ok u) -> counted t.
Proof.
  induction ps as [|p ps IH]; intros st st' t u H; [cbn in H; injection H as <- <-; apply counted_nil|]. cbn [load_paths_told] in H.
  destruct (load_files_told w p _ st) as [[s1 t1] r1] eqn:L. destruct r1; try discriminate.
  destruct (load_paths_told w ps s1) as [[s2 t2] r2] eqn:F. injection H as _ <- ->. apply (counted_app [say p 1]); [apply counted_say; discriminate|].
  apply counted_app; eauto. eapply count_files; eauto.
Qed.
Lemma unload_res st st' e r : unload_templates st = (st', e, r) -> r = Ok tt \/ r = UB.
Proof.
  intros H. assert ((forall k t, In (k, t) (pm_templates st) -> ~ null_entry t) \/ exists k t, In (k, t) (pm_templates st) /\ null_entry t) as [N|(k & t & I & N)].
  { generalize (pm_templates st) as l. induction l as [|[k t] l IH]; [left; intros ? ? []|]. destruct (null_dec t) as [N|N]; [right; exists k, t; cbn; auto|].
    destruct IH as [IH|(k' & t' & I & N')]; [left|right; exists k', t'; cbn; auto]. intros k' t' [E|I]; [injection E as _ <-; auto|eauto]. }
  - destruct (unload_templates_fine st N) as (? & ? & E). rewrite H in E. injection E as _ _ ->. auto.
  - pose proof (unload_templates_null _ _ _ I N) as E. rewrite H in E. auto.
Qed.
Lemma count_step o st st' t r : pstep_told o st = (st', t, r) -> r <> UB -> counted t.
Proof.
  intros H N. pose proof (erase_step _ _ _ _ _ H) as E.
  destruct o as [p|b|w path|w| |slot tid bus conf cr| |b name].
  - injection H as _ <- _. apply counted_nil.
  - injection H as _ <- _. apply counted_nil.
  - cbn [pstep_told] in H. destruct (load_template_told w path st) as [[s e] q] eqn:L. injection H as _ <- <-.
    apply erase_load in L as X. apply load_template_res in X as [(b & ->)| ->]; [|cbn in N; congruence]. eapply count_report; eauto.
  - cbn [pstep_told] in H. destruct (load_paths_told w (pm_paths st) st) as [[s e] q] eqn:L. injection H as _ <- <-.
    apply erase_paths in L as X. apply load_paths_res in X as [->| ->]; [|cbn in N; congruence].
    apply (counted_app [say _ 0]); [apply counted_say; discriminate|]. eapply count_paths; eauto.
  - pose proof H as HH. cbn [pstep_told] in H. destruct (unload_templates_told st) as [[s e] q] eqn:L. injection H as Es <- <-. apply erase_unload in L as X.
    apply unload_res in X as [->| ->]; [|cbn in N; congruence]. cbn [res_map] in HH. apply C99_unload in HH as (A & B).
    destruct (pm_templates st) as [|kt l] eqn:T; [rewrite (A eq_refl); apply counted_nil|]. rewrite (B ltac:(discriminate)).
    apply (counted_app [Said _]); [apply counted_say; discriminate|]. apply counted_app; [|apply (counted_quiet [PeUnloaded]); reflexivity].
    generalize (kt :: l). induction l0 as [|[k x] l0 IH]; cbn [flat_map]; [apply counted_nil|]. apply counted_app; auto.
    unfold farewell. apply (counted_app [Said _]); [apply counted_say; discriminate|]. rewrite app_assoc. rewrite map_app. cbn [snd].
    apply counted_app; [|apply (counted_quiet [PeClose _]); reflexivity]. destruct (quiet_stops (instances x)) as (P & Q). now apply counted_quiet.
  - apply C99_instantiate in H as (found & e & -> & _). rewrite did_app, did_map in E.
    assert (did (map Said (line ("Instantiating plugin template: " ++ tid) 0 :: match bus with Some _ => [] | None => [line "Using default bus" 1] end ++ [line found 1])) = []) as D.
    { destruct bus; reflexivity. }
    rewrite D in E. cbn [List.app] in E. apply counted_app.
    + destruct bus; (apply (counted_app [Said _]); [apply counted_say; discriminate|]);
        [|apply (counted_app [Said _]); [apply counted_say; discriminate|]]; apply counted_say; discriminate.
    + cbn [pstep] in E. unfold instantiate_template in E. destruct (olookup tid (pm_templates st)) as [x|]; [|injection E as _ <- _; apply counted_nil].
      unfold instantiate in E. destruct (free_index x); try (injection E as _ <- _; apply counted_nil).
      destruct (match bus with Some b => Some b | None => pm_bus st end); [|injection E as _ <- _; apply counted_nil].
      destruct (create_child _ _ _) as [[[bs' b]| | |]|]; try (injection E as _ <- _; apply counted_nil).
      destruct (tp_fn x); [destruct cr|]; injection E as _ <- _; apply counted_quiet; reflexivity.
  - injection H as _ <- _. apply counted_nil.
  - cbn [pstep_told pstep] in *. destruct (create_child _ _ _) as [[[bs' b']| | |]|]; injection H as _ <- _; apply counted_nil.
Qed.

(** In every history without undefined behaviour: as many lines "Acquired library handle" as libraries opened, and as many lines "Load successful"
    as templates registered. *)
Theorem C99_counts : forall os st t rs, prun_told os pinit = (st, t, rs) -> ~ In UB rs ->
  times (line "Acquired library handle" 3) t = length (opened (did t)) /\
  times (line "Load successful" 3) t = length (registered_ids (did t)).
Proof.
  intros os. generalize pinit. induction os as [|o os IH]; intros s0 st t rs H N; [cbn in H; injection H as _ <- _; apply counted_nil|].
  cbn [prun_told] in H. destruct (pstep_told o s0) as [[s1 t1] r1] eqn:P.
  assert (r1 <> UB) as N1. { intros ->. injection H as _ _ <-. apply N. now left. }
  assert (exists s2 t2 rs2, prun_told os s1 = (s2, t2, rs2) /\ t = t1 ++ t2 /\ rs = r1 :: rs2) as (s2 & t2 & rs2 & R & -> & ->).
  { destruct r1; try congruence; destruct (prun_told os s1) as [[s2 t2] rs2]; injection H as _ <- <-; eauto 7. }
  apply counted_app; [eapply count_step; eauto|]. eapply IH; eauto. intros I. apply N. now right.
Qed.
Print Assumptions C99_counts.

(** ** Cases *)

(** Two usable files and one other in "/p"; then a bare library, one whose CreateInfo returns null. *)
Definition lines_of (os : list pop) : list (string * Z) := map (fun c => (c_message c, c_indent c)) (said (snd (fst (prun_told os pinit)))).
Example C99_load_case :
  lines_of loaded =
    [("Loading plugin templates from search paths:", 0%Z); ("/p", 1%Z);
     ("Now loading: /p/libplugin_a.so", 2%Z); ("Acquired library handle", 3%Z); ("Info method present", 3%Z); ("Identifier = A", 3%Z);
     ("Creation method present", 3%Z); ("Load successful", 3%Z);
     ("Now loading: /p/libplugin_b.so", 2%Z); ("Acquired library handle", 3%Z); ("Info method present", 3%Z); ("Identifier = A1", 3%Z);
     ("Creation method present", 3%Z); ("Load successful", 3%Z)]%string /\
  lines_of [PLoad a_world "/p/libplugin_bare.so"; PLoad a_world "/p/libplugin_x.so"; PLoad a_world "/p/notes.txt"] =
    [("Now loading: /p/libplugin_bare.so", 2%Z); ("Acquired library handle", 3%Z); ("Info methods missing", 3%Z);
     ("Now loading: /p/libplugin_x.so", 2%Z); ("Failed to acquire library handle.", 3%Z)]%string /\
  snd (fst (prun_told [PLoad a_world "/p/libplugin_bare.so"] pinit)) =
    [say "Now loading: /p/libplugin_bare.so" 2; Did (PeOpen 0); say "Acquired library handle" 3; say "Info methods missing" 3; Did (PeClose 0)] /\
  lines_of [PLoad a_world "/p/libplugin_none.so"] =
    [("Now loading: /p/libplugin_none.so", 2%Z); ("Acquired library handle", 3%Z); ("Info method present", 3%Z)]%string /\
  no_ub loaded = true.
Proof. repeat split; vm_compute; reflexivity. Qed.

(** Instances of both templates, an unknown template, and unloading. *)
Example C99_unload_case :
  let i := mkInst 0 "A0" 1 Emp in let j := mkInst 1 "A10" 2 Emp in
  skipn 18 (snd (fst (prun_told (loaded ++ [make "A"; make "A1"; make "B"; PUnload; PUnload]) pinit))) =
    [say "Instantiating plugin template: A" 0; say "Using default bus" 1; say "Template found, instantiating" 1; Did (PeBus 0 "A0" 1); Did (PeCreate "A" i);
     say "Instantiating plugin template: A1" 0; say "Using default bus" 1; say "Template found, instantiating" 1; Did (PeBus 0 "A10" 2); Did (PeCreate "A1" j);
     say "Instantiating plugin template: B" 0; say "Using default bus" 1; say "Template not found, failed to instantiate." 1;
     say "Unloading plugin templates:" 0;
     say "A" 1; Did (PeStop i); Did (PeDeinit i); Did (PeClose 0);
     say "A1" 1; Did (PeStop j); Did (PeDeinit j); Did (PeClose 1); Did PeUnloaded].
Proof. vm_compute. reflexivity. Qed.

(** A template found, but CreateInstance returns null: the lines are the same, and no instance is made. Loading it again is undefined. *)
Definition null_made : list pop := loaded ++ [PInstantiate false "A" None Emp CrNull].
Example C99_null_case :
  skipn 14 (lines_of null_made) =
    [("Instantiating plugin template: A", 0%Z); ("Using default bus", 1%Z); ("Template found, instantiating", 1%Z)]%string /\
  last (results_of null_made) UB = Ok (PInst None) /\
  (exists st t, pstep_told (PLoad a_world "/p/libplugin_a.so") (state_of null_made) = (st, t, UB) /\
     map c_message (said t) = ["Now loading: /p/libplugin_a.so"; "Acquired library handle"; "Info method present"; "Identifier = A"; "Creation method present"]%string).
Proof. split; [vm_compute; reflexivity|]. split; [vm_compute; reflexivity|]. do 2 eexists. split; vm_compute; reflexivity. Qed.

(** Undefined behaviour among others: a template with an instance and one with a null instance are unloaded; a path is searched whose second file's CreateInfo
    returns null. *)
Definition half_bad : world :=
  mkWorld (mkFs (fun _ => Some FReg) (fun _ => true) (fun _ => Some ["libplugin_a.so"; "libplugin_none.so"; "libplugin_b.so"]%string)) ids_by_path.
Example C99_undefined_case :
  let i := mkInst 0 "A0" 1 Emp in
  (exists st, pstep_told PUnload (state_of (loaded ++ [make "A"; PInstantiate false "A1" None Emp CrNull])) =
    (st, [say "Unloading plugin templates:" 0; say "A" 1; Did (PeStop i); Did (PeDeinit i); Did (PeClose 0); say "A1" 1], UB)) /\
  (exists st t, pstep_told (PLoadAll half_bad) (state_of [PAddPath "/p"]) = (st, t, UB) /\
     map c_message (said t) = ["Loading plugin templates from search paths:"; "/p"; "Now loading: /p/libplugin_a.so"; "Acquired library handle"; "Info method present";
       "Identifier = A"; "Creation method present"; "Load successful"; "Now loading: /p/libplugin_none.so"; "Acquired library handle"; "Info method present"]%string).
Proof. split; [eexists; vm_compute; reflexivity|]. do 2 eexists. split; vm_compute; reflexivity. Qed.

(** Loading a template again: its instances go before "Load successful". *)
Example C99_success_case :
  let i := mkInst 0 "A0" 1 Emp in
  exists st, pstep_told (PLoad a_world "/p/libplugin_a.so") (state_of (loaded ++ [make "A"])) =
    (st, [say "Now loading: /p/libplugin_a.so" 2; Did (PeOpen 2); say "Acquired library handle" 3; say "Info method present" 3; say "Identifier = A" 3;
          say "Creation method present" 3; Did (PeLoaded "A" 2); Did (PeStop i); Did (PeDeinit i); say "Load successful" 3], Ok (PBool true)).
Proof. eexists. vm_compute. reflexivity. Qed.

(** On paper two different calls may look the same: a search path called "    Load successful". *)
Example C99_paper_case : line_of (line "    Load successful" 1) = line_of (line "Load successful" 3).
Proof. reflexivity. Qed.

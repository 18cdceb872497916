(** Properties of plugin templates, the plugin manager and plugin instances. *)
From Coq Require Import String Ascii List Arith Bool Lia Permutation Sorted.
From Verif Require Import Prelude OMap DatagramSpec FilesystemModel FilesystemProps PluginModel PluginSpec PluginProofs.
Import ListNotations.
Open Scope list_scope.

(** ** Examples to instantiate the theorems with *)

Definition all_files : fs := mkFs (fun _ => Some FReg) (fun _ => true) (fun _ => Some ["libplugin_a.so"; "notes.txt"; "libplugin_b.so"]%string).
Definition ids_by_path (s : string) : option lib :=
  if String.eqb s "/p/libplugin_a.so" then Some (mkLib (Some (Some "A"%string)) true)
  else if String.eqb s "/p/libplugin_b.so" then Some (mkLib (Some (Some "A1"%string)) true)
  else if String.eqb s "/p/libplugin_none.so" then Some (mkLib (Some None) true)
  else if String.eqb s "/p/libplugin_bare.so" then Some (mkLib None true)
  else None.
Definition a_world : world := mkWorld all_files ids_by_path.
Definition make (tid : string) : pop := PInstantiate false tid None Emp CrObject.
(** Both templates loaded, a bus set. *)
Definition loaded : list pop := [PNewBus; PSetBus (Some 0); PAddPath "/p"; PLoadAll a_world].

Definition state_of (os : list pop) : pm := fst (fst (prun os pinit)).
Definition trace_of (os : list pop) : list pevent := snd (fst (prun os pinit)).
Definition results_of (os : list pop) : list (res pres) := snd (prun os pinit).
Definition no_ub (os : list pop) : bool := forallb (fun r => match r with UB => false | _ => true end) (results_of os).
Lemma reached_by os : no_ub os = true -> reached (state_of os) (trace_of os).
Proof.
  intros H. exists os, (results_of os). unfold state_of, trace_of, results_of. destruct (prun os pinit) as [[s t] rs] eqn:E. split; auto.
  unfold no_ub, results_of in H. rewrite E in H. simpl in *. intros I. rewrite forallb_forall in H. apply H in I. discriminate.
Qed.

(** ** C42 *)

(** A successful instantiation of a registered template. *)
Theorem C42_instance : forall st tr tid t slot bus conf cr st' e i, reached st tr -> registered st tid t ->
  instantiate_template slot tid bus conf cr st = (st', e, Ok (Some i)) ->
  exists k p kids t',
    lowest t tid k /\ in_name i = (tid ++ to_string k)%string /\ in_conf i = conf /\
    (* a new child bus of that name on the parent *)
    parent_of st bus p /\ children st p kids /\ ~ In (in_name i) kids /\ children st' p (kids ++ [in_name i]) /\
    in_bus i = length (pm_buses st) /\ children st' (in_bus i) [] /\
    (* the instance is new, and registered under its name; nothing else changes *)
    ~ In (in_num i) (map in_num (live st)) /\
    registered st' tid t' /\ olookup (in_name i) (tp_insts t') = Some (Some i) /\
    (forall n, n <> in_name i -> olookup n (tp_insts t') = olookup n (tp_insts t)) /\
    (forall x, x <> tid -> olookup x (pm_templates st') = olookup x (pm_templates st)).
Proof.
  intros st tr tid t slot bus conf cr st' e i R L H. apply reached_inv in R as IV.
  destruct (instantiate_cases st tr slot tid bus conf cr t IV L) as (k & Lo & [(E & _)|(p & kids & P & K & [(_ & E)|(N & E)])]);
    cbn zeta in E; try (rewrite E in H; discriminate).
  destruct cr as [| |x]; [|rewrite E in H; discriminate|rewrite E in H; discriminate].
  rewrite E in H. injection H as <- _ <-. unfold children in *.
  assert (p < length (pm_buses st)) as Lp by (apply nth_error_Some; congruence).
  exists k, p, kids, (set_insts t (oinsert (tid ++ to_string k)%string (Some (mkInst (pm_insts st) (tid ++ to_string k)%string (length (pm_buses st)) conf)) (tp_insts t))).
  unfold registered. cbn [in_name in_conf in_bus in_num pm_buses pm_templates]. repeat split; auto; try apply Lo.
  - rewrite nth_error_app1 by (rewrite list_set_length; auto). apply list_set_eq; auto.
  - rewrite nth_error_app2 by (rewrite list_set_length; auto). rewrite list_set_length, Nat.sub_diag. reflexivity.
  - intros I. apply in_map_iff in I as (j & J & I). apply live_in in I as (k' & t' & I1 & I2). apply instances_in in I2 as (n & I2).
    apply in_olookup in I1; [|apply IV]. destruct (iv_tp _ _ IV _ _ I1) as [_ _ _ _ G]. apply G in I2 as (_ & Lt). lia.
  - apply olookup_insert_eq. apply IV.
  - cbn [set_insts tp_insts]. apply olookup_insert_eq'.
  - intros n Ne. cbn [set_insts tp_insts]. apply olookup_insert_ne. auto.
  - intros x Ne. apply olookup_insert_ne. auto.
Qed.
Print Assumptions C42_instance.

(** The call always comes to an end, and succeeds if the parent exists and has no child of that name
    and the plugin makes an object. *)
Theorem C42_outcome : forall st tr tid t slot bus conf cr, reached st tr -> registered st tid t ->
  snd (instantiate_template slot tid bus conf cr st) <> NoFuel /\
  (exists k, lowest t tid k /\
     ((exists i, snd (instantiate_template slot tid bus conf cr st) = Ok (Some i)) <->
      cr = CrObject /\ exists p kids, parent_of st bus p /\ children st p kids /\ ~ In (tid ++ to_string k)%string kids)).
Proof.
  intros st tr tid t slot bus conf cr R L. apply reached_inv in R as IV.
  destruct (instantiate_cases st tr slot tid bus conf cr t IV L) as (k & Lo & [(E & NP)|(p & kids & P & K & [(D & E)|(N & E)])]); cbn zeta in E.
  - rewrite E. split; [discriminate|]. exists k. split; auto. split; [intros (i & H); discriminate|].
    intros (_ & p & kids & P & K & _). exfalso. eapply NP; eauto.
  - rewrite E. split; [discriminate|]. exists k. split; auto. split; [intros (i & H); discriminate|].
    intros (_ & p' & kids' & P' & K' & N'). exfalso. apply N'.
    assert (p' = p) as -> by (unfold parent_of in *; destruct P as [?|(? & ?)], P' as [?|(? & ?)]; congruence).
    unfold children in *. congruence.
  - split; [destruct cr; rewrite E; discriminate|]. exists k. split; auto. destruct cr as [| |x]; rewrite E; simpl.
    + split; [intros _; split; auto; eauto|eauto].
    + split; [intros (i & H); discriminate|intros (H & _); discriminate].
    + split; [intros (i & H); discriminate|intros (H & _); discriminate].
Qed.
Print Assumptions C42_outcome.

(** The number in the name is written without loss: distinct numbers give distinct names. *)
Theorem C42_names : forall tid j k, (tid ++ to_string j = tid ++ to_string k)%string -> j = k.
Proof. exact name_inj. Qed.
Print Assumptions C42_names.

Example C42_case : let st := state_of (loaded ++ [make "A"; make "A"]) in
  reached st (trace_of (loaded ++ [make "A"; make "A"])) /\
  (exists t, registered st "A" t /\ names_in_use t = ["A0"; "A1"]%string /\ lowest t "A" 2) /\
  (exists st' e i, instantiate_template false "A" None (Lst []) CrObject st = (st', e, Ok (Some i)) /\ in_name i = "A2"%string).
Proof.
  cbn zeta. split; [apply reached_by; vm_compute; reflexivity|]. split.
  - eexists. split; [vm_compute; reflexivity|]. split; [reflexivity|]. split.
    + vm_compute. intuition discriminate.
    + intros j Lj. destruct j as [|[|j]]; [vm_compute; auto|vm_compute; auto|lia].
  - eexists _, _, _. split; [vm_compute; reflexivity|reflexivity].
Qed.

(** ** C43 *)

Theorem C43_refused : forall st tr tid t k slot bus conf cr p kids, reached st tr -> registered st tid t -> lowest t tid k ->
  parent_of st bus p -> children st p kids -> In (tid ++ to_string k)%string kids ->
  instantiate_template slot tid bus conf cr st = (st, [], Throw (DuplicateKey (tid ++ to_string k))).
Proof.
  intros st tr tid t k slot bus conf cr p kids R L Lo P K I. apply reached_inv in R as IV.
  destruct (instantiate_cases st tr slot tid bus conf cr t IV L) as (k' & Lo' & [(_ & NP)|(p' & kids' & P' & K' & E)]); cbn zeta in *.
  - exfalso. eapply NP; eauto.
  - rewrite (lowest_unique _ _ _ _ Lo Lo') in *.
    assert (p' = p) as -> by (unfold parent_of in *; destruct P as [?|(? & ?)], P' as [?|(? & ?)]; congruence).
    unfold children in *. assert (kids' = kids) as -> by congruence. destruct E as [(_ & E)|(N & _)]; tauto.
Qed.
Print Assumptions C43_refused.

(** Conversely, DuplicateKeyException not coming from the plugin itself means that. *)
Theorem C43_only : forall st tr tid t slot bus conf cr st' e n, reached st tr -> registered st tid t ->
  instantiate_template slot tid bus conf cr st = (st', e, Throw (DuplicateKey n)) -> (forall x, cr <> CrThrow x) ->
  st' = st /\ e = [] /\ exists k p kids, lowest t tid k /\ n = (tid ++ to_string k)%string /\ parent_of st bus p /\ children st p kids /\ In n kids.
Proof.
  intros st tr tid t slot bus conf cr st' e n R L H NC. apply reached_inv in R as IV.
  destruct (instantiate_cases st tr slot tid bus conf cr t IV L) as (k & Lo & [(E & _)|(p & kids & P & K & [(I & E)|(N & E)])]); cbn zeta in E.
  - rewrite E in H. discriminate.
  - rewrite E in H. injection H as <- <- <-. split; auto. split; auto. exists k, p, kids. auto.
  - destruct cr as [| |x]; [rewrite E in H; discriminate|rewrite E in H; discriminate|exfalso; eapply NC; eauto].
Qed.
Print Assumptions C43_only.

(** The clash between templates "A" and "A1". *)
Definition eleven : list pop := loaded ++ repeat (make "A") 11.
Theorem C43_clash : exists st', fst (fst (pstep (make "A1") (state_of eleven))) = st' /\ st' = state_of eleven /\
  snd (pstep (make "A1") (state_of eleven)) = Throw (DuplicateKey "A10") /\
  (exists t, registered (state_of eleven) "A1" t /\ names_in_use t = []).
Proof. eexists. split; [reflexivity|]. split; [vm_compute; reflexivity|]. split; [vm_compute; reflexivity|]. eexists. split; vm_compute; reflexivity. Qed.
Print Assumptions C43_clash.

Example C43_case : let st := state_of eleven in reached st (trace_of eleven) /\
  (exists t, registered st "A1" t /\ lowest t "A1" 0) /\ parent_of st None 0 /\ (exists kids, children st 0 kids /\ In "A10"%string kids).
Proof.
  cbn zeta. split; [apply reached_by; vm_compute; reflexivity|]. split; [|split].
  - eexists. split; [vm_compute; reflexivity|]. split; [intros []|intros j Lj; lia].
  - right. split; [reflexivity|vm_compute; reflexivity].
  - eexists. split; [vm_compute; reflexivity|]. vm_compute. tauto.
Qed.

(** ** C44 *)

Lemma prefix_split p : forall s, substring 0 (String.length p) s = p <-> exists rest, s = (p ++ rest)%string.
Proof.
  induction p as [|c p IH]; intros s; simpl.
  - split; [exists s; auto|]. intros _. destruct s; reflexivity.
  - destruct s as [|c' s]; simpl; [split; [discriminate|intros (r & H); discriminate]|]. split.
    + intros H. injection H as -> H. apply IH in H as (r & ->). eauto.
    + intros (r & H). injection H as -> H. f_equal. apply IH. eauto.
Qed.

Lemma extension_of b : ~ occurs "/" b -> forall a, get_file_extension (a ++ String "/" b) = "so"%string <-> exists stem, b = (stem ++ ".so")%string.
Proof.
  intros N a. unfold get_file_extension. rewrite filename_split by auto. destruct b as [|c b'] eqn:B; [split; [discriminate|intros ([|] & H); discriminate]|].
  rewrite <- B in *. clear B. destruct (last_split "." b) as [ND|(x & y & -> & ND)].
  - rewrite find_last_none by auto. split; [discriminate|]. intros (stem & ->). exfalso. apply ND. unfold occurs. rewrite chars_app. apply in_or_app. right. simpl; auto.
  - rewrite find_last_some by auto. rewrite substr_from_app. split; [intros ->; exists x; reflexivity|].
    intros (stem & E). assert (~ occurs "." "so") as NS by (unfold occurs; simpl; intuition discriminate).
    assert (find_last "." (x ++ String "." y) = find_last "." (stem ++ ".so")) as F by congruence.
    rewrite find_last_some in F by auto. change (stem ++ ".so")%string with (stem ++ String "." "so")%string in F. rewrite find_last_some in F by auto.
    injection F as F. assert (substr_from (String.length x + 1) (x ++ String "." y) = substr_from (String.length stem + 1) (stem ++ String "." "so")) as G by (rewrite F; f_equal; exact E).
    rewrite !substr_from_app in G. exact G.
Qed.

Lemma candidate_iff w path : candidate w path = true <->
  f_access (w_fs w) (c_str path) = true /\
  exists dir name rest stem, path = (dir ++ "/" ++ name)%string /\ ~ In "/"%char (list_ascii_of_string name) /\
     name = ("libplugin_" ++ rest)%string /\ name = (stem ++ ".so")%string.
Proof.
  unfold candidate, path_exists, template_extension. rewrite !andb_true_iff, !String.eqb_eq.
  destruct (last_split "/" path) as [N|(a & b & -> & N)].
  - split.
    + intros ((_ & E) & _). exfalso. unfold get_file_extension in E. destruct (C52_no_filename path) as (F & _). destruct (F N) as (F1 & _). rewrite F1 in E. discriminate.
    + intros (_ & dir & name & _ & _ & -> & _). exfalso. apply N. unfold occurs. rewrite chars_app. apply in_or_app. right. simpl; auto.
  - rewrite (extension_of b N a), filename_split by auto. rewrite (prefix_split template_prefix b). split.
    + intros ((A & (stem & E)) & (rest & P)). split; auto. exists a, b, rest, stem. auto.
    + intros (A & dir & name & rest & stem & E & N' & P & S).
      assert (name = b) as -> by (rewrite <- (filename_split a b N), <- (filename_split dir name N'); now rewrite E).
      repeat split; eauto.
Qed.

(** A template is registered exactly for usable files: under the reported identifier, without
    instances, and nothing else changes. *)
Theorem C44_registered : forall w path id st st' e r, load_template w path st = (st', e, r) ->
  (usable w path id <-> In (PeLoaded id (pm_handles st)) e) /\
  (usable w path id -> registered st' id (mkTemplate id true [] (pm_handles st)) /\ opened e = [pm_handles st] /\ closed e = [] /\
     forall x, x <> id -> olookup x (pm_templates st') = olookup x (pm_templates st)).
Proof.
  intros w path id st st' e r H. unfold usable. pose proof (candidate_iff w path) as CI. unfold load_template in H.
  destruct (candidate w path) eqn:C.
  2: { injection H as <- <- _. split; [split; [|intros []]|]; intros (A & B & _); exfalso; assert (false = true) by (apply CI; auto); discriminate. }
  assert (forall P : Prop, (f_access (w_fs w) (c_str path) = true /\ (exists dir name rest stem, path = (dir ++ "/" ++ name)%string /\ ~ In "/"%char (list_ascii_of_string name) /\
     name = ("libplugin_" ++ rest)%string /\ name = (stem ++ ".so")%string) /\ P) <-> P) as CI'.
  { intros P. destruct CI as [CI _]. specialize (CI eq_refl). tauto. }
  rewrite !CI'. clear CI CI'. 
  destruct (w_open w (c_str path)) as [l|]; [|injection H as <- <- _; split; [split; [intros (l & E & _); discriminate|intros []]|intros (l & E & _); discriminate]].
  destruct (lb_info l) as [[id'|]|] eqn:LI.
  2: { injection H as <- <- _. split; [split; [|intros [E|[]]; discriminate]|]; intros (l' & E & E2 & _); congruence. }
  2: { injection H as <- <- _. split; [split; [|intros [E|[E|[]]]; discriminate]|]; intros (l' & E & E2 & _); congruence. }
  destruct (String.eqb_spec id' "") as [Em|Ne].
  { injection H as <- <- _. split; [split; [|intros [E|[E|[]]]; discriminate]|]; intros (l' & E & E2 & E3 & _); congruence. }
  destruct (lb_create l) eqn:LC.
  2: { injection H as <- <- _. split; [split; [|intros [E|[E|[]]]; discriminate]|]; intros (l' & E & E2 & E3 & E4); congruence. }
  assert (exists e1, e = PeOpen (pm_handles st) :: PeLoaded id' (pm_handles st) :: e1 /\ (forall x, In x e1 -> quiet x) /\
    pm_templates st' = oinsert id' (mkTemplate id' true [] (pm_handles st)) (pm_templates st)) as (e1 & -> & Q & T).
  { destruct (olookup id' (pm_templates st)) as [old|].
    - unfold unload in H. 
      assert (forall ll, Forall quiet (fst (stop_all ll)) /\ Forall quiet (fst (deinit_all ll))) as QQ.
      { clear. induction ll as [|[n [i|]] ll (A & B)]; simpl; [auto| |auto]. destruct (stop_all ll), (deinit_all ll). simpl in *. split; constructor; simpl; auto. }
      destruct (QQ (tp_insts old)) as (Q1 & Q2). destruct (stop_all (tp_insts old)) as [e1 r1], (deinit_all (tp_insts old)) as [e2 r2]. simpl in Q1, Q2.
      destruct r1; [destruct r2|..]; injection H as <- <- _; eexists; (split; [reflexivity|]); (split; [|reflexivity]); apply Forall_forall; auto; apply Forall_app; auto.
    - injection H as <- <- _. exists []. split; auto. split; [intros x []|reflexivity]. }
  destruct (quiet_all e1) as (Q1 & Q2 & _); [now apply Forall_forall|].
  split; [split|].
  - intros (l' & E & E2 & _). injection E as <-. rewrite LI in E2. injection E2 as <-. simpl; auto.
  - intros [E|[E|I]]; [discriminate| |].
    + injection E as <-. eauto.
    + apply Q in I. contradiction.
  - intros (l' & E & E2 & _). injection E as <-. rewrite LI in E2. injection E2 as <-. unfold registered. rewrite T. repeat split.
    + apply olookup_insert_eq'.
    + simpl. rewrite Q1. reflexivity.
    + simpl. exact Q2.
    + intros x Nx. apply olookup_insert_ne. auto.
Qed.
Print Assumptions C44_registered.

(** Any other file changes nothing, and a library that was opened is closed again, unless it exports
    a CreateInfo that returns null (then it is dereferenced). *)
Theorem C44_refused : forall w path st st' e r, load_template w path st = (st', e, r) -> (forall id, ~ usable w path id) ->
  pm_templates st' = pm_templates st /\ pm_buses st' = pm_buses st /\
  ((r = Ok false /\ closed e = opened e) \/
   (r = UB /\ exists l, w_open w (c_str path) = Some l /\ lb_info l = Some None)).
Proof.
  intros w path st st' e r H NU. unfold usable in NU. pose proof (candidate_iff w path) as CI. unfold load_template in H.
  destruct (candidate w path) eqn:C; [|injection H as <- <- <-; auto].
  destruct (w_open w (c_str path)) as [l|]; [|injection H as <- <- <-; auto].
  destruct (lb_info l) as [[id'|]|] eqn:LI; [|injection H as <- <- <-; split; auto; split; auto; right; eauto|injection H as <- <- <-; auto].
  destruct (String.eqb_spec id' "") as [Em|Ne]; [injection H as <- <- <-; auto|].
  destruct (lb_create l) eqn:LC; [|injection H as <- <- <-; auto].
  exfalso. apply (NU id'). destruct CI as [CI _]. destruct (CI eq_refl) as (A & B). split; auto. split; auto. eauto.
Qed.
Print Assumptions C44_refused.

Example C44_case :
  usable a_world "/p/libplugin_a.so" "A" /\ (forall id, ~ usable a_world "/p/notes.txt" id) /\ (forall id, ~ usable a_world "/p/libplugin_bare.so" id) /\
  snd (load_template a_world "/p/libplugin_none.so" pinit) = UB.
Proof.
  split.
  - split; [reflexivity|]. split.
    + exists "/p"%string, "libplugin_a.so"%string, "a.so"%string, "libplugin_a"%string. repeat split. simpl. intuition discriminate.
    + eexists. split; [reflexivity|]. repeat split. discriminate.
  - split; [|split; [|reflexivity]].
    + intros id (_ & _ & l & E & _). vm_compute in E. discriminate.
    + intros id (_ & _ & l & E & E2 & _). vm_compute in E. injection E as <-. discriminate.
Qed.

(** ** C45 *)

Lemma prun_snoc os : forall o st st' tr rs, prun (os ++ [o]) st = (st', tr, rs) -> ~ In UB rs ->
  exists st1 tr1 rs1 e r, prun os st = (st1, tr1, rs1) /\ ~ In UB rs1 /\ pstep o st1 = (st', e, r) /\ r <> UB /\ tr = tr1 ++ e /\ rs = rs1 ++ [r].
Proof.
  induction os as [|o' os IH]; simpl; intros o st st' tr rs H N.
  - destruct (pstep o st) as [[s e] r] eqn:P. exists st, [], [], e, r.
    assert (r <> UB) as NU by (intros ->; injection H as <- <- <-; apply N; simpl; auto).
    destruct r; try congruence; rewrite app_nil_r in H; injection H as <- <- <-; auto 10.
  - destruct (pstep o' st) as [[s e] r] eqn:P. destruct (prun (os ++ [o]) s) as [[s2 e2] rs2] eqn:R.
    assert (r <> UB) as NU by (intros ->; injection H as <- <- <-; apply N; simpl; auto).
    assert (forall A (x y : A), match r with UB => x | _ => y end = y) as ER by (destruct r; auto; congruence). rewrite ER in H. injection H as <- <- <-.
    destruct (IH _ _ _ _ _ R) as (st1 & tr1 & rs1 & e1 & r1 & A & B & C & D & -> & ->); [intros I; apply N; simpl; auto|].
    rewrite A, ER. exists st1, (e ++ tr1), (r :: rs1), e1, r1. rewrite app_assoc. repeat split; auto. intros [I|I]; auto.
Qed.

Theorem C45_balance : forall os st tr rs, prun (os ++ [PUnload]) pinit = (st, tr, rs) -> ~ In UB rs ->
  Permutation (opened tr) (closed tr ++ replaced tr).
Proof.
  intros os st tr rs H N. assert (inv st tr) as IV by (apply reached_inv; exists (os ++ [PUnload]), rs; auto).
  apply prun_snoc in H as (st1 & tr1 & rs1 & e & r & _ & _ & P & NU & _ & _); auto. cbn [pstep] in P.
  destruct (unload_templates st1) as [[s e'] r'] eqn:U. injection P as <- <- <-. pose proof (iv_perm _ _ IV) as F.
  assert (pm_templates s = []) as T.
  { destruct r'; [|exfalso|exfalso; apply NU; reflexivity|exfalso].
    - apply unload_templates_ok in U as (_ & -> & _). reflexivity.
    - destruct (null_dec_all (pm_templates st1)) as [NN|(k & t & I & Nn)].
      + apply unload_templates_fine in NN as (a & b & E). congruence.
      + pose proof (unload_templates_null _ _ _ I Nn) as E. rewrite U in E. discriminate.
    - destruct (null_dec_all (pm_templates st1)) as [NN|(k & t & I & Nn)].
      + apply unload_templates_fine in NN as (a & b & E). congruence.
      + pose proof (unload_templates_null _ _ _ I Nn) as E. rewrite U in E. discriminate. }
  rewrite T in F. simpl in F. now rewrite app_nil_r in F.
Qed.
Print Assumptions C45_balance.

(** At every time: every acquisition is a new handle; no handle is released twice or without having
    been acquired; and a replaced one is never released. *)
Theorem C45_once : forall st tr, reached st tr ->
  NoDup (opened tr) /\ NoDup (closed tr) /\ incl (closed tr) (opened tr) /\ (forall h, In h (replaced tr) -> ~ In h (closed tr)).
Proof.
  intros st tr R. apply reached_inv in R as [A B C D E F].
  assert (NoDup (opened tr)) as N by (rewrite D; apply seq_NoDup). split; auto.
  assert (NoDup (closed tr ++ replaced tr ++ map (fun kt => tp_handle (snd kt)) (pm_templates st))) as N2 by (rewrite <- F; auto).
  split; [|split].
  - clear -N2. induction (closed tr) as [|h l IH]; [constructor|]. inversion N2; subst. constructor; auto. intros I. apply H1. apply in_or_app. auto.
  - intros h I. rewrite F. apply in_or_app. auto.
  - intros h I J. clear -N2 I J. induction (closed tr) as [|x l IH]; [contradiction|]. simpl in N2. inversion N2; subst.
    destruct J as [->|J]; [|auto]. apply H1. apply in_or_app. right. apply in_or_app. auto.
Qed.
Print Assumptions C45_once.

(** Without reloading, everything is released. *)
Theorem C45_no_reload : forall os st tr rs, prun (os ++ [PUnload]) pinit = (st, tr, rs) -> ~ In UB rs ->
  replaced tr = [] -> Permutation (opened tr) (closed tr).
Proof. intros os st tr rs H N R. rewrite <- (app_nil_r (closed tr)), <- R. eapply C45_balance; eauto. Qed.
Print Assumptions C45_no_reload.

Definition reloading : list pop := loaded ++ [make "A"; PLoadAll a_world; PLoad a_world "/p/libplugin_bare.so"].
Example C45_case : no_ub (reloading ++ [PUnload]) = true /\ opened (trace_of (reloading ++ [PUnload])) = [0; 1; 2; 3; 4] /\
  closed (trace_of (reloading ++ [PUnload])) = [4; 2; 3] /\ replaced (trace_of (reloading ++ [PUnload])) = [1; 0].
Proof. vm_compute. auto. Qed.

(** ** C46 *)

(** Stops and deinitialisations of one template, then its handle. *)
Definition shutdown_of (t : template) : list pevent := map PeStop (instances t) ++ map PeDeinit (instances t) ++ [PeClose (tp_handle t)].

Theorem C46_order : forall st tr st' e r, reached st tr -> pstep PUnload st = (st', e, Ok r) ->
  e = flat_map (fun kt => shutdown_of (snd kt)) (pm_templates st) ++ match pm_templates st with [] => [] | _ => [PeUnloaded] end /\
  pm_templates st' = [] /\
  StronglySorted slt (map fst (pm_templates st)) /\
  (forall k t, In (k, t) (pm_templates st) -> StronglySorted slt (map in_name (instances t))).
Proof.
  intros st tr st' e r R H. apply reached_inv in R as IV. cbn [pstep] in H. destruct (unload_templates st) as [[s e'] r'] eqn:U.
  injection H as <- <- Hr. destruct r'; try discriminate. apply unload_templates_ok in U as (_ & -> & ->).
  split; [reflexivity|]. split; [reflexivity|]. split; [apply IV|].
  intros k t I. apply in_olookup in I; [|apply IV]. destruct (iv_tp _ _ IV _ _ I) as [_ _ _ S G]. unfold osorted, okeys in S.
  unfold instances. revert S G. clear. induction (tp_insts t) as [|[n o] l IH]; simpl; intros S G; [constructor|].
  inversion S as [|? ? S' F]; subst. destruct o as [i|]; simpl; [|apply IH; auto; intros; eapply G; eauto].
  constructor; [apply IH; auto; intros; eapply G; eauto|]. apply Forall_forall. intros x I. apply in_map_iff in I as (j & <- & I).
  apply in_flat_map in I as ([n' [j'|]] & I & J); simpl in J; [|contradiction]. destruct J as [<-|[]].
  destruct (G n i (or_introl eq_refl)) as (-> & _). destruct (G n' j' (or_intror I)) as (-> & _).
  rewrite Forall_forall in F. apply F. apply in_map_iff. exists (n', Some j'). auto.
Qed.
Print Assumptions C46_order.

(** Each live instance is stopped once and deinitialised once. *)
Theorem C46_once : forall st tr st' e r, reached st tr -> pstep PUnload st = (st', e, Ok r) ->
  NoDup (map in_num (stopped e)) /\ deinited e = stopped e /\ (forall i, In i (stopped e) <-> In i (live st)) /\ live st' = [].
Proof.
  intros st tr st' e r R H. apply reached_inv in R as IV. cbn [pstep] in H. destruct (unload_templates st) as [[s e'] r'] eqn:U.
  injection H as <- <- Hr. destruct r'; try discriminate. apply unload_templates_ok in U as (_ & -> & ->).
  destruct (blocks_facts (pm_templates st)) as (_ & _ & _ & S & D).
  assert (stopped (match pm_templates st with [] => [] | _ => [PeUnloaded] end) = [] /\ deinited (match pm_templates st with [] => [] | _ => [PeUnloaded] end) = []) as (T1 & T2)
    by (destruct (pm_templates st); auto).
  unfold stopped, deinited in *. rewrite !flat_map_app, S, D, T1, T2, !app_nil_r.
  split; [apply IV|]. split; [reflexivity|]. split; [reflexivity|]. reflexivity.
Qed.
Print Assumptions C46_once.

Theorem C46_again : forall st st' e r, pstep PUnload st = (st', e, Ok r) -> pstep PUnload st' = (st', [], Ok PUnit).
Proof.
  intros st st' e r H. cbn [pstep] in H. destruct (unload_templates st) as [[s e'] r'] eqn:U.
  injection H as <- <- Hr. destruct r'; try discriminate. apply unload_templates_ok in U as (_ & -> & _). reflexivity.
Qed.
Print Assumptions C46_again.

Definition running : list pop := loaded ++ [make "A1"; make "A"; make "A"].
Example C46_case : let st := state_of running in reached st (trace_of running) /\
  (exists st' e r, pstep PUnload st = (st', e, Ok r) /\ map in_name (stopped e) = ["A0"; "A1"; "A10"]%string /\ closed e = [0; 1]).
Proof. cbn zeta. split; [apply reached_by; vm_compute; reflexivity|]. eexists _, _, _. split; [vm_compute; reflexivity|]. split; reflexivity. Qed.

(** ** C65: child bus names are never given back *)

Lemma list_set_grow st p kids name : children st p kids ->
  forall q ks, nth_error (pm_buses st) q = Some ks -> exists ks', nth_error (list_set p (kids ++ [name]) (pm_buses st) ++ [[]]) q = Some ks' /\ incl ks ks'.
Proof.
  intros K q ks Q. assert (q < length (pm_buses st)) as Lq by (apply nth_error_Some; congruence).
  rewrite nth_error_app1 by (rewrite list_set_length; auto). destruct (Nat.eq_dec p q) as [<-|N].
  - unfold children in K. rewrite list_set_eq by auto. exists (kids ++ [name]). split; auto. replace ks with kids by congruence. intros x I. apply in_or_app. auto.
  - rewrite list_set_ne by auto. exists ks. split; auto. apply incl_refl.
Qed.

Lemma load_template_buses w path st : pm_buses (fst (fst (load_template w path st))) = pm_buses st.
Proof.
  unfold load_template. destruct (candidate w path); auto. destruct (w_open w (c_str path)) as [l|]; auto. destruct (lb_info l) as [[id|]|]; auto.
  destruct (String.eqb id ""); auto. destruct (lb_create l); auto. destruct (olookup id (pm_templates st)); auto. destruct (unload t) as [[? ?] ?]. auto.
Qed.
Lemma load_files_buses w dir fs : forall st, pm_buses (fst (fst (load_files w dir fs st))) = pm_buses st.
Proof.
  induction fs as [|f fs IH]; simpl; intros st; auto. pose proof (load_template_buses w (combine_paths dir f) st) as E.
  destruct (load_template w (combine_paths dir f) st) as [[s e] r]. simpl in E. destruct r; auto. specialize (IH s). destruct (load_files w dir fs s) as [[? ?] ?]. simpl in *. congruence.
Qed.
Lemma load_paths_buses w ps : forall st, pm_buses (fst (fst (load_paths w ps st))) = pm_buses st.
Proof.
  induction ps as [|p ps IH]; simpl; intros st; auto. pose proof (load_files_buses w p (get_directory_contents (w_fs w) p OtFile) st) as E.
  destruct (load_files w p _ st) as [[s e] r]. simpl in E. destruct r; auto. specialize (IH s). destruct (load_paths w ps s) as [[? ?] ?]. simpl in *. congruence.
Qed.

Lemma create_child_grow bs p name bs' b : create_child bs p name = Some (Ok (bs', b)) ->
  forall q ks, nth_error bs q = Some ks -> exists ks', nth_error bs' q = Some ks' /\ incl ks ks'.
Proof.
  intros H q ks Q. apply create_child_ok in H as (kids & K & _ & -> & _).
  apply (list_set_grow (mkPm [] None [] bs 0 0) p kids name K q ks Q).
Qed.

Lemma pstep_grow o st : forall q ks, children st q ks -> exists ks', children (fst (fst (pstep o st))) q ks' /\ incl ks ks'.
Proof.
  unfold children. intros q ks Q. assert (exists ks', nth_error (pm_buses st) q = Some ks' /\ incl ks ks') as Same by (exists ks; split; auto; apply incl_refl).
  destruct o; cbn [pstep]; auto.
  - pose proof (load_template_buses w path st) as E. destruct (load_template w path st) as [[s e] r]. simpl in *. now rewrite E.
  - pose proof (load_paths_buses w (pm_paths st) st) as E. destruct (load_paths w (pm_paths st) st) as [[s e] r]. simpl in *. now rewrite E.
  - rewrite unload_templates_eq. destruct (pm_templates st); auto. destruct (unload_each (p :: o)) as [e []]; auto.
  - unfold instantiate_template. destruct (olookup tid (pm_templates st)) as [t|]; auto. unfold instantiate.
    destruct (free_index t); auto. destruct (match bus with Some b => Some b | None => pm_bus st end) as [p|]; auto.
    destruct (create_child (pm_buses st) p (tp_id t ++ to_string a)) as [[[bs b]| | |]|] eqn:CC; auto.
    destruct (tp_fn t); [destruct cr|]; cbn [fst pm_buses]; eapply create_child_grow; eauto.
  - cbn [fst pm_buses]. exists ks. split; [|apply incl_refl]. rewrite nth_error_app1; auto. apply nth_error_Some. congruence.
  - destruct (create_child (pm_buses st) b name) as [[[bs b']| | |]|] eqn:CC; auto. cbn [fst pm_buses]. eapply create_child_grow; eauto.
Qed.
Lemma prun_grow os : forall st q ks, children st q ks -> exists ks', children (fst (fst (prun os st))) q ks' /\ incl ks ks'.
Proof.
  induction os as [|o os IH]; intros st q ks Q; simpl; [exists ks; split; auto; apply incl_refl|].
  destruct (pstep_grow o st q ks Q) as (ks1 & Q1 & I1). destruct (pstep o st) as [[s e] r]. simpl in Q1.
  assert (exists ks', children s q ks' /\ incl ks ks') as Here by eauto.
  destruct (IH s q ks1 Q1) as (ks2 & Q2 & I2). destruct (prun os s) as [[s2 e2] rs2]. simpl in Q2.
  assert (exists ks', children s2 q ks' /\ incl ks ks') as There by (exists ks2; split; auto; eapply incl_tran; eauto).
  destruct r; auto.
Qed.

(** Whatever happens after: the name is still taken, so an instantiation that would choose it fails. *)
Theorem C65_never_freed : forall st tr os st' tr' rs tid t k slot bus conf cr p kids, reached st tr ->
  children st p kids -> In (tid ++ to_string k)%string kids ->
  prun os st = (st', tr', rs) -> ~ In UB rs ->
  registered st' tid t -> lowest t tid k -> parent_of st' bus p ->
  instantiate_template slot tid bus conf cr st' = (st', [], Throw (DuplicateKey (tid ++ to_string k))).
Proof.
  intros st tr os st' tr' rs tid t k slot bus conf cr p kids R K I H N L Lo P.
  destruct (prun_grow os st p kids K) as (kids' & K' & Inc). rewrite H in K'. simpl in K'.
  destruct R as (os0 & rs0 & H0 & N0).
  eapply C43_refused with (tr := tr ++ tr'); eauto. exists (os0 ++ os), (rs0 ++ rs). split; [eapply prun_app; eauto|].
  intros J. apply in_app_or in J as [J|J]; auto.
Qed.
Print Assumptions C65_never_freed.

(** So a template that was unloaded and loaded again cannot be instantiated on the same bus. *)
Theorem C65_reload : forall st tr os st' tr' rs tid t slot bus conf cr p kids, reached st tr ->
  children st p kids -> In (tid ++ "0")%string kids ->
  prun os st = (st', tr', rs) -> ~ In UB rs ->
  registered st' tid t -> names_in_use t = [] -> parent_of st' bus p ->
  instantiate_template slot tid bus conf cr st' = (st', [], Throw (DuplicateKey (tid ++ "0"))).
Proof.
  intros st tr os st' tr' rs tid t slot bus conf cr p kids R K I H N L E P. change "0"%string with (to_string 0).
  eapply C65_never_freed; eauto. split; [rewrite E; intros []|intros j Lj; lia].
Qed.
Print Assumptions C65_reload.

(** Nor can a template whose CreateInstance threw (and left no entry): the next call on that bus
    chooses the same name again. *)
Theorem C65_failed_creation : forall st tr tid t bus bus' conf conf' cr x st' e p slot', reached st tr -> registered st tid t ->
  instantiate_template false tid bus conf (CrThrow x) st = (st', e, Throw x) -> e <> [] ->
  parent_of st bus p -> parent_of st' bus' p ->
  exists n, instantiate_template slot' tid bus' conf' cr st' = (st', [], Throw (DuplicateKey n)).
Proof.
  intros st tr tid t bus bus' conf conf' cr x st' e p slot' R L H Ne P P'. apply reached_inv in R as IV.
  destruct (instantiate_cases st tr false tid bus conf (CrThrow x) t IV L) as (k & Lo & [(E & _)|(q & kids & Q & K & [(I & E)|(N & E)])]); cbn zeta in E.
  - rewrite E in H. discriminate.
  - rewrite E in H. injection H as <- <- _. congruence.
  - assert (q = p) as -> by (unfold parent_of in *; destruct P as [?|(? & ?)], Q as [?|(? & ?)]; congruence).
    assert (reached st' (tr ++ e)) as R'.
    { eapply (reached_step st tr (PInstantiate false tid bus conf (CrThrow x)) st' e (Throw x)); auto; [cbn [pstep]; rewrite H; reflexivity|discriminate]. }
    rewrite E in H. injection H as <- _. eexists. eapply C43_refused with (k := k) (p := p); eauto.
    + unfold children. cbn [pm_buses]. assert (p < length (pm_buses st)) as Lp by (apply nth_error_Some; unfold children in K; congruence).
      rewrite nth_error_app1 by (rewrite list_set_length; auto). apply list_set_eq; auto.
    + apply in_or_app. right. simpl; auto.
Qed.
Print Assumptions C65_failed_creation.

Example C65_case : results_of (loaded ++ [make "A"; PUnload; PLoadAll a_world; make "A"]) =
  [Ok PUnit; Ok PUnit; Ok PUnit; Ok PUnit; Ok (PInst (Some (mkInst 0 "A0" 1 Emp))); Ok PUnit; Ok PUnit; Throw (DuplicateKey "A0")].
Proof. vm_compute. reflexivity. Qed.

(** ** C66: a plugin that returns null from CreateInstance *)

(** Unloading is undefined behaviour exactly when a null entry exists. *)
Theorem C66_undefined : forall st tr, reached st tr ->
  (snd (pstep PUnload st) = UB <-> exists tid t, registered st tid t /\ null_entry t).
Proof.
  intros st tr R. apply reached_inv in R as IV. cbn [pstep]. split.
  - intros H. destruct (null_dec_all (pm_templates st)) as [NN|(k & t & I & Nn)].
    + apply unload_templates_fine in NN as (a & b & E). rewrite E in H. discriminate.
    + exists k, t. split; auto. apply in_olookup; auto. apply IV.
  - intros (k & t & L & Nn). apply olookup_in in L. pose proof (unload_templates_null _ _ _ L Nn) as E.
    destruct (unload_templates st) as [[s e] r]. simpl in E. subst r. reflexivity.
Qed.
Print Assumptions C66_undefined.

(** A null result leaves one. *)
Theorem C66_entry : forall st tr tid t slot bus conf st' e, reached st tr -> registered st tid t ->
  instantiate_template slot tid bus conf CrNull st = (st', e, Ok None) -> exists t', registered st' tid t' /\ null_entry t'.
Proof.
  intros st tr tid t slot bus conf st' e R L H. apply reached_inv in R as IV.
  destruct (instantiate_cases st tr slot tid bus conf CrNull t IV L) as (k & Lo & [(E & _)|(q & kids & Q & K & [(I & E)|(N & E)])]); cbn zeta in E; rewrite E in H; try discriminate.
  injection H as <- _. eexists. split; [apply olookup_insert_eq, IV|]. exists (tid ++ to_string k)%string. cbn [set_insts tp_insts].
  apply olookup_in, olookup_insert_eq'.
Qed.
Print Assumptions C66_entry.

Definition has_null (st : pm) : Prop := exists tid t, registered st tid t /\ null_entry t.

Lemma load_template_null w path st st' e r : has_null st -> load_template w path st = (st', e, r) -> r = UB \/ has_null st'.
Proof.
  intros (k & t & L & N) H. unfold load_template in H.
  assert (forall s, pm_templates s = pm_templates st -> has_null s) as Same by (intros s E; exists k, t; unfold registered; rewrite E; auto).
  destruct (candidate w path); [|injection H as <- _ _; right; apply Same; reflexivity].
  destruct (w_open w (c_str path)) as [l|]; [|injection H as <- _ _; right; apply Same; reflexivity].
  destruct (lb_info l) as [[id|]|]; [|injection H as _ _ <-; auto|injection H as <- _ _; right; apply Same; reflexivity].
  destruct (String.eqb id ""); [injection H as <- _ _; right; apply Same; reflexivity|].
  destruct (lb_create l); [|injection H as <- _ _; right; apply Same; reflexivity].
  destruct (String.eqb_spec id k) as [Ek|Ek].
  - rewrite Ek in H. unfold registered in L. rewrite L in H. apply unload_null in N. destruct (unload t) as [[t1 e1] r1]. simpl in N. subst r1.
    injection H as _ _ <-. auto.
  - right. exists k, t. split; auto. unfold registered in *. rewrite <- (olookup_insert_ne id k (mkTemplate id true [] (pm_handles st)) _ Ek) in L.
    destruct (olookup id (pm_templates st)); [destruct (unload t0) as [[? ?] ?]|]; injection H as <- _ _; exact L.
Qed.
Lemma load_files_null w dir fs : forall st st' e r, has_null st -> load_files w dir fs st = (st', e, r) -> r = UB \/ has_null st'.
Proof.
  induction fs as [|f fs IH]; simpl; intros st st' e r HN H; [injection H as <- _ _; auto|].
  destruct (load_template w (combine_paths dir f) st) as [[s e1] r1] eqn:L. destruct (load_template_null _ _ _ _ _ _ HN L) as [->|HN'].
  - injection H as _ _ <-. auto.
  - apply load_template_res in L as [(b & ->)| ->]; [|injection H as _ _ <-; auto].
    destruct (load_files w dir fs s) as [[s2 e2] r2] eqn:L2. injection H as <- _ <-. eapply IH; eauto.
Qed.
Lemma load_paths_null w ps : forall st st' e r, has_null st -> load_paths w ps st = (st', e, r) -> r = UB \/ has_null st'.
Proof.
  induction ps as [|p ps IH]; simpl; intros st st' e r HN H; [injection H as <- _ _; auto|].
  destruct (load_files w p _ st) as [[s e1] r1] eqn:L. destruct (load_files_null _ _ _ _ _ _ _ HN L) as [->|HN'].
  - injection H as _ _ <-. auto.
  - apply load_files_res in L as [->| ->]; [|injection H as _ _ <-; auto].
    destruct (load_paths w ps s) as [[s2 e2] r2] eqn:L2. injection H as <- _ <-. eapply IH; eauto.
Qed.

Lemma pstep_null o st tr st' e r : inv st tr -> has_null st -> pstep o st = (st', e, r) -> r = UB \/ has_null st'.
Proof.
  intros IV HN H. pose proof HN as (k & t & L & N). unfold registered in L.
  assert (forall s, pm_templates s = pm_templates st -> has_null s) as Same by (intros s E; exists k, t; unfold registered; rewrite E; auto).
  destruct o; cbn [pstep] in H.
  - injection H as <- _ _. right. apply Same. reflexivity.
  - injection H as <- _ _. right. apply Same. reflexivity.
  - destruct (load_template w path st) as [[s e1] r1] eqn:Lo. injection H as <- _ <-. destruct (load_template_null _ _ _ _ _ _ HN Lo) as [->|]; auto.
  - destruct (load_paths w (pm_paths st) st) as [[s e1] r1] eqn:Lo. injection H as <- _ <-. destruct (load_paths_null _ _ _ _ _ _ HN Lo) as [->|]; auto.
  - left. apply olookup_in in L. pose proof (unload_templates_null _ _ _ L N) as E. destruct (unload_templates st) as [[s e1] r1]. simpl in E. subst r1. injection H as _ _ <-. reflexivity.
  - destruct (instantiate_template slot tid bus conf cr st) as [[s e1] r1] eqn:IT. injection H as <- _ <-.
    destruct (olookup tid (pm_templates st)) as [u|] eqn:U.
    2: { unfold instantiate_template in IT. rewrite U in IT. injection IT as <- _ _. auto. }
    destruct (iv_tp _ _ IV _ _ U) as [_ _ _ Su _].
    assert (forall name o, ~ In name (names_in_use u) -> forall bs n,
      has_null (mkPm (pm_paths st) (pm_bus st) (oinsert tid (set_insts u (oinsert name o (tp_insts u))) (pm_templates st)) bs (pm_handles st) n)) as Add.
    { intros name o Nn bs n. exists k. destruct (String.eqb_spec tid k) as [<-|Nk].
      - assert (t = u) as -> by congruence. eexists. split; [apply olookup_insert_eq, IV|]. destruct N as (m & I). exists m. cbn [set_insts tp_insts].
        apply olookup_in. rewrite olookup_insert_ne; [now apply in_olookup|]. intros ->. apply Nn. unfold names_in_use. apply in_map_iff. exists (m, None). auto.
      - exists t. split; auto. unfold registered. cbn [pm_templates]. now rewrite olookup_insert_ne. }
    destruct (instantiate_cases st tr slot tid bus conf cr u IV U) as (j & Lo & [(E & _)|(q & kids & Q & K & [(I & E)|(Nk & E)])]); cbn zeta in E.
    + rewrite E in IT. injection IT as _ _ <-. auto.
    + rewrite E in IT. injection IT as <- _ _. auto.
    + right. destruct cr as [| |x]; rewrite E in IT; injection IT as <- _ _; try (apply Add; apply Lo).
      destruct slot; [apply Add; apply Lo|apply Same; reflexivity].
  - injection H as <- _ _. right. apply Same. reflexivity.
  - destruct (create_child (pm_buses st) b name) as [[[bs b']| | |]|]; injection H as <- _ <-; auto.
Qed.

(** ... and then every history that ends with unloading runs into undefined behaviour. *)
Theorem C66_inevitable : forall os st tr st' tr' rs, reached st tr -> (exists tid t, registered st tid t /\ null_entry t) ->
  prun (os ++ [PUnload]) st = (st', tr', rs) -> In UB rs.
Proof.
  induction os as [|o os IH]; simpl; intros st tr st' tr' rs R HN H; pose proof (reached_inv _ _ R) as IV.
  - assert (exists tid t, registered st tid t /\ null_entry t) as HN' by auto.
    apply (C66_undefined st tr R) in HN'. cbn [pstep] in HN'. destruct (unload_templates st) as [[s e] r]. cbn [snd] in HN'. destruct r; try discriminate.
    simpl in H. injection H as _ _ <-. simpl; auto.
  - destruct (pstep o st) as [[s e] r] eqn:P. destruct (pstep_null _ _ _ _ _ _ IV HN P) as [->|HN']; [injection H as _ _ <-; simpl; auto|].
    destruct (prun (os ++ [PUnload]) s) as [[s2 e2] rs2] eqn:Q.
    assert (r = UB \/ r <> UB) as [->|NU] by (destruct r; auto; right; discriminate); [injection H as _ _ <-; simpl; auto|].
    pose proof (IH _ _ _ _ _ (reached_step _ _ _ _ _ _ R P NU) HN' Q) as I. destruct r; try congruence; injection H as _ _ <-; simpl; auto.
Qed.
Print Assumptions C66_inevitable.

Definition nulled : list pop := loaded ++ [PInstantiate false "A" None Emp CrNull].
Example C66_case : reached (state_of nulled) (trace_of nulled) /\ (exists tid t, registered (state_of nulled) tid t /\ null_entry t) /\
  results_of (nulled ++ [make "A"; PUnload]) =
  [Ok PUnit; Ok PUnit; Ok PUnit; Ok PUnit; Ok (PInst None); Ok (PInst (Some (mkInst 0 "A1" 2 Emp))); UB].
Proof.
  split; [apply reached_by; vm_compute; reflexivity|]. split; [|vm_compute; reflexivity].
  eexists "A"%string, _. split; [vm_compute; reflexivity|]. exists "A0"%string. vm_compute. auto.
Qed.

(** ** C51: the worker thread of an instance *)

Definition ireached (ls : list ilabel) (s : istate) (tr : list ievent) : Prop := iexec ls iinit = Some (s, tr).

(** Number of workers not yet ended. *)
Definition i_live (s : istate) : nat := match is_worker s with Running => 1 | _ => 0 end.

Lemma iexec_app ls1 : forall ls2 s s' tr, iexec (ls1 ++ ls2) s = Some (s', tr) ->
  exists s1 tr1 tr2, iexec ls1 s = Some (s1, tr1) /\ iexec ls2 s1 = Some (s', tr2) /\ tr = tr1 ++ tr2.
Proof.
  induction ls1 as [|l ls1 IH]; simpl; intros ls2 s s' tr H; [exists s, [], tr; auto|].
  destruct (istep l s) as [[s1 e1]|]; [|discriminate]. destruct (iexec (ls1 ++ ls2) s1) as [[s2 e2]|] eqn:E; [|discriminate].
  injection H as <- <-. destruct (IH _ _ _ _ E) as (a & b & c & A & B & ->). rewrite A. exists a, (e1 ++ b), c. rewrite app_assoc. auto.
Qed.

Lemma istep_count l s s' e : istep l s = Some (s', e) -> i_live s + started e = i_live s' + ended e.
Proof.
  unfold istep, i_live. destruct (is_dead s); [discriminate|].
  destruct l, (is_ctl s), (is_should s), (is_worker s) eqn:W; intros H; inversion H; subst; simpl; rewrite ?W; reflexivity.
Qed.
Lemma started_app a b : started (a ++ b) = started a + started b.
Proof. unfold started. now rewrite filter_app, app_length. Qed.
Lemma ended_app a b : ended (a ++ b) = ended a + ended b.
Proof. unfold ended. now rewrite filter_app, app_length. Qed.
Lemma iexec_count ls : forall s s' tr, iexec ls s = Some (s', tr) -> i_live s + started tr = i_live s' + ended tr.
Proof.
  induction ls as [|l ls IH]; simpl; intros s s' tr H; [injection H as <- <-; reflexivity|].
  destruct (istep l s) as [[s1 e1]|] eqn:E; [|discriminate]. destruct (iexec ls s1) as [[s2 e2]|] eqn:F; [|discriminate].
  injection H as <- <-. apply istep_count in E. apply IH in F. rewrite started_app, ended_app. lia.
Qed.

(** At most one worker runs at any time. *)
Theorem C51_one_worker : forall ls s tr, ireached ls s tr -> ended tr <= started tr <= S (ended tr).
Proof.
  intros ls s tr H. apply iexec_count in H. change (i_live iinit) with 0 in H. unfold i_live in H. destruct (is_worker s); lia.
Qed.
Print Assumptions C51_one_worker.

Definition i_inv (s : istate) : Prop :=
  is_dead s = false ->
  match is_ctl s with
  | Outside => is_should s = true <-> is_worker s <> NoWorker
  | Joining => is_should s = false /\ is_worker s <> NoWorker
  end.
Lemma istep_inv l s s' e : l <> IRunClears -> i_inv s -> istep l s = Some (s', e) -> i_inv s'.
Proof.
  unfold i_inv, istep. intros NC IV H. destruct (is_dead s) eqn:D; [discriminate|]. specialize (IV eq_refl).
  destruct l, (is_ctl s) eqn:C, (is_should s) eqn:S, (is_worker s) eqn:W; try congruence; inversion H; subst; simpl in *; intros D'; try discriminate;
    try (split; congruence); try (rewrite C, S, W); intuition congruence.
Qed.
Lemma iexec_inv ls : forall s s' tr, ~ In IRunClears ls -> i_inv s -> iexec ls s = Some (s', tr) -> i_inv s'.
Proof.
  induction ls as [|l ls IH]; simpl; intros s s' tr NC IV H; [injection H as <- _; auto|].
  destruct (istep l s) as [[s1 e1]|] eqn:E; [|discriminate]. destruct (iexec ls s1) as [[s2 e2]|] eqn:F; [|discriminate].
  injection H as <- _. eapply IH; [| |exact F]; auto. eapply istep_inv; [| |exact E]; auto.
Qed.

(** When a call of Stop returns, the worker has finished. *)
Theorem C51_stop_waits : forall ls l s tr s' e, ~ In IRunClears ls -> ireached ls s tr ->
  istep l s = Some (s', e) -> In IeStopped e -> is_worker s' = NoWorker /\ started tr = ended tr.
Proof.
  intros ls l s tr s' e NC R H I. pose proof (iexec_inv ls iinit s tr NC) as IV. assert (i_inv s) as IV' by (apply IV; auto; intros _; simpl; split; congruence).
  pose proof (iexec_count _ _ _ _ R) as C. change (i_live iinit) with 0 in C. unfold i_inv in IV'. unfold istep in H. unfold i_live in C.
  destruct (is_dead s); [discriminate|]. specialize (IV' eq_refl).
  destruct l, (is_ctl s) eqn:Ct, (is_should s) eqn:S, (is_worker s) eqn:W; inversion H; subst; simpl in I; try tauto; try (destruct I as [I|[]]; discriminate);
    rewrite ?W; split; auto; try lia; exfalso; assert (false = true) by (apply IV'; congruence); discriminate.
Qed.
Print Assumptions C51_stop_waits.

(** Stop without a worker attached changes nothing and returns at once. *)
Theorem C51_stop_noop : forall ls s tr, ~ In IRunClears ls -> ireached ls s tr -> is_dead s = false -> is_ctl s = Outside ->
  is_worker s = NoWorker -> istep IStop s = Some (s, [IeStopped]).
Proof.
  intros ls s tr NC R D C W. pose proof (iexec_inv ls iinit s tr NC) as IV. assert (i_inv s) as IV' by (apply IV; auto; intros _; simpl; split; congruence).
  specialize (IV' D). rewrite C in IV'. unfold istep. rewrite D, C, W. destruct (is_should s) eqn:S; auto.
  exfalso. assert (NoWorker <> NoWorker) by (rewrite <- W at 1; apply IV'; auto). congruence.
Qed.
Print Assumptions C51_stop_noop.

(** Stop waits for a running worker, and for nothing else. *)
Theorem C51_stop_returns : forall ls s tr, ~ In IRunClears ls -> ireached ls s tr -> is_dead s = false -> is_ctl s = Joining ->
  is_worker s = Running /\ (exists s', istep IRunEnds s = Some (s', [IeRunEnds])) \/ exists s', istep IJoined s = Some (s', [IeStopped]).
Proof.
  intros ls s tr NC R D C. pose proof (iexec_inv ls iinit s tr NC) as IV. assert (i_inv s) as IV' by (apply IV; auto; intros _; simpl; split; congruence).
  specialize (IV' D). rewrite C in IV'. destruct IV' as (_ & IV'). unfold istep. rewrite D, C. destruct (is_worker s); [congruence|left; eauto|right; eauto].
Qed.
Print Assumptions C51_stop_returns.

(** Start while a worker is attached, running or not, terminates the process; nothing else does. *)
Theorem C51_terminates : forall ls l s tr s' e, ~ In IRunClears ls -> ireached ls s tr -> istep l s = Some (s', e) ->
  (In IeTerminate e <-> l = IStart /\ is_worker s <> NoWorker).
Proof.
  intros ls l s tr s' e NC R H. pose proof (iexec_inv ls iinit s tr NC) as IV. assert (i_inv s) as IV' by (apply IV; auto; intros _; simpl; split; congruence).
  unfold i_inv in IV'. unfold istep in H. destruct (is_dead s); [discriminate|]. specialize (IV' eq_refl).
  destruct l, (is_ctl s) eqn:Ct, (is_should s) eqn:S, (is_worker s) eqn:W; inversion H; subst; simpl in *;
    (split; [intros I; try (destruct I as [I|I]); try discriminate; try tauto; try (split; congruence); exfalso; assert (false = true) by (apply IV'; congruence); discriminate
            |intros (E & N); try discriminate; try congruence; auto]).
Qed.
Print Assumptions C51_terminates.

(** Once Stop has returned, Start makes a new worker. *)
Theorem C51_restart : forall ls l s tr s' e, ~ In IRunClears (l :: ls) -> ireached ls s tr -> istep l s = Some (s', e) -> In IeStopped e ->
  exists s2, istep IStart s' = Some (s2, [IeStarted]).
Proof.
  intros ls l s tr s' e NC R H I. pose proof (iexec_inv ls iinit s tr (fun q => NC (or_intror q))) as IV. assert (i_inv s) as IV' by (apply IV; auto; intros _; simpl; split; congruence).
  unfold i_inv in IV'. unfold istep in H. destruct (is_dead s) eqn:Dd; [discriminate|]. specialize (IV' eq_refl). destruct s as [sh w ct dd]; simpl in *. subst dd.
  destruct l, ct, sh, w; inversion H; subst; simpl in *; repeat (destruct I as [I|I]; try discriminate I); try contradiction I; try (eexists; reflexivity);
    exfalso; assert (false = true) by (apply IV'; congruence); discriminate.
Qed.
Print Assumptions C51_restart.

(** The destructor goes through when the worker has been stopped, and only then. *)
Theorem C51_destroyed : forall ls s tr, ~ In IRunClears ls -> ireached ls s tr -> is_dead s = false -> is_ctl s = Outside ->
  (is_worker s = NoWorker -> exists s', istep IDestroy s = Some (s', [IeDestroyed])) /\
  (forall s' e, istep IDestroy s = Some (s', e) -> e = [IeDestroyed] /\ is_worker s = NoWorker /\ started tr = ended tr).
Proof.
  intros ls s tr NC R Dd Ct. pose proof (iexec_inv ls iinit s tr NC) as IV. assert (i_inv s) as IV' by (apply IV; auto; intros _; simpl; split; congruence).
  unfold i_inv in IV'. specialize (IV' Dd). unfold istep. rewrite Dd, Ct. split.
  - intros W. rewrite W. destruct (is_should s) eqn:S; [|eauto]. exfalso. destruct s; simpl in *; subst. assert (NoWorker <> NoWorker) by (apply IV'; reflexivity). congruence.
  - intros s' e H. destruct (is_should s) eqn:S; [discriminate H|]. destruct (is_worker s) eqn:W; try (exfalso; destruct s; simpl in *; subst; assert (false = true) by (apply IV'; congruence); discriminate).
    injection H as _ <-. split; [reflexivity|]. split; [reflexivity|]. assert (istep IStop s = Some (s, [IeStopped])) as St by (unfold istep; now rewrite Dd, Ct, S).
    destruct (C51_stop_waits _ _ _ _ _ _ NC R St (or_introl eq_refl)) as (_ & E). exact E.
Qed.
Print Assumptions C51_destroyed.

(** After the end of the object or of the process nothing more happens. *)
Theorem C51_end : forall ls s tr, ireached ls s tr -> In IeTerminate tr \/ In IeDestroyed tr -> forall l, istep l s = None.
Proof.
  intros ls s tr R I l. assert (is_dead s = true) as Dd; [|unfold istep; now rewrite Dd].
  revert s tr R I. induction ls as [|l0 ls IH] using rev_ind; intros s tr R I; [injection R as <- <-; destruct I as [[]|[]]|].
  assert (exists s1 t1 t2, ireached ls s1 t1 /\ istep l0 s1 = Some (s, t2) /\ tr = t1 ++ t2) as (s1 & t1 & t2 & R1 & S & ->).
  { clear - R. unfold ireached in *. revert R. generalize iinit as s0. revert tr. induction ls as [|a ls IH]; intros tr s0 R; cbn [iexec List.app] in R.
    - destruct (istep l0 s0) as [[s1 e1]|] eqn:S; [|discriminate R]. injection R as <- <-. exists s0, [], e1. cbn [iexec]. rewrite app_nil_r. auto.
    - destruct (istep a s0) as [[s1 e1]|] eqn:S; [|discriminate R]. destruct (iexec (ls ++ [l0]) s1) as [[s2 e2]|] eqn:E; [|discriminate R]. injection R as <- <-.
      destruct (IH _ _ E) as (s3 & t1 & t2 & X & Y & ->). exists s3, (e1 ++ t1), t2. cbn [iexec]. rewrite S, X, app_assoc. auto. }
  rewrite !in_app_iff in I.
  assert (In IeTerminate t2 \/ In IeDestroyed t2) as J.
  { assert (is_dead s1 = true -> False) as Nd by (intros Dd; unfold istep in S; rewrite Dd in S; discriminate S).
    destruct I as [[I|I]|[I|I]]; auto; exfalso; apply Nd; eapply IH; eauto. }
  unfold istep in S. destruct (is_dead s1); [discriminate S|].
  destruct l0, (is_ctl s1), (is_should s1), (is_worker s1); inversion S; subst; simpl in *; try reflexivity;
    destruct J as [J|J]; repeat (destruct J as [J|J]; try discriminate J); try contradiction J.
Qed.
Print Assumptions C51_end.

(** And until then it goes on: after everything else, a call of Start or Stop can be made, or one is under way. *)
Theorem C51_alive : forall ls s tr, ireached ls s tr -> ~ In IeTerminate tr -> ~ In IeDestroyed tr ->
  is_dead s = false /\ (is_ctl s = Outside -> (exists s' e, istep IStart s = Some (s', e)) /\ exists s' e, istep IStop s = Some (s', e)).
Proof.
  intros ls s tr R NT ND. assert (is_dead s = false) as Dd.
  { unfold ireached in R. assert (is_dead iinit = false) as D0 by reflexivity. revert R D0 NT ND. generalize iinit as s0. revert tr.
    induction ls as [|l ls IH]; intros tr s0 R D0 NT ND; cbn [iexec] in R; [injection R as <- <-; exact D0|].
    destruct (istep l s0) as [[s1 e1]|] eqn:S; [|discriminate R]. destruct (iexec ls s1) as [[s2 e2]|] eqn:E; [|discriminate R]. injection R as <- <-.
    rewrite in_app_iff in NT, ND. apply (IH _ _ E); try tauto. clear IH E. unfold istep in S. rewrite D0 in S.
    destruct l, (is_ctl s0), (is_should s0), (is_worker s0); inversion S; subst; simpl in *; try reflexivity; try tauto; exact D0. }
  split; [exact Dd|]. intros Ct. unfold istep. rewrite Dd, Ct. split; [destruct (is_worker s); eauto|]. destruct (is_should s); [destruct (is_worker s)|]; eauto.
Qed.
Print Assumptions C51_alive.

(** The limit of the property: a Run that clears mShouldRun itself makes Stop return without joining,
    and destroying the instance terminates the process. No plugin of the repository does that. *)
Theorem C51_self_clearing_refuted : exists s tr, ireached [IStart; IRunClears; IStop; IDestroy] s tr /\
  tr = [IeStarted; IeStopped; IeTerminate] /\ is_worker s = Running.
Proof. eexists _, _. split; [reflexivity|]. split; reflexivity. Qed.
Print Assumptions C51_self_clearing_refuted.

Example C51_case : ireached [IStart; IStop; IRunEnds; IJoined; IStop; IStart; IRunEnds; IStop; IJoined; IDestroy] (mkI false NoWorker Outside true)
    [IeStarted; IeRunEnds; IeStopped; IeStopped; IeStarted; IeRunEnds; IeStopped; IeDestroyed] /\
  (exists s tr, ireached [IStart; IRunEnds] s tr /\ istep IStart s = Some (mkI true Finished Outside true, [IeTerminate])).
Proof. split; [reflexivity|]. eexists _, _. split; reflexivity. Qed.

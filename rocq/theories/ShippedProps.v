(** C93: which plugins run, and under which names. *)
From Coq Require Import String Ascii List Arith NArith ZArith Bool Lia DecimalString.
From Verif Require Import Prelude OMap DatagramModel DatagramSpec DatagramProps SerialModel SerialSpec FilesystemModel FilesystemProps PluginModel PluginSpec PluginProofs PluginProps
  LoadProps LinkModel LinkProps AppModel AppSpec AppProofs AppProps LifeModel ProgModel ProgProps MainModel MainSpec MainProofs MainProps ShippedModel ShippedSpec ShippedProofs.
Import ListNotations.
Open Scope list_scope.

(** * C93 *)

(** What has been done when the bus starts: the plugins asked for whose type was loaded run, in the order of the file, named by their type
    and number; for each other one there is an error line. *)
Theorem C93_running : forall E argv ts, readable (en_json E) (map (en_text E) (configuration_files argv)) ts -> able E -> clash_free E ->
  exists N, forall fuel ls s T, N <= fuel -> mexec E fuel argv ls minit = Some (s, T) -> In EvBusStarted (phases T) ->
  exists S rest here, T = running S ++ rest /\ (forall ty, here ty = true <-> available S ty) /\
    let asked := requested (map doc_of ts) in
    instances_of (filter (fun q => here (fst q)) asked) (set_going S) /\ made S = set_going S /\ buses S = map in_name (set_going S) /\
    complaints S = map (fun q => (("Failed to instantiate plugin: '" ++ fst q ++ "'")%string, render (en_double E) (en_other E) (snd q))) (filter (fun q => negb (here (fst q))) asked).
Proof.
  intros E argv ts Rb Ab Cf. destruct (names_boot E argv ts Rb Ab Cf) as (N & H). exists N. intros fuel ls s T Le X I.
  destruct (started_shape _ _ _ _ _ _ X I) as (a0 & a1 & rest & (M & St) & ->).
  destruct (H fuel a0 a1 (Ok tt) Le M St) as [(D & _)|(L & keys & bs & Tr & P & K & Hb & Hq & Hl & Ra & _ & Ni)]; [discriminate D|].
  exists (ap_trace a1), rest, (here keys). split; [reflexivity|]. split.
  { intros ty. rewrite here_iff, K. unfold available. rewrite Tr. split; intros (h & Ih); exists h.
    - apply in_app_iff. left. now apply in_map.
    - apply in_app_iff in Ih as [Ih|Ih]; [apply in_map_iff in Ih as (y & Ey & Iy); now injection Ey as ->|]. exfalso.
      apply in_concat in Ih as (w & Iw & Ih). apply in_map_iff in Iw as (b & <- & Ib). unfold whole in Ih. apply in_app_iff in Ih as [Ih|[Ih|Ih]]; [eapply Hl; eauto|discriminate Ih|].
      unfold error_lines in Ih. destruct (snd (fst b)) as [|[]| |]; try destruct Ih as [Ih|[]]; try contradiction. discriminate Ih. }
  assert (asked (ap_trace a1) = requested (map doc_of ts)) as Ea.
  { rewrite Tr. unfold asked. rewrite flat_map_app. fold (asked (map AePlugin L)). rewrite (proj1 (plain_asked L)). cbn [List.app]. fold (asked (concat (map (whole (en_double E) (en_other E)) bs))).
    rewrite asked_whole by exact Hq. destruct (ran_all_prefix _ _ _ Ra) as (rem & Eq & Nr). now rewrite Eq, (Nr eq_refl), app_nil_r. }
  cbn zeta. destruct Ni as [_ _ _ _ _ _ _ Nm Ng Nb _]. unfold served in Nm, Ng, Nb. rewrite Ea in Nm, Ng, Nb. rewrite Nm, Ng, Nb. split; [apply numb_spec|]. split; [reflexivity|]. split; [reflexivity|].
  rewrite Tr. unfold complaints. rewrite flat_map_app. fold (complaints (map AePlugin L)). rewrite (proj1 (proj2 (plain_asked L))). cbn [List.app]. fold (complaints (concat (map (whole (en_double E) (en_other E)) bs))).
  rewrite (complaints_whole _ _ keys) by assumption. do 2 f_equal.
  destruct (ran_all_prefix _ _ _ Ra) as (rem & Eq & Nr). now rewrite Eq, (Nr eq_refl), app_nil_r.
Qed.
Print Assumptions C93_running.

(** The exact result of start-up. *)
Lemma outcome E argv ts : readable (en_json E) (map (en_text E) (configuration_files argv)) ts -> able E -> clash_free E ->
  ~ In Wrong (map doc_of ts) -> (forall l, In (Items l) (map doc_of ts) -> ~ In Bad l) ->
  exists N, forall fuel a0 a1 r, N <= fuel -> make_app E = Ok a0 -> start_up E fuel (configuration_files argv) a0 = (a1, r) -> r = UB \/ r = Ok tt.
Proof.
  intros Rb Ab Cf Nw Nb. destruct (names_boot E argv ts Rb Ab Cf) as (N & H). exists N. intros fuel a0 a1 r Le M St.
  destruct (H fuel a0 a1 r Le M St) as [(D & _)|(L & keys & bs & Tr & P & K & Hb & Hq & Hl & Ra & _ & Ni)]; [auto|]. right.
  apply ran_all_raises in Ra as [(-> & _)|(_ & [Q|[(l & I1 & I2)|Q]])]; [reflexivity|contradiction|destruct (Nb l I1 I2)|].
  exfalso. apply Exists_exists in Q as (c & Ic & Nc). apply in_map_iff in Ic as (b & <- & Ib). rewrite Forall_forall in Hb. apply Nc. unfold contained.
  destruct (Hb b Ib) as [(_ & Er)|(_ & _ & Er)]; [left|right; eexists]; exact Er.
Qed.

(** Unless the file is wrong, no exception comes before the bus has started; and it starts. *)
Theorem C93_starts : forall E argv ts, readable (en_json E) (map (en_text E) (configuration_files argv)) ts -> able E -> clash_free E ->
  ~ In Wrong (map doc_of ts) -> (forall l, In (Items l) (map doc_of ts) -> ~ In Bad l) ->
  exists N, forall fuel ls s T, N <= fuel -> mexec E fuel argv ls minit = Some (s, T) ->
    (forall x, In (EvRaised x) (phases T) -> In EvBusStarted (phases T)) /\
    (forall a0, pg_pc (ms_prog s) = PStarted -> lf_phase (pg_life (ms_prog s)) = Setup -> make_app E = Ok a0 ->
       (forall f, In f (search_list (w_fs (en_world E)) (pm_paths (ap_pm a0))) -> ~ null_info (en_world E) f) ->
       exists s' e, mstep E fuel argv (PApp LBus) s = Some (Some (s', e)) /\ In (MLife EvBusStarted) e).
Proof.
  intros E argv ts Rb Ab Cf Nw Nb. destruct (outcome E argv ts Rb Ab Cf Nw Nb) as (N & H). destruct (C92_undefined E argv ts Rb) as (N' & H'). exists (Nat.max N N'). intros fuel ls s T Le X. split.
  - intros x Ix. destruct (in_dec (fun a b : levent => ltac:(decide equality; decide equality) : {a = b} + {a <> b}) EvBusStarted (phases T)) as [I|Ni]; [exact I|exfalso].
    pose proof (minv_run _ _ _ _ _ _ X) as J. unfold minv in J. destruct (pg_pc (ms_prog s)).
    + destruct J as (-> & _). destruct Ix.
    + destruct J as (-> & _). destruct Ix.
    + destruct J as (_ & b0 & _ & _ & ->). destruct Ix.
    + destruct (lf_phase (pg_life (ms_prog s))); cbn [phase_inv] in J; try contradiction; [destruct J as (b0 & _ & _ & ->); destruct Ix|..];
      apply Ni; try (destruct J as (b0 & b1 & Sb & _ & ->); unfold detached; rewrite ?phases_app, phases_running; now left);
      destruct J as (b0 & b1 & m' & U' & Sb & _ & ->); unfold detached; rewrite ?phases_app, phases_running; now left.
    + destruct J as (b0 & b1 & m' & U' & Sb & _ & ->). apply Ni. rewrite phases_complete. now left.
    + destruct J as [(b0 & b1 & y & (M & Sb) & _ & ->)|(b0 & b1 & Sb & ->)]; [|apply Ni; rewrite phases_app, phases_running; now left].
      destruct (H fuel b0 b1 (Throw y) ltac:(lia) M Sb) as [D|D]; discriminate D.
  - intros a0 P Ph M Nn. destruct (setup_shape _ _ _ _ _ _ X P Ph) as (Bu & a0' & M' & Sa & _). assert (a0' = a0) as -> by congruence.
    pose proof (H' fuel ls s T a0 ltac:(lia) X P Ph M) as Un.
    destruct (start_up E fuel (configuration_files argv) a0) as [a1 r] eqn:St.
    assert (mstep E fuel argv (PApp LBus) s <> Some None) as Nu by (rewrite Un; intros (f & If & Nf); exact (Nn f If Nf)).
    unfold mstep, ProgModel.pstep, lstep, effect in *. rewrite P, Ph, Bu, Sa, St in *. destruct (H fuel a0 a1 r ltac:(lia) M St) as [->| ->].
    + now destruct Nu.
    + eexists _, _. split; [reflexivity|]. apply in_app_iff. right. now left.
Qed.
Print Assumptions C93_starts.

(** The end is defined, whatever the compiler does with the entry of an instance that is being made. *)
Theorem C93_ends : forall E argv ts, readable (en_json E) (map (en_text E) (configuration_files argv)) ts -> able E -> clash_free E ->
  exists N, forall fuel ls s T, N <= fuel -> mexec E fuel argv ls minit = Some (s, T) -> mstep E fuel argv (PApp LUnload) s <> Some None.
Proof.
  intros E argv ts Rb Ab Cf. destruct (names_boot E argv ts Rb Ab Cf) as (N & H). exists N. intros fuel ls s T Le X Q.
  destruct (pg_pc (ms_prog s)) eqn:P; try (unfold mstep, ProgModel.pstep in Q; rewrite P in Q; discriminate Q).
  destruct (lf_phase (pg_life (ms_prog s))) eqn:Ph; try (unfold mstep, ProgModel.pstep, lstep in Q; rewrite P, Ph in Q; discriminate Q).
  apply (proj1 (C92_null _ _ _ _ _ _ X P Ph ltac:(intros n x; rewrite Ab; discriminate))) in Q. apply Q. clear Q.
  pose proof (minv_run _ _ _ _ _ _ X) as J. unfold minv in J. rewrite P, Ph in J. destruct J as (a0 & a1 & (M & St) & _ & ->). rewrite deeds_detached.
  destruct (H fuel a0 a1 (Ok tt) Le M St) as [(D & _)|(L & keys & bs & _ & _ & _ & _ & _ & _ & _ & _ & Ni)]; [discriminate D|].
  rewrite (ni_made _ _ Ni), (ni_named _ _ Ni), map_length. reflexivity.
Qed.
Print Assumptions C93_ends.

(** ** When names cannot clash *)

Lemma digits_only u c : In c (list_ascii_of_string (NilEmpty.string_of_uint u)) -> In c (list_ascii_of_string "0123456789").
Proof. induction u as [|u IH|u IH|u IH|u IH|u IH|u IH|u IH|u IH|u IH|u IH]; cbn [NilEmpty.string_of_uint list_ascii_of_string]; [intros []|..]; intros [<-|I]; auto; cbn; tauto. Qed.

Lemma list_ascii_app a : forall b, list_ascii_of_string (a ++ b) = list_ascii_of_string a ++ list_ascii_of_string b.
Proof. induction a as [|c a IH]; intros b; cbn; [reflexivity|]. now rewrite IH. Qed.
Lemma list_ascii_inj a b : list_ascii_of_string a = list_ascii_of_string b -> a = b.
Proof. intros H. rewrite <- (string_of_list_ascii_of_string a), <- (string_of_list_ascii_of_string b). now rewrite H. Qed.

Lemma ends_by a l : l <> [] -> (forall c, In c l -> In c (list_ascii_of_string "0123456789")) -> forall t, list_ascii_of_string a = t ++ l -> ends_in_digit a.
Proof.
  intros Nl D t Ea. destruct (exists_last Nl) as (l' & c & ->). exists (string_of_list_ascii (t ++ l')), c. split.
  - apply list_ascii_inj. rewrite list_ascii_app, list_ascii_of_string_of_list_ascii, Ea. cbn. now rewrite <- app_assoc.
  - apply D, in_app_iff. right. now left.
Qed.

Theorem C93_digits : forall E, (forall id, offered E id -> ~ ends_in_digit id) -> clash_free E.
Proof.
  intros E H a b j k Oa Ob Eq. apply (f_equal list_ascii_of_string) in Eq. rewrite !list_ascii_app in Eq.
  destruct (app_eq_app _ _ _ _ Eq) as (l & [(E1 & E2)|(E1 & E2)]).
  - destruct l as [|c l]; [rewrite app_nil_r in E1; now apply list_ascii_inj|]. exfalso. apply (H a Oa). refine (ends_by a (c :: l) _ _ _ E1); [discriminate|].
    intros d Id. apply (digits_only (Nat.to_uint k)). change (In d (list_ascii_of_string (to_string k))). rewrite E2. apply in_app_iff. now left.
  - destruct l as [|c l]; [rewrite app_nil_r in E1; symmetry; now apply list_ascii_inj|]. exfalso. apply (H b Ob). refine (ends_by b (c :: l) _ _ _ E1); [discriminate|].
    intros d Id. apply (digits_only (Nat.to_uint j)). change (In d (list_ascii_of_string (to_string j))). rewrite E2. apply in_app_iff. now left.
Qed.
Print Assumptions C93_digits.

(** ** The plugins that come with LampPost *)

(** What they make of their configuration. *)
Theorem C93_settings : forall h l t, denotes h l t ->
  (exists on, chosen t ["send-datagram"%string] (DBool false) (DBool on) /\ initialize SysInfo h l = Ok (Sends on)) /\
  (exists calls, link_setup h l = Ok calls /\ initialize ShippedModel.Link h l = Ok (Calls calls)).
Proof.
  intros h l t D. split.
  - destruct (bool_path h l t "send-datagram" false D) as (b & Eb & C). exists b. split; [exact C|]. unfold initialize. now rewrite Eb.
  - destruct (C61_settings h l t D) as (a1 & a2 & a3 & a4 & a5 & a6 & a7 & a8 & _ & _ & _ & _ & _ & _ & _ & _ & Es). unfold initialize. rewrite Es. eexists. split; reflexivity.
Qed.
Print Assumptions C93_settings.

(** They can always be created and initialised, and their names do not clash: with libraries of this kind alone all of the above applies. *)
Theorem C93_shipped : forall E,
  (forall n, exists p h l t, denotes h l t /\ brings p h l = Some (en_plug E n)) ->
  (forall id, offered E id -> id = "SysInfo"%string \/ id = "Link"%string) ->
  identifier SysInfo = "SysInfo"%string /\ identifier ShippedModel.Link = "Link"%string /\ able E /\ clash_free E.
Proof.
  intros E Hp Ho. do 2 (split; [reflexivity|]). split.
  - intros n. destruct (Hp n) as (p & h & l & t & D & B). destruct (C93_settings h l t D) as ((on & _ & E1) & calls & _ & E2). unfold brings in B. destruct p; rewrite ?E1, ?E2 in B; injection B as <-; reflexivity.
  - apply C93_digits. intros id O (t & c & -> & Ic). assert (In c (list_ascii_of_string "ok")) as Q.
    { destruct (Ho _ O) as [Ei|Ei]; apply (f_equal (fun s => rev (list_ascii_of_string s))) in Ei; rewrite list_ascii_app, rev_app_distr in Ei; cbn in Ei; injection Ei as -> _; cbn; auto. }
    cbn in Ic, Q. intuition congruence.
Qed.
Print Assumptions C93_shipped.

(** ** Cases *)

(** A file that asks for two SysInfo, one Link and a plugin that is not there; /p holds the two libraries. *)
Definition shipped_libs (s : string) : option lib :=
  if String.eqb s "/p/libplugin_link.so" then Some (mkLib (Some (Some "Link"%string)) true)
  else if String.eqb s "/p/libplugin_sysinfo.so" then Some (mkLib (Some (Some "SysInfo"%string)) true)
  else None.
Definition shipped_world : world := mkWorld (mkFs (fun _ => Some FReg) (fun _ => true) (fun _ => Some ["libplugin_link.so"; "libplugin_sysinfo.so"]%string)) shipped_libs.
Definition shipped_file : string -> option json := file_of (JArray [
  JObject [("type", JString "SysInfo"); ("configuration", JObject [("send-datagram", JBool true)])];
  JObject [("type", JString "Link")];
  JObject [("type", JString "other")];
  JObject [("type", JString "SysInfo")]])%string.
Definition shipped_means : dg := Dct [("plugins", Lst [
  Dct [("configuration", Dct [("send-datagram", Val (DBool true))]); ("type", Val (DStr "SysInfo"))];
  Dct [("type", Val (DStr "Link"))]; Dct [("type", Val (DStr "other"))]; Dct [("type", Val (DStr "SysInfo"))]])]%string.
Definition shipped_place : env :=
  mkEnv (Some "/p/lamppost"%string) (Some "/w"%string) shipped_world (fun f => f) true plain_plugs shipped_file no_text no_text2 (fun _ => true).
Definition up_and_running : list plabel := [PHook; PMake; PStart; PApp LBus].

Lemma shipped_readable : readable shipped_file ["x"%string] [shipped_means].
Proof.
  split; [|split].
  - constructor; [|constructor]. unfold file_means, shipped_file, file_of. apply (means_by_parser _ _ 10); vm_compute; reflexivity.
  - intros text j [<-|[]] Ej. injection Ej as <-. apply has_nul_ok. vm_compute. reflexivity.
  - repeat constructor.
Qed.

(** One configuration for every plugin of the cases. *)
Definition sends_conf : heap := [mkNode [("send-datagram"%string, Some 1)] [] None TDict; mkNode [] [] (Some (DBool true)) TValue].
Lemma sends_denotes : denotes sends_conf 0 (Dct [("send-datagram"%string, Val (DBool true))]).
Proof.
  exists [0; 1]. eapply (own_dct _ 0 _ _ [1]); [reflexivity|repeat constructor|reflexivity|]. change [1] with ([1] ++ []). constructor; [constructor; reflexivity|constructor].
Qed.
Example C93_settings_case : denotes sends_conf 0 (Dct [("send-datagram"%string, Val (DBool true))]) /\ initialize SysInfo sends_conf 0 = Ok (Sends true) /\ initialize ShippedModel.Link sends_conf 0 = Ok (Calls []).
Proof. split; [exact sends_denotes|]. split; vm_compute; reflexivity. Qed.

Example C93_shipped_case :
  (forall n, exists p h l t, denotes h l t /\ brings p h l = Some (en_plug shipped_place n)) /\
  (forall id, offered shipped_place id -> id = "SysInfo"%string \/ id = "Link"%string).
Proof.
  split.
  - intros n. exists SysInfo, sends_conf, 0. eexists. split; [exact sends_denotes|]. vm_compute. reflexivity.
  - intros id (path & l & O & I). unfold shipped_place, shipped_world, shipped_libs in O. cbn [w_open en_world] in O. destruct (String.eqb path "/p/libplugin_link.so"); [injection O as <-; injection I as <-; now right|].
    destruct (String.eqb path "/p/libplugin_sysinfo.so"); [injection O as <-; injection I as <-; now left|discriminate O].
Qed.

Definition glimpse (T : list mevent) : list inst * list (string * string) * list levent := (set_going (deeds T), complaints (deeds T), phases T).
Example C93_case :
  readable (en_json shipped_place) (map (en_text shipped_place) (configuration_files ["lamppost"; "x"]%string)) [shipped_means] /\
  able shipped_place /\ clash_free shipped_place /\ ~ In Wrong (map doc_of [shipped_means]) /\ (forall l, In (Items l) (map doc_of [shipped_means]) -> ~ In Bad l) /\
  seen glimpse (mexec shipped_place 10 ["lamppost"; "x"]%string up_and_running minit) =
    Some (PStarted, ([mkInst 0 "SysInfo0" 1 (Dct [("send-datagram"%string, Val (DBool true))]); mkInst 1 "Link0" 2 Emp; mkInst 2 "SysInfo1" 3 Emp],
                     [("Failed to instantiate plugin: 'other'", "null")%string], [EvBusStarted])).
Proof.
  destruct (C93_shipped shipped_place) as (_ & _ & A & C); [apply C93_shipped_case|apply C93_shipped_case|].
  split; [exact shipped_readable|]. split; [exact A|]. split; [exact C|]. split; [cbn; intros [D|[]]; discriminate D|]. split.
  - intros l [I|[]]. injection I as <-. cbn. intuition discriminate.
  - vm_compute. reflexivity.
Qed.

(** The digits matter: "A1" has made "A10" its own when the eleventh "A" comes. *)
Definition clash_file : string -> option json := file_of (JArray (JObject [("type", JString "A1")] :: repeat (JObject [("type", JString "A")]) 11))%string.
Example C93_clash_case :
  able (a_place clash_file plain_plugs) /\ ~ clash_free (a_place clash_file plain_plugs) /\
  seen (fun T => (map in_name (set_going (deeds T)), phases T)) (mexec (a_place clash_file plain_plugs) 10 ["lamppost"; "x"]%string [PHook; PMake; PStart; PApp (LRaise RuntimeError)] minit) =
    Some (PAbort RuntimeError, (["A10"; "A0"; "A1"; "A2"; "A3"; "A4"; "A5"; "A6"; "A7"; "A8"; "A9"]%string, [EvRaised RuntimeError])).
Proof.
  split; [intros n; reflexivity|]. split; [|vm_compute; reflexivity]. intros C. assert ("A"%string = "A1"%string) as D; [|discriminate D].
  apply (C "A"%string "A1"%string 10 0); [exists "/p/libplugin_a.so"%string; eexists; split; reflexivity|exists "/p/libplugin_b.so"%string; eexists; split; reflexivity|reflexivity].
Qed.

(** C47, C48: the plugins that configuration files ask for, and the configurations that abort start-up. *)
From Coq Require Import String Ascii List Arith ZArith NArith Bool Lia.
From Verif Require Import Prelude OMap DatagramModel DatagramSpec DatagramStmt DatagramProofs DatagramHeap DatagramRefine DatagramRefine2
  SerialModel SerialSpec SerialProofs SerialProofs2 SerialProps PrintModel PluginModel PluginSpec PluginProofs PluginProps AppModel AppSpec AppProofs.
Import ListNotations.
Open Scope list_scope.

(** ** Facts about the specification *)

Lemma ran_prefix l cs r : ran l cs r -> exists rest, wanted l = map fst cs ++ rest /\ (r = Ok tt -> rest = []).
Proof.
  induction 1 as [|l cs r H IH|l|ty conf r0 l cs r C H IH|ty conf r0 l C]; simpl.
  - exists []. auto.
  - exact IH.
  - exists (wanted l). split; auto. discriminate.
  - destruct IH as (rest & E & F). exists rest. rewrite E. auto.
  - exists (wanted l). split; auto. intros ->. exfalso. apply C. left; auto.
Qed.
Lemma ran_all_prefix ds cs r : ran_all ds cs r -> exists rest, requested ds = map fst cs ++ rest /\ (r = Ok tt -> rest = []).
Proof.
  induction 1 as [|ds cs r H IH|ds x|l ds cs1 cs2 r R H IH|l ds cs x R]; simpl.
  - exists []. auto.
  - exact IH.
  - exists (requested ds). split; auto. discriminate.
  - destruct (ran_prefix _ _ _ R) as (r1 & E1 & F1). rewrite (F1 eq_refl), app_nil_r in E1. destruct IH as (rest & E & F).
    exists rest. rewrite E1, map_app, <- app_assoc. change (flat_map _ ds) with (requested ds). rewrite E. auto.
  - destruct (ran_prefix _ _ _ R) as (r1 & E1 & F1). exists (r1 ++ requested ds). rewrite E1, <- app_assoc. split; auto. discriminate.
Qed.

Lemma ran_raises l cs r : ran l cs r -> (r = Ok tt /\ ~ In Bad l /\ Forall (fun c => contained (snd c)) cs) \/
  (r <> Ok tt /\ (In Bad l \/ Exists (fun c => ~ contained (snd c)) cs)).
Proof.
  induction 1 as [|l cs r H IH|l|ty conf r0 l cs r C H IH|ty conf r0 l C]; simpl.
  - left. auto.
  - destruct IH as [(A & B & D)|(A & [B|D])].
    + left. split; auto. split; auto. intros [|]; auto. discriminate.
    + right; auto.
    + right; auto.
  - right. split; [discriminate|]. auto.
  - destruct IH as [(A & B & D)|(A & [B|D])].
    + left. split; auto. split; [intros [|]; auto; discriminate|]. constructor; auto.
    + right; auto.
    + right. split; auto.
  - right. split; [intros ->; apply C; left; auto|]. right. now constructor.
Qed.
Lemma ran_all_raises ds cs r : ran_all ds cs r ->
  (r = Ok tt /\ ~ In Wrong ds /\ (forall l, In (Items l) ds -> ~ In Bad l) /\ Forall (fun c => contained (snd c)) cs) \/
  (r <> Ok tt /\ (In Wrong ds \/ (exists l, In (Items l) ds /\ In Bad l) \/ Exists (fun c => ~ contained (snd c)) cs)).
Proof.
  induction 1 as [|ds cs r H IH|ds x|l ds cs1 cs2 r R H IH|l ds cs x R]; simpl.
  - left. auto.
  - destruct IH as [(A & B & C & D)|(A & [B|[(l & I & Ib)|D]])].
    + left. split; auto. split; [intros [|]; auto; discriminate|]. split; auto. intros l [|]; auto. discriminate.
    + right; auto.
    + right. split; auto. right. left. eauto.
    + right; auto.
  - right. split; [discriminate|auto].
  - apply ran_raises in R as [(_ & Nb & Fc)|(N & _)]; [|congruence].
    destruct IH as [(A & B & C & D)|(A & [B|[(l' & I & Ib)|D]])].
    + left. split; auto. split; [intros [|]; auto; discriminate|]. split.
      * intros l' [E|I]; [injection E as <-; auto|auto].
      * apply Forall_app. auto.
    + right; auto.
    + right. split; auto. right. left. eauto.
    + right. split; auto. right. right. apply Exists_app. auto.
  - right. apply ran_raises in R as [(E & _)|(_ & [I|D])]; [discriminate| |]; (split; [discriminate|]).
    + right. left. eauto.
    + auto.
Qed.

Definition deepest (ts : list dg) : nat := fold_right (fun t n => Nat.max (dg_depth t) n) 0 ts.
Lemma deepest_in ts t : In t ts -> dg_depth t <= deepest ts.
Proof. induction ts as [|u ts IH]; simpl; [tauto|]. intros [->|I]; [lia|]. apply IH in I. lia. Qed.

Lemma reads slot plug tokener sd so texts ts : readable tokener texts ts ->
  exists N, forall fuel h a, N <= fuel -> ready (ap_pm a) ->
  exists h' a' r bs, read_files slot plug tokener sd so fuel texts h a = (h', a', r) /\
      ap_trace a' = ap_trace a ++ concat (map (whole sd so) bs) /\ ran_all (map doc_of ts) (map fst bs) r /\
      Forall (fun b => did (ap_pm a) (fst b) (snd b)) bs /\ ready (ap_pm a') /\ (r = Ok tt \/ exists x, r = Throw x).
Proof.
  intros (Fm & Hb & Ct). exists (S (deepest ts)). intros fuel h a L Rd. apply read_files_ok; auto.
  rewrite Forall_forall in *. intros t I. split; auto. apply deepest_in in I. lia.
Qed.

(** ** C47: the calls made, in order, and their events.

    [bs] lists the calls with the plugin's own events. The calls are the first of those requested;
    all of them if reading ends normally, which it does unless C48 applies. In particular ([did]) an
    unknown template fails with OperationFailedException, and ([ran_all]) reading goes on after it. *)
Theorem C47_in_order : forall slot plug tokener double_text other_text texts ts, readable tokener texts ts ->
  exists N, forall fuel h a, N <= fuel -> ready (ap_pm a) ->
  exists h' a' r bs,
    read_files slot plug tokener double_text other_text fuel texts h a = (h', a', r) /\
    ap_trace a' = ap_trace a ++ concat (map (whole double_text other_text) bs) /\
    Forall (fun b => did (ap_pm a) (fst b) (snd b)) bs /\
    ran_all (map doc_of ts) (map fst bs) r /\
    (exists rest, requested (map doc_of ts) = map fst (map fst bs) ++ rest /\ (r = Ok tt -> rest = [])) /\
    ready (ap_pm a').
Proof.
  intros slot plug tokener sd so texts ts Rb. destruct (reads slot plug tokener sd so texts ts Rb) as (N & H). exists N.
  intros fuel h a L Rd. destruct (H fuel h a L Rd) as (h' & a' & r & bs & E & T & R & D & Rd' & _).
  exists h', a', r, bs. split; auto. split; auto. split; auto. split; auto. split; auto. apply (ran_all_prefix _ _ _ R).
Qed.
Print Assumptions C47_in_order.

(** One call by itself. *)
Theorem C47_call : forall slot plug ty conf a a' r, ready (ap_pm a) -> instantiate_plugin slot plug ty conf a = (a', r) ->
  exists e, ap_trace a' = ap_trace a ++ e /\ did (ap_pm a) ((ty, conf), r) e /\
  (* it succeeds exactly when the template is known, its next name is free, and the plugin does its part *)
  (r = Ok tt <-> exists t k b kids, registered (ap_pm a) ty t /\ lowest t ty k /\ pm_bus (ap_pm a) = Some b /\ children (ap_pm a) b kids /\
     ~ In (ty ++ to_string k)%string kids /\ plug (ap_calls a) = (CrObject, None)).
Proof.
  intros slot plug ty conf a a' r Rd E. destruct (call_ok slot plug ty conf a Rd) as (a1 & r1 & e & E1 & T & _ & Di & _).
  rewrite E in E1. injection E1 as <- <-. exists e. split; auto. split; auto.
  destruct Rd as ((tr & R) & b & kids & Bs & K). unfold instantiate_plugin in E.
  destruct (olookup ty (pm_templates (ap_pm a))) as [t|] eqn:L.
  2:{ unfold instantiate_template in E. rewrite L in E. injection E as _ <-. split; [discriminate|]. unfold registered. intros (t & ? & ? & ? & L' & _). congruence. }
  destruct (instantiate_cases _ _ slot ty None conf (fst (plug (ap_calls a))) t (reached_inv _ _ R) L) as (k & Lo & [(_ & NP)|(p & kids' & P & K' & D)]).
  { exfalso. eapply NP; [right; eauto|eauto]. }
  destruct P as [P|(_ & P)]; [discriminate|]. rewrite Bs in P. injection P as <-.
  assert (kids' = kids) as -> by (unfold children in *; congruence).
  destruct D as [(I & D)|(NI & D)]; cbn zeta in D.
  - rewrite D in E. injection E as _ <-. split; [discriminate|]. intros (t' & k' & b' & kids' & L' & Lo' & Bs' & K'' & N & _). exfalso. apply N.
    unfold registered, children in *. assert (t' = t) as -> by congruence. assert (b' = b) as -> by congruence. assert (kids' = kids) as -> by congruence.
    now rewrite (lowest_unique _ _ _ _ Lo' Lo).
  - destruct (plug (ap_calls a)) as [cr init]. cbn [fst snd] in *.
    assert (r = Ok tt <-> cr = CrObject /\ init = None) as ->.
    { destruct cr; rewrite D in E; cbn [map] in E; [destruct init; injection E as _ <-|injection E as _ <-|injection E as _ <-]; intuition (try congruence; try discriminate). }
    split.
    + intros (-> & ->). exists t, k, b, kids. auto 10.
    + intros (? & ? & ? & ? & _ & _ & _ & _ & _ & X). injection X as -> ->. auto.
Qed.
Print Assumptions C47_call.

(** The exact events and outcome of a call for a known template: a taken name does nothing, and a
    plugin that fails leaves what was done before, and is never started. *)
Theorem C47_outcome : forall slot plug ty conf a a' r t, ready (ap_pm a) -> registered (ap_pm a) ty t ->
  instantiate_plugin slot plug ty conf a = (a', r) ->
  exists k p kids, lowest t ty k /\ pm_bus (ap_pm a) = Some p /\ children (ap_pm a) p kids /\
  let name := (ty ++ to_string k)%string in
  let b := length (pm_buses (ap_pm a)) in
  let i := mkInst (pm_insts (ap_pm a)) name b conf in
  (In name kids -> ap_pm a' = ap_pm a /\ ap_trace a' = ap_trace a /\ r = Throw (DuplicateKey name)) /\
  (~ In name kids ->
   match plug (ap_calls a) with
   | (CrNull, _) => ap_trace a' = ap_trace a ++ [AePlugin (PeBus p name b)] /\
                    r = Throw (OperationFailed ("Failed to instantiate plugin: '" ++ ty ++ "'"))
   | (CrThrow x, _) => ap_trace a' = ap_trace a ++ [AePlugin (PeBus p name b)] /\ r = Throw x
   | (CrObject, Some x) => ap_trace a' = ap_trace a ++ [AePlugin (PeBus p name b); AePlugin (PeCreate ty i); AeInit i] /\ r = Throw x
   | (CrObject, None) => ap_trace a' = ap_trace a ++ [AePlugin (PeBus p name b); AePlugin (PeCreate ty i); AeInit i; AeStart i] /\ r = Ok tt
   end).
Proof.
  intros slot plug ty conf a a' r t ((tr & R) & b & kids & Bs & K) L E. unfold instantiate_plugin in E.
  destruct (instantiate_cases _ _ slot ty None conf (fst (plug (ap_calls a))) t (reached_inv _ _ R) L) as (k & Lo & [(_ & NP)|(p & kids' & P & K' & D)]).
  { exfalso. eapply NP; [right; eauto|eauto]. }
  destruct P as [P|(_ & P)]; [discriminate|]. rewrite Bs in P. injection P as <-.
  exists k, b, kids'. split; auto. split; auto. split; auto. cbn zeta in *.
  destruct D as [(I & D)|(NI & D)]; (split; [intros I'|intros NI']); try contradiction.
  - rewrite D in E. injection E as <- <-. cbn. now rewrite app_nil_r.
  - destruct (plug (ap_calls a)) as [[| |x] [y|]]; cbn [fst snd] in *; rewrite D in E; cbn in E; injection E as <- <-; cbn;
      rewrite <- ?app_assoc; auto.
Qed.
Print Assumptions C47_outcome.

(** ** C48: exactly when reading raises *)
Theorem C48_raises_iff : forall slot plug tokener double_text other_text texts ts, readable tokener texts ts ->
  exists N, forall fuel h a, N <= fuel -> ready (ap_pm a) ->
  exists h' a' r bs,
    read_files slot plug tokener double_text other_text fuel texts h a = (h', a', r) /\
    ap_trace a' = ap_trace a ++ concat (map (whole double_text other_text) bs) /\
    ((exists x, r = Throw x) <->
       In Wrong (map doc_of ts) \/
       (exists l, In (Items l) (map doc_of ts) /\ In Bad l) \/
       (exists b, In b bs /\ ~ contained (snd (fst b)))) /\
    (r = Ok tt \/ exists x, r = Throw x).
Proof.
  intros slot plug tokener sd so texts ts Rb. destruct (reads slot plug tokener sd so texts ts Rb) as (N & H). exists N.
  intros fuel h a L Rd. destruct (H fuel h a L Rd) as (h' & a' & r & bs & E & T & R & D & Rd' & Rr).
  exists h', a', r, bs. split; auto. split; auto. split; auto.
  apply ran_all_raises in R as [(-> & Nw & Nb & Fc)|(Nr & Hc)].
  - split; [intros (x & X); discriminate|]. intros [I|[(l & I & Ib)|(b & I & C)]]; exfalso; [auto|eapply Nb; eauto|].
    rewrite Forall_forall in Fc. apply C, Fc, in_map, I.
  - split; [|destruct Rr as [|(x & ->)]; [contradiction|eauto]]. intros _. destruct Hc as [|[|Ex]]; auto. right. right.
    apply Exists_exists in Ex as (c & I & C). apply in_map_iff in I as (b & <- & I). eauto.
Qed.
Print Assumptions C48_raises_iff.

(** What this means for a JSON document: a "plugins" member must be an array with at least one element. *)
Lemma last_entry_rel {A B} (R : A -> B -> Prop) k xs ys : Forall2 (fun x y => fst x = fst y /\ R (snd x) (snd y)) xs ys ->
  match last_entry k xs, last_entry k ys with Some a, Some b => R a b | None, None => True | _, _ => False end.
Proof.
  induction 1 as [|[k1 a] [k2 b] xs ys (E & H) _ IH]; simpl; auto. simpl in E, H. subst k2.
  destruct (last_entry k xs), (last_entry k ys); try contradiction; auto. destruct (String.eqb k k1); auto.
Qed.

Theorem C48_json : forall j t, json_means j t ->
  match j with
  | JObject kvs =>
      match last_entry "plugins" kvs with
      | None => doc_of t = Nothing
      | Some (JArray (j1 :: js)) => exists us, Forall2 json_means (j1 :: js) us /\ doc_of t = Items (map item_of us)
      | Some _ => doc_of t = Wrong
      end
  | _ => doc_of t = Nothing
  end.
Proof.
  intros j t H. inversion H as [| | | | | | | | | | |p ps us m Hz F2 (Sm & Lk)]; subst; try reflexivity.
  pose proof (last_entry_rel json_means "plugins" _ _ F2) as L. rewrite <- Lk in L. cbn [doc_of].
  destruct (last_entry "plugins" (p :: ps)) as [v|]; destruct (olookup "plugins" m) as [u|] eqn:Eu; try contradiction; auto.
  inversion L as [| | | | | | | | |j1 js us' F'| |p' ps' us' m' Hz' F2' (Sm' & Lk')]; subst; try reflexivity.
  - eexists. split; [exact F'|reflexivity].
  - destruct m' as [|q m']; [|reflexivity]. exfalso. inversion F2' as [|? [k u] ? us0 (E & _) _]; subst. simpl in E.
    specialize (Lk' k). cbn [olookup last_entry] in Lk'. destruct (last_entry k us0); [discriminate|]. rewrite String.eqb_refl in Lk'. discriminate.
Qed.
Print Assumptions C48_json.

(** A file that is missing (its text is "") or does not parse starts nothing and raises nothing. *)
Theorem C48_silent : forall slot plug tokener double_text other_text fuel text h a, tokener text = None ->
  exists h', read_file slot plug tokener double_text other_text fuel text h a = (h', a, Ok tt).
Proof.
  intros slot plug tokener sd so fuel text h a H. unfold read_file, raw_from_json. rewrite H.
  rewrite (bind_ok _ _ _ _ _ (raw_new_eq h)). cbn.
  unfold read_config, h_op, raw_key_exists, bind, load. rewrite nth_error_app2, Nat.sub_diag by auto. cbn. eauto.
Qed.
Print Assumptions C48_silent.

(** ** Cases *)

Definition the_plugins : list json := [
  JObject [("type", JString "A"); ("configuration", JObject [("port", JInt 7)])];
  JString "not an object";
  JObject [("type", JString "missing")];
  JObject [("name", JInt 1)];
  JObject [("type", JString "A1")] ]%string.
Definition good_file : string -> option json := fun _ => Some (JObject [("plugins"%string, JArray the_plugins)]).
Definition plain_plugs : nat -> created * option exc := fun _ => (CrObject, None).
Definition an_app : app := mkApp (state_of loaded) 0 [].
Definition no_text : N -> string := fun _ => ""%string.
Definition no_text2 : string -> string -> string := fun _ _ => ""%string.

Lemma an_app_ready : ready (ap_pm an_app).
Proof. split; [exists (trace_of loaded); apply reached_by; vm_compute; reflexivity|]. exists 0, []. split; vm_compute; reflexivity. Qed.

Definition good_means : dg :=
  Dct [("plugins", Lst [
    Dct [("configuration", Dct [("port", Val (DInt 7))]); ("type", Val (DStr "A"))];
    Val (DStr "not an object");
    Dct [("type", Val (DStr "missing"))];
    Dct [("name", Val (DInt 1))];
    Dct [("type", Val (DStr "A1"))] ])]%string.

Fixpoint has_nul (j : json) : bool :=
  match j with
  | JArray js => existsb has_nul js
  | JObject kvs => existsb (fun p => existsb (Ascii.eqb zero) (list_ascii_of_string (fst p)) || has_nul (snd p)) kvs
  | _ => false
  end.
Lemma has_nul_ok j : has_nul j = false -> ~ bad_key j.
Proof.
  intros H B. revert H. induction B as [kvs p I Z|kvs p I B IH|js j I B IH]; cbn [has_nul]; intros H.
  - assert (existsb (fun p => existsb (Ascii.eqb zero) (list_ascii_of_string (fst p)) || has_nul (snd p)) kvs = true) as E; [|congruence].
    apply existsb_exists. exists p. split; auto. apply orb_true_intro. left. apply existsb_exists. exists zero. auto.
  - assert (existsb (fun p => existsb (Ascii.eqb zero) (list_ascii_of_string (fst p)) || has_nul (snd p)) kvs = true) as E; [|congruence].
    apply existsb_exists. exists p. split; auto. apply orb_true_intro. right. destruct (has_nul (snd p)); auto.
  - assert (existsb has_nul js = true) as E; [|congruence]. apply existsb_exists. exists j. split; auto. destruct (has_nul j); auto.
Qed.

(** The meaning of a document without NULs, computed with the model's parser (C15). *)
Lemma means_by_parser j t n : has_nul j = false -> contents n (fst (parse_json j 0 [empty_node])) 0 = Ok t -> json_means j t.
Proof.
  intros Hn C. destruct (parse_json_ok j (has_nul_ok j Hn)) as (u & J & Fl).
  destruct (Fl [empty_node] 0) as (h' & F' & E & O & _); [constructor; reflexivity|]. rewrite E in C. cbn [fst] in C.
  replace t with u; auto.
  assert (forall m, Nat.max n (S (dg_depth u)) <= m -> contents m h' 0 = Ok t) as Up.
  { intros m L. eapply contents_mono; [exact C|lia]. }
  specialize (Up _ (le_n _)). rewrite (contents_ok u _ h' 0 F') in Up; [congruence|lia|auto].
Qed.

Lemma good_readable : readable good_file ["x"%string] [good_means].
Proof.
  split; [|split].
  - constructor; [|constructor]. unfold file_means, good_file. apply (means_by_parser _ _ 10); vm_compute; reflexivity.
  - intros text j [<-|[]] E. injection E as <-. apply has_nul_ok. vm_compute. reflexivity.
  - repeat constructor.
Qed.

(** A known plugin, an unknown one in the middle, two items to skip: two instances run, one error line. *)
Example C47_case :
  readable good_file ["x"%string] [good_means] /\ ready (ap_pm an_app) /\
  requested [doc_of good_means] = [("A", Dct [("port", Val (DInt 7))]); ("missing", Emp); ("A1", Emp)]%string /\
  let i := mkInst 0 "A0" 1 (Dct [("port"%string, Val (DInt 7))]) in
  let k := mkInst 1 "A10" 2 Emp in
  let '(_, a, r) := read_files false plain_plugs good_file no_text no_text2 10 ["x"%string] [] an_app in
  r = Ok tt /\
  ap_trace a =
    [AePlugin (PeBus 0 "A0" 1); AePlugin (PeCreate "A" i); AeInit i; AeStart i; AeCall "A" (in_conf i) (Ok tt);
     AeCall "missing" Emp (Throw (OperationFailed "Failed to instantiate plugin: 'missing'"));
     AeError "Failed to instantiate plugin: 'missing'" "null";
     AePlugin (PeBus 0 "A10" 2); AePlugin (PeCreate "A1" k); AeInit k; AeStart k; AeCall "A1" Emp (Ok tt)].
Proof.
  split; [apply good_readable|]. split; [apply an_app_ready|]. split; [reflexivity|]. vm_compute. auto.
Qed.

Example C47_call_case : exists a', instantiate_plugin false plain_plugs "A" Emp an_app = (a', Ok tt) /\ ready (ap_pm an_app).
Proof. eexists. split; [vm_compute; reflexivity|apply an_app_ready]. Qed.

(** Creation that gives no object, creation and initialisation that raise, and a name that is taken. *)
Example C47_outcome_case :
  let call plug := let (a, r) := instantiate_plugin false (fun _ => plug) "A" Emp an_app in (ap_trace a, r) in
  let i := mkInst 0 "A0" 1 Emp in
  (exists t, registered (ap_pm an_app) "A" t) /\
  call (CrNull, None) = ([AePlugin (PeBus 0 "A0" 1)], Throw (OperationFailed "Failed to instantiate plugin: 'A'")) /\
  call (CrThrow (OtherException "boom"), None) = ([AePlugin (PeBus 0 "A0" 1)], Throw (OtherException "boom")) /\
  call (CrObject, Some (OtherException "init")) =
    ([AePlugin (PeBus 0 "A0" 1); AePlugin (PeCreate "A" i); AeInit i], Throw (OtherException "init")) /\
  let after := fst (instantiate_plugin false (fun _ => (CrThrow (OtherException "boom"), None)) "A" Emp an_app) in
  snd (instantiate_plugin false plain_plugs "A" Emp after) = Throw (DuplicateKey "A0").
Proof. split; [eexists; vm_compute; reflexivity|]. vm_compute. auto. Qed.

(** Documents that abort: each raises, after the calls before the fault. *)
Definition file_of (v : json) : string -> option json := fun _ => Some (JObject [("plugins"%string, v)]).
Definition result_with (tok : string -> option json) (plug : nat -> created * option exc) : res unit :=
  snd (read_files false plug tok no_text no_text2 10 ["x"%string] [] an_app).
Example C48_case :
  result_with (file_of (JArray [])) plain_plugs = Throw InvalidOperation /\
  result_with (file_of (JObject [])) plain_plugs = Throw InvalidOperation /\
  result_with (file_of JNull) plain_plugs = Throw InvalidOperation /\
  result_with (file_of (JString "A")) plain_plugs = Throw InvalidOperation /\
  result_with (file_of (JObject [("A"%string, JNull)])) plain_plugs = Throw (IndexOutOfBounds 0) /\
  result_with (file_of (JArray [JObject [("type"%string, JInt 3)]])) plain_plugs = Throw InvalidOperation /\
  result_with (file_of (JArray the_plugins)) (fun _ => (CrThrow (OtherException "boom"), None)) = Throw (OtherException "boom") /\
  result_with (file_of (JArray the_plugins)) (fun _ => (CrObject, Some (OperationFailed "init"))) = Ok tt /\
  result_with (fun _ => None) plain_plugs = Ok tt /\
  result_with (fun _ => Some (JObject [])) plain_plugs = Ok tt /\
  readable good_file ["x"%string] [good_means] /\ json_means (JObject [("plugins"%string, JArray the_plugins)]) good_means.
Proof.
  repeat match goal with |- result_with _ _ = _ /\ _ => split; [vm_compute; reflexivity|] end.
  split; [apply good_readable|]. apply (means_by_parser _ _ 10); vm_compute; reflexivity.
Qed.

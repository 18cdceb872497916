(** Proofs for C93. *)
From Coq Require Import String Ascii List Arith NArith Bool Lia Permutation DecimalString DecimalNat.
From Verif Require Import Prelude OMap DatagramModel DatagramSpec DatagramStmt SerialModel FilesystemModel PluginModel PluginSpec PluginProofs AppModel AppSpec AppProofs AppProps
  LifeModel ProgModel MainModel MainSpec MainProofs ShippedSpec.
Import ListNotations.
Open Scope list_scope.

(** ** Numbering *)

Definition inst_at (before : list (string * dg)) (q : string * dg) : inst :=
  mkInst (length before) (fst q ++ to_string (count_occ string_dec (map fst before) (fst q))) (S (length before)) (snd q).
Fixpoint numb (before qs : list (string * dg)) : list inst :=
  match qs with [] => [] | q :: qs' => inst_at before q :: numb (before ++ [q]) qs' end.

Lemma numb_length qs : forall b, length (numb b qs) = length qs.
Proof. induction qs as [|q qs IH]; intros b; cbn; [reflexivity|]. now rewrite IH. Qed.
Lemma numb_snoc qs q : forall b, numb b (qs ++ [q]) = numb b qs ++ [inst_at (b ++ qs) q].
Proof. induction qs as [|x qs IH]; intros b; cbn [numb List.app]; [now rewrite app_nil_r|]. rewrite IH, <- app_assoc. reflexivity. Qed.
Lemma numb_nth q1 q q2 : forall b, nth_error (numb b (q1 ++ q :: q2)) (length q1) = Some (inst_at (b ++ q1) q).
Proof. induction q1 as [|x q1 IH]; intros b; cbn [numb List.app length nth_error]; [now rewrite app_nil_r|]. rewrite IH, <- app_assoc. reflexivity. Qed.
Lemma numb_in qs i : forall b, In i (numb b qs) -> exists q1 q q2, qs = q1 ++ q :: q2 /\ i = inst_at (b ++ q1) q.
Proof.
  induction qs as [|x qs IH]; intros b I; [destruct I|]. cbn [numb] in I. destruct I as [<-|I].
  - exists [], x, qs. now rewrite app_nil_r.
  - apply IH in I as (q1 & q & q2 & -> & ->). exists (x :: q1), q, q2. now rewrite <- app_assoc.
Qed.
Lemma numb_spec qs : instances_of qs (numb [] qs).
Proof. split; [apply numb_length|]. intros q1 ty conf q2 ->. apply (numb_nth q1 (ty, conf) q2 []). Qed.

Definition types (qs : list (string * dg)) : list string := map fst qs.
Definition count (ty : string) (qs : list (string * dg)) : nat := count_occ string_dec (map fst qs) ty.
Lemma count_snoc ty qs q : count ty (qs ++ [q]) = count ty qs + if string_dec (fst q) ty then 1 else 0.
Proof. unfold count. rewrite map_app, count_occ_app. cbn. destruct (string_dec (fst q) ty); reflexivity. Qed.

(** ** Reading files keeps what every attempt keeps *)
Section Keep.
  Variables (slot : bool) (plug : nat -> created * option exc) (tokener : string -> option json) (sd : N -> string) (so : string -> string -> string) (fuel : nat).
  Variable P : app -> Prop.
  Hypothesis keep : forall h ty conf a a' r, P a -> attempt slot plug sd so fuel h ty conf a = (a', r) -> r <> UB -> P a'.

  Lemma items_keep config todo : forall i h a h' a' r, P a -> read_items slot plug sd so fuel config i todo h a = (h', a', r) -> r <> UB -> P a'.
  Proof.
    induction todo as [|todo IH]; intros i h a h' a' r I X NU; cbn [read_items] in X; [injection X as <- <- <-; exact I|].
    destruct (has_type config i h) as [h1 r1]. destruct r1 as [v|x| |]; try (injection X as <- <- <-; exact I). destruct v as [| | | |[|]| |]; try (injection X as <- <- <-; exact I).
    2: eapply IH; eauto.
    destruct (get_type config i h1) as [h2 r2]. destruct r2 as [v|x| |]; try (injection X as <- <- <-; exact I). destruct v; try (injection X as <- <- <-; exact I).
    destruct d; try (injection X as <- <- <-; exact I).
    destruct (get_configuration fuel config i h2) as [h3 r3]. destruct r3 as [conf|x| |]; try (injection X as <- <- <-; exact I).
    destruct (attempt slot plug sd so fuel h3 s conf a) as [a1 r4] eqn:At. pose proof (keep h3 s conf a a1 r4 I At) as K.
    destruct r4 as [u|x| |]; try (injection X as <- <- <-; apply K; congruence). eapply IH; [|exact X|exact NU]. apply K. discriminate.
  Qed.
  Lemma files_keep texts : forall h a h' a' r, P a -> read_files slot plug tokener sd so fuel texts h a = (h', a', r) -> r <> UB -> P a'.
  Proof.
    induction texts as [|t ts IH]; intros h a h' a' r I X NU; cbn [read_files] in X; [injection X as <- <- <-; exact I|].
    destruct (read_file slot plug tokener sd so fuel t h a) as [[h1 a1] r1] eqn:F.
    assert (r1 <> UB -> P a1) as K.
    { intros N. unfold read_file in F. destruct (raw_from_json tokener t h) as [h2 r2]. destruct r2 as [config|x| |]; try (injection F as <- <- <-; exact I).
      unfold read_config in F. destruct (h_op (OExists "plugins") config h2) as [h3 r3]. destruct r3 as [v|x| |]; try (injection F as <- <- <-; exact I).
      destruct v as [| | | |[|]| |]; try (injection F as <- <- <-; exact I).
      destruct (bind (h_path [SKey "plugins"] config) (fun c => h_op OCount c) h3) as [h4 r4]. destruct r4 as [v|x| |]; try (injection F as <- <- <-; exact I).
      destruct v; try (injection F as <- <- <-; exact I). eapply items_keep; eauto. }
    destruct r1 as [u|x| |]; try (injection X as <- <- <-; apply K; congruence). eapply IH; [|exact X|exact NU]. apply K. discriminate.
  Qed.
End Keep.

(** ** The invariant *)

Definition asked (S : list aevent) : list (string * dg) := flat_map (fun e => match e with AeCall ty conf _ => [(ty, conf)] | _ => [] end) S.

Section Names.
  Variables (slot : bool) (plug : nat -> created * option exc) (sd : N -> string) (so : string -> string -> string) (fuel : nat).
  Hypothesis all_able : forall n, plug n = (CrObject, None).
  Variable keys : list string.
  Hypothesis apart : forall a b j k, In a keys -> In b keys -> (a ++ to_string j = b ++ to_string k)%string -> a = b.

  Definition here (ty : string) : bool := if in_dec string_dec ty keys then true else false.
  Lemma here_iff ty : here ty = true <-> In ty keys.
  Proof. unfold here. destruct (in_dec string_dec ty keys); split; intros; auto; discriminate || contradiction. Qed.
  Definition served (S : list aevent) : list (string * dg) := filter (fun q => here (fst q)) (asked S).

  Record names_inv (a : app) : Prop := mkNames {
    ni_reached : exists tr, reached (ap_pm a) tr;
    ni_bus : pm_bus (ap_pm a) = Some 0;
    ni_kids : nth_error (pm_buses (ap_pm a)) 0 = Some (map in_name (numb [] (served (ap_trace a))));
    ni_buses : length (pm_buses (ap_pm a)) = S (length (served (ap_trace a)));
    ni_insts : pm_insts (ap_pm a) = length (served (ap_trace a));
    ni_keys : forall id, In id keys <-> exists t, olookup id (pm_templates (ap_pm a)) = Some t;
    ni_used : forall ty t j, olookup ty (pm_templates (ap_pm a)) = Some t -> (In (ty ++ to_string j)%string (names_in_use t) <-> j < count ty (served (ap_trace a)));
    ni_made : made (ap_trace a) = numb [] (served (ap_trace a));
    ni_going : set_going (ap_trace a) = numb [] (served (ap_trace a));
    ni_named : buses (ap_trace a) = map in_name (numb [] (served (ap_trace a)));
    ni_fine : forall ty conf r, In (AeCall ty conf r) (ap_trace a) -> In ty keys -> r = Ok tt
  }.

  Lemma served_app S S' : served (S ++ S') = served S ++ served S'.
  Proof. unfold served, asked. now rewrite flat_map_app, filter_app. Qed.

  Lemma fresh_name qs ty : (forall t, In t (types qs) -> In t keys) -> In ty keys -> ~ In (ty ++ to_string (count ty qs))%string (map in_name (numb [] qs)).
  Proof.
    intros K Ky I. apply in_map_iff in I as (i & Ei & I). apply numb_in in I as (q1 & [t c] & q2 & -> & ->). cbn [List.app inst_at in_name fst] in Ei.
    assert (t = ty) as -> by (apply (apart t ty _ _) in Ei; auto; apply K; unfold types; rewrite map_app; apply in_app_iff; right; now left).
    apply name_inj in Ei. unfold count in Ei. rewrite map_app, count_occ_app in Ei. cbn [map fst count_occ] in Ei. destruct (string_dec ty ty); [lia|congruence].
  Qed.
  Lemma served_types S t : In t (types (served S)) -> In t keys.
  Proof. unfold types, served. intros I. apply in_map_iff in I as (q & <- & I). apply filter_In in I as (_ & H). now apply here_iff. Qed.

  Lemma quiet_keeps e a n : flat_map (fun e => match e with AeCall ty conf _ => [(ty, conf)] | _ => [] end) e = [] -> made e = [] -> set_going e = [] -> buses e = [] ->
    names_inv a -> names_inv (mkApp (ap_pm a) n (ap_trace a ++ e)).
  Proof.
    intros E1 E2 E3 E4 [A B C D F G H I J K L].
    assert (served (ap_trace a ++ e) = served (ap_trace a)) as Es by (unfold served, asked; rewrite flat_map_app, E1, app_nil_r; reflexivity).
    constructor; cbn [ap_pm ap_trace]; rewrite ?Es; auto; unfold made, set_going, buses in *; rewrite ?flat_map_app, ?E2, ?E3, ?E4, ?app_nil_r; auto.
    intros ty conf r Ie. apply in_app_iff in Ie as [Ie|Ie]; [eauto|]. exfalso. assert (In (ty, conf) []) as [] by (rewrite <- E1; apply in_flat_map; eexists; split; [exact Ie|now left]).
  Qed.

  Lemma attempt_names h ty conf a a' r : names_inv a -> attempt slot plug sd so fuel h ty conf a = (a', r) -> r <> UB -> names_inv a'.
  Proof.
    intros I X NU. unfold attempt in X. destruct (contents fuel h conf) as [t|x| |]; try (injection X as <- <-; exact I).
    destruct (olookup ty (pm_templates (ap_pm a))) as [tp|] eqn:L.
    - (* the template is there *)
      pose proof I as [(tr & A) B C D F G H J K M Q]. assert (In ty keys) as Ky by (apply G; eauto).
      pose proof (reached_inv _ _ A) as IV. destruct (iv_tp _ _ IV _ _ L) as [B1 B2 B3 B4 B5]. pose proof (iv_sorted _ _ IV) as So.
      unfold instantiate_plugin in X. rewrite all_able in X. cbn [fst snd] in X.
      destruct (instantiate_cases _ _ slot ty None t CrObject tp IV L) as (k & Lo & [(_ & N0)|(p & kids & Pp & Kp & D1)]).
      { destruct (N0 0 _ (or_intror (conj eq_refl B)) C). }
      destruct Pp as [Pp|(_ & Pp)]; [discriminate|]. rewrite B in Pp. injection Pp as <-. unfold children in Kp. rewrite C in Kp. injection Kp as <-.
      assert (k = count ty (served (ap_trace a))) as ->.
      { destruct Lo as (L1 & L2). rewrite (H ty tp k L) in L1. destruct (Nat.lt_trichotomy k (count ty (served (ap_trace a)))) as [Lt|[->|Gt]]; [contradiction|reflexivity|].
        apply L2, (H ty tp _ L) in Gt. lia. }
      pose proof (fresh_name (served (ap_trace a)) ty (served_types _) Ky) as Fr.
      destruct D1 as [(In1 & _)|(_ & D1)]; [contradiction|]. cbn zeta in D1.
      assert (exists tr', reached (fst (fst (instantiate_template slot ty None t CrObject (ap_pm a)))) tr') as R'.
      { eexists. eapply (reached_step _ _ (PInstantiate slot ty None t CrObject) _ _ _ A); [cbn [PluginModel.pstep]; rewrite D1; reflexivity|discriminate]. }
      rewrite D1 in X, R'. cbn [fst snd] in R'.
      set (qs := served (ap_trace a)) in *. set (name := (ty ++ to_string (count ty qs))%string) in *.
      set (i := mkInst (pm_insts (ap_pm a)) name (length (pm_buses (ap_pm a))) t) in *.
      injection X as <- <-. unfold emit. cbn [map ap_pm ap_calls ap_trace]. rewrite <- !app_assoc. cbn [List.app].
      assert (i = inst_at qs (ty, t)) as Ei by (unfold i, inst_at; cbn [fst snd]; now rewrite F, D).
      assert (served (ap_trace a ++ [AePlugin (PeBus 0 name (length (pm_buses (ap_pm a)))); AePlugin (PeCreate ty i); AeInit i; AeStart i; AeCall ty t (Ok tt)]) = qs ++ [(ty, t)]) as Es.
      { rewrite served_app. fold qs. f_equal. unfold served, asked. cbn [flat_map List.app filter fst]. now rewrite (proj2 (here_iff ty) Ky). }
      assert (numb [] (qs ++ [(ty, t)]) = numb [] qs ++ [i]) as En by (rewrite numb_snoc, Ei; reflexivity).
      constructor; cbn [ap_pm ap_trace pm_bus pm_buses pm_insts pm_templates]; rewrite ?Es, ?En; auto.
      + rewrite map_app. cbn [map in_name]. destruct (pm_buses (ap_pm a)) as [|kids bs]; [discriminate|]. cbn in C |- *. reflexivity.
      + rewrite app_length. cbn [length]. rewrite app_length. cbn [length]. destruct (pm_buses (ap_pm a)); [discriminate D|]. cbn [length] in D |- *. lia.
      + rewrite app_length, F. cbn [length]. lia.
      + intros id. rewrite G. destruct (string_dec ty id) as [<-|Ne]; [rewrite olookup_insert_eq by auto; split; eauto|]. rewrite olookup_insert_ne by congruence. reflexivity.
      + intros ty' t' j L'. rewrite count_snoc. cbn [fst]. destruct (string_dec ty ty') as [<-|Ne].
        * rewrite olookup_insert_eq in L' by auto. injection L' as <-. unfold names_in_use. cbn [set_insts tp_insts]. rewrite in_map_iff. split.
          -- intros ((n & o) & En' & In'). cbn in En'. subst n. apply in_oinsert in In' as [In'|In']; auto; [injection In' as E0 _; apply name_inj in E0; lia|].
             assert (j < count ty qs) by (apply (H ty tp j L); unfold names_in_use; apply in_map_iff; eexists; split; [|exact In']; reflexivity). lia.
          -- intros Lt. assert (j = count ty qs \/ j < count ty qs) as [->|Lt'] by lia.
             ++ exists (name, Some i). split; [reflexivity|]. apply olookup_in. now apply olookup_insert_eq.
             ++ apply (H ty tp j L) in Lt'. unfold names_in_use in Lt'. apply in_map_iff in Lt' as ((n & o) & En' & In'). cbn in En'. subst n. exists ((ty ++ to_string j)%string, o). split; [reflexivity|].
                apply olookup_in. destruct (string_dec name (ty ++ to_string j)%string) as [Eq|Ne]; [|rewrite olookup_insert_ne by congruence; now apply in_olookup].
                exfalso. apply (proj1 Lo). fold name. rewrite Eq. unfold names_in_use. apply in_map_iff. eexists. split; [|exact In']. reflexivity.
        * rewrite olookup_insert_ne in L' by congruence. rewrite (H ty' t' j L'). lia.
      + unfold made in *. rewrite flat_map_app, J. reflexivity.
      + unfold set_going in *. rewrite flat_map_app, K. reflexivity.
      + unfold buses in *. rewrite flat_map_app, M, map_app. reflexivity.
      + intros ty' conf' r' Ie Ik. apply in_app_iff in Ie as [Ie|Ie]; [eauto|]. cbn [In] in Ie. decompose [or] Ie; try discriminate; try contradiction. congruence.
    - (* it is not *)
      assert (~ In ty keys) as Nk by (intros Hk; apply (ni_keys _ I) in Hk as (t' & Hk); congruence).
      assert (here ty = false) as Hf by (destruct (here ty) eqn:Eh; [apply here_iff in Eh; contradiction|reflexivity]).
      unfold instantiate_plugin in X. assert (instantiate_template slot ty None t (fst (plug (ap_calls a))) (ap_pm a) = (ap_pm a, [], Ok None)) as Ei by (unfold instantiate_template; now rewrite L).
      rewrite Ei in X. unfold emit in X. cbn [map ap_pm ap_calls ap_trace] in X. rewrite app_nil_r in X.
      assert (forall x, names_inv (mkApp (ap_pm a) (S (ap_calls a)) (ap_trace a ++ [AeCall ty t (Throw x)]))) as K.
      { intros x. destruct I as [A B C D F G H J K M Q]. assert (served (ap_trace a ++ [AeCall ty t (Throw x)]) = served (ap_trace a)) as Es.
        { rewrite served_app. unfold served at 2, asked. cbn [flat_map List.app filter fst]. rewrite Hf. apply app_nil_r. }
        constructor; cbn [ap_pm ap_trace]; rewrite ?Es; auto; unfold made, set_going, buses in *; rewrite ?flat_map_app; cbn [flat_map List.app]; rewrite ?app_nil_r; auto.
        intros ty' conf' r' Ie Ik. apply in_app_iff in Ie as [Ie|[Ie|[]]]; [eauto|]. injection Ie as <- _ _. contradiction. }
      destruct (PrintModel.raw_print sd so fuel h conf); injection X as <- <-; try apply K. exact (quiet_keeps [AeError _ _] _ _ eq_refl eq_refl eq_refl eq_refl (K _)).
  Qed.
End Names.

(** ** Start-up *)

Lemma load_template_offers w p st st' e r id h : load_template w p st = (st', e, r) -> Forall plain e -> In (PeLoaded id h) e -> exists path l, w_open w path = Some l /\ lb_info l = Some (Some id).
Proof.
  unfold load_template. destruct (candidate w p); [|intros H _ I; injection H as _ <- _; destruct I]. destruct (w_open w (c_str p)) as [l|] eqn:O; [|intros H _ I; injection H as _ <- _; destruct I].
  destruct (lb_info l) as [[id'|]|] eqn:Il; [|intros H _ I; injection H as _ <- _; destruct I as [I|[]]; discriminate I|intros H _ I; injection H as _ <- _; destruct I as [I|[I|[]]]; discriminate I].
  destruct (String.eqb id' ""); [intros H _ I; injection H as _ <- _; destruct I as [I|[I|[]]]; discriminate I|].
  destruct (lb_create l); [|intros H _ I; injection H as _ <- _; destruct I as [I|[I|[]]]; discriminate I].
  destruct (olookup id' (pm_templates st)) as [old|].
  - destruct (unload old) as [[t e1] r1] eqn:Un. intros H P I. injection H as _ <- _. destruct I as [I|[I|I]]; [discriminate I|injection I as -> _; eauto|].
    exfalso. unfold unload in Un. destruct (stop_all (tp_insts old)) as [e2 r2] eqn:S2. assert (forall m e r, stop_all m = (e, r) -> ~ In (PeLoaded id h) e) as Q1.
    { clear. induction m as [|[k [i|]] m IH]; cbn; intros e r H; [injection H as <- _; tauto| |injection H as <- _; tauto]. destruct (stop_all m) as [e' r'] eqn:E'. injection H as <- _. intros [D|D]; [discriminate|exact (IH _ _ eq_refl D)]. }
    assert (forall m e r, deinit_all m = (e, r) -> ~ In (PeLoaded id h) e) as Q2.
    { clear. induction m as [|[k [i|]] m IH]; cbn; intros e r H; [injection H as <- _; tauto| |injection H as <- _; tauto]. destruct (deinit_all m) as [e' r'] eqn:E'. injection H as <- _. intros [D|D]; [discriminate|exact (IH _ _ eq_refl D)]. }
    destruct r2; try (injection Un as _ <- _; exact (Q1 _ _ _ S2 I)). destruct (deinit_all (tp_insts old)) as [e3 r3] eqn:S3.
    destruct r3; injection Un as _ <- _; apply in_app_iff in I as [I|I]; solve [exact (Q1 _ _ _ S2 I)|exact (Q2 _ _ _ S3 I)].
  - intros H _ I. injection H as _ <- _. destruct I as [I|[I|[]]]; [discriminate I|]. injection I as -> _. eauto.
Qed.
Lemma load_files_offers w d id h fs : forall st st' e r, load_files w d fs st = (st', e, r) -> Forall plain e -> In (PeLoaded id h) e -> exists path l, w_open w path = Some l /\ lb_info l = Some (Some id).
Proof.
  induction fs as [|f fs IH]; intros st st' e r H P I; cbn [load_files] in H; [injection H as _ <- _; destruct I|].
  destruct (load_template w (combine_paths d f) st) as [[s1 e1] r1] eqn:L. destruct r1; try (injection H as _ <- _; eapply load_template_offers; eauto).
  destruct (load_files w d fs s1) as [[s2 e2] r2] eqn:L2. injection H as _ <- _. apply Forall_app in P as (P1 & P2). apply in_app_iff in I as [I|I]; [eapply load_template_offers|eapply IH]; eauto.
Qed.
Lemma load_paths_offers w id h ps : forall st st' e r, load_paths w ps st = (st', e, r) -> Forall plain e -> In (PeLoaded id h) e -> exists path l, w_open w path = Some l /\ lb_info l = Some (Some id).
Proof.
  induction ps as [|p ps IH]; intros st st' e r H P I; cbn [load_paths] in H; [injection H as _ <- _; destruct I|].
  destruct (load_files w p (get_directory_contents (w_fs w) p OtFile) st) as [[s1 e1] r1] eqn:L. destruct r1; try (injection H as _ <- _; eapply load_files_offers; eauto).
  destruct (load_paths w ps s1) as [[s2 e2] r2] eqn:L2. injection H as _ <- _. apply Forall_app in P as (P1 & P2). apply in_app_iff in I as [I|I]; [eapply load_files_offers|eapply IH]; eauto.
Qed.

Lemma load_template_buses w p st st' e r : load_template w p st = (st', e, r) -> pm_bus st' = pm_bus st /\ pm_buses st' = pm_buses st /\ pm_insts st' = pm_insts st.
Proof.
  unfold load_template. destruct (candidate w p); [|intros H; injection H as <- _ _; auto]. destruct (w_open w (c_str p)) as [l|]; [|intros H; injection H as <- _ _; auto].
  destruct (lb_info l) as [[id|]|]; try (intros H; injection H as <- _ _; auto). destruct (String.eqb id ""); [intros H; injection H as <- _ _; auto|].
  destruct (lb_create l); [|intros H; injection H as <- _ _; auto]. destruct (olookup id (pm_templates st)) as [old|]; [|intros H; injection H as <- _ _; auto].
  destruct (unload old) as [[t e1] r1]. intros H; injection H as <- _ _; auto.
Qed.
Lemma load_files_buses w d fs : forall st st' e r, load_files w d fs st = (st', e, r) -> pm_bus st' = pm_bus st /\ pm_buses st' = pm_buses st /\ pm_insts st' = pm_insts st.
Proof.
  induction fs as [|f fs IH]; intros st st' e r H; cbn [load_files] in H; [injection H as <- _ _; auto|].
  destruct (load_template w (combine_paths d f) st) as [[s1 e1] r1] eqn:L. apply load_template_buses in L as (A & B & C).
  destruct r1; try (injection H as <- _ _; auto). destruct (load_files w d fs s1) as [[s2 e2] r2] eqn:L2. injection H as <- _ _. apply IH in L2 as (D & F & G). repeat split; congruence.
Qed.
Lemma load_paths_buses w ps : forall st st' e r, load_paths w ps st = (st', e, r) -> pm_bus st' = pm_bus st /\ pm_buses st' = pm_buses st /\ pm_insts st' = pm_insts st.
Proof.
  induction ps as [|p ps IH]; intros st st' e r H; cbn [load_paths] in H; [injection H as <- _ _; auto|].
  destruct (load_files w p (get_directory_contents (w_fs w) p OtFile) st) as [[s1 e1] r1] eqn:L. apply load_files_buses in L as (A & B & C).
  destruct r1; try (injection H as <- _ _; auto). destruct (load_paths w ps s1) as [[s2 e2] r2] eqn:L2. injection H as <- _ _. apply IH in L2 as (D & F & G). repeat split; congruence.
Qed.

Lemma plain_asked e : asked (map AePlugin e) = [] /\ complaints (map AePlugin e) = [] /\ (forall ty c r, ~ In (AeCall ty c r) (map AePlugin e)).
Proof.
  split; [|split].
  - apply flat_map_nil. intros x I. apply in_map_iff in I as (y & <- & _). reflexivity.
  - apply flat_map_nil. intros x I. apply in_map_iff in I as (y & <- & _). reflexivity.
  - intros ty c r I. apply in_map_iff in I as (y & D & _). discriminate D.
Qed.

Lemma names_boot E argv ts : readable (en_json E) (map (en_text E) (configuration_files argv)) ts -> able E -> clash_free E ->
  exists N, forall fuel a0 a1 r, N <= fuel -> make_app E = Ok a0 -> start_up E fuel (configuration_files argv) a0 = (a1, r) ->
  (r = UB /\ exists m e, load_paths (en_world E) (pm_paths (ap_pm a0)) (mkPm (pm_paths (ap_pm a0)) (Some 0) [] [[]] 0 0) = (m, e, UB)) \/
  exists L keys bs, ap_trace a1 = map AePlugin L ++ concat (map (whole (en_double E) (en_other E)) bs) /\ Forall plain L /\
    (forall id, In id keys <-> exists h, In (PeLoaded id h) L) /\
    Forall (fun b => here keys (fst (fst (fst b))) = true /\ snd (fst b) = Ok tt \/
              here keys (fst (fst (fst b))) = false /\ snd b = [] /\ snd (fst b) = Throw (OperationFailed ("Failed to instantiate plugin: '" ++ fst (fst (fst b)) ++ "'"))) bs /\
    Forall (fun b => asked (snd b) = [] /\ complaints (snd b) = []) bs /\ (forall b id h, In b bs -> ~ In (AePlugin (PeLoaded id h)) (snd b)) /\
    ran_all (map doc_of ts) (map fst bs) r /\ (r = Ok tt \/ exists x, r = Throw x) /\ names_inv keys a1.
Proof.
  intros Rb Ab Cf. destruct (reads (en_slot E) (en_plug E) (en_json E) (en_double E) (en_other E) _ _ Rb) as (N & H). exists N. intros fuel a0 a1 r Le M St.
  apply made_app in M as (paths & ->). unfold start_up in St. cbn [ap_pm ap_trace ap_calls PluginModel.pstep fst pm_paths pm_templates pm_buses pm_handles pm_insts List.app] in St |- *.
  destruct (load_paths (en_world E) paths (mkPm paths (Some 0) [] [[]] 0 0)) as [[m1 e] r1] eqn:L.
  destruct (load_paths_res _ _ _ _ _ _ L) as [->| ->]; [right|left; injection St as _ <-; eauto].
  destruct (loaded _ _ _ _ _ L) as (_ & B & Ba & P); [discriminate|]. pose proof (bi_reached _ _ _ B) as R. cbn [ap_pm ap_trace] in R. rewrite manager_map in R.
  destruct (load_paths_buses _ _ _ _ _ _ L) as (Bu & Bs & Bn). cbn in Bu, Bs, Bn.
  destruct (H fuel [] (mkApp m1 0 (map AePlugin e)) Le) as (h' & a' & r' & bs & Er & Tr & Ra & Di & _ & Rr).
  { split; [eauto|]. exists 0, []. cbn. unfold children. rewrite Bu, Bs. auto. }
  rewrite Er in St. injection St as <- <-.
  pose proof (keys_loaded _ _ (reached_inv _ _ R) P) as Kl.
  assert (names_inv (okeys (pm_templates m1)) a') as Ni.
  { refine (files_keep _ _ _ _ _ _ _ _ _ _ _ _ _ _ _ Er _); [| |destruct Rr as [->|(x & ->)]; discriminate].
    - intros h ty conf a a2 r2. apply attempt_names; [exact Ab|]. intros x y j k Ix Iy Eq. apply Kl in Ix as (hx & Ix), Iy as (hy & Iy).
      eapply Cf; [| |exact Eq]; unfold offered; eapply load_paths_offers; eauto.
    - destruct (plain_asked e) as (Ea & _ & Nc). destruct (plain_quiet e P) as (_ & _ & Em & Eg & Eb).
      assert (forall k, served k (map AePlugin e) = []) as Es by (intros k; unfold served; now rewrite Ea).
      constructor; cbn [ap_pm ap_trace]; rewrite ?Es; auto; rewrite ?Bs; try (now rewrite Bn); eauto.
      + intros id. destruct (olookup id (pm_templates m1)) as [t|] eqn:Lk; split; eauto.
        * intros _. apply olookup_in in Lk. unfold okeys. apply in_map_iff. now exists (id, t).
        * intros I. apply okeys_lookup in Lk. contradiction.
        * intros (t & D). discriminate D.
      + intros ty t j Lk. apply olookup_in, Ba in Lk. unfold names_in_use. rewrite Lk. cbn. split; [intros []|lia].
      + intros ty conf r0 I _. now destruct (Nc ty conf r0). }
  exists e, (okeys (pm_templates m1)), bs. split; [exact Tr|]. split; [exact P|]. split; [exact Kl|].
  assert (Forall (fun b => here (okeys (pm_templates m1)) (fst (fst (fst b))) = true /\ snd (fst b) = Ok tt \/
              here (okeys (pm_templates m1)) (fst (fst (fst b))) = false /\ snd b = [] /\ snd (fst b) = Throw (OperationFailed ("Failed to instantiate plugin: '" ++ fst (fst (fst b)) ++ "'"))) bs) as Hb.
  { rewrite Forall_forall in Di |- *. intros b I. pose proof (Di b I) as D. destruct b as [[[ty conf] r0] ev]. cbn [fst snd] in D |- *. destruct D as (D1 & D2 & D3).
    destruct (here (okeys (pm_templates m1)) ty) eqn:Hh.
    - left. split; [reflexivity|]. apply here_iff in Hh. apply (ni_fine _ _ Ni ty conf); [|exact Hh]. rewrite Tr. apply in_app_iff. right. apply in_concat. eexists. split; [apply in_map; exact I|].
      unfold whole. cbn [fst snd]. apply in_app_iff. right. now left.
    - right. destruct D1 as (-> & ->); [|auto]. intros Q. apply here_iff in Q. cbn [ap_pm] in Q. congruence. }
  split; [exact Hb|]. rewrite <- and_assoc. split; [|auto].
  assert (forall b, In b bs -> snd b = [] \/ exists p b1 i, snd b = [AePlugin (PeBus p (in_name i) b1); AePlugin (PeCreate (fst (fst (fst b))) i); AeInit i; AeStart i]) as Sh.
  { rewrite Forall_forall in Hb, Di. intros b I. pose proof (Di b I) as D. pose proof (Hb b I) as D'. destruct b as [[[ty conf] r0] ev]. cbn [fst snd] in D, D' |- *.
    destruct D' as [(_ & ->)|(_ & -> & _)]; [|auto]. destruct D as (_ & D2 & _). destruct (D2 eq_refl) as (p & b & k & n & ->). right. exists p, b. eauto. }
  split; [rewrite Forall_forall|]; intros b; [intros I|intros id h I]; destruct (Sh b I) as [->|(p & b1 & i & ->)]; try (split; reflexivity); cbn; intuition discriminate.
Qed.

Lemma asked_whole sd so bs : Forall (fun b : call * list aevent => asked (snd b) = [] /\ complaints (snd b) = []) bs -> asked (concat (map (whole sd so) bs)) = map fst (map fst bs).
Proof.
  induction 1 as [|[[[ty conf] r] e] bs (A & _) _ IH]; [reflexivity|]. cbn [map concat fst]. unfold whole at 1. cbn [fst snd] in A |- *. unfold asked in *. rewrite !flat_map_app, A. cbn [List.app flat_map].
  assert (flat_map (fun e0 => match e0 with AeCall ty0 conf0 _ => [(ty0, conf0)] | _ => [] end) (error_lines sd so ((ty, conf), r)) = []) as -> by (unfold error_lines; cbn [fst snd]; destruct r as [|[]| |]; reflexivity).
  cbn. now rewrite IH.
Qed.
Lemma complaints_whole sd so keys bs :
  Forall (fun b : call * list aevent => here keys (fst (fst (fst b))) = true /\ snd (fst b) = Ok tt \/
    here keys (fst (fst (fst b))) = false /\ snd b = [] /\ snd (fst b) = Throw (OperationFailed ("Failed to instantiate plugin: '" ++ fst (fst (fst b)) ++ "'"))) bs ->
  Forall (fun b => asked (snd b) = [] /\ complaints (snd b) = []) bs ->
  complaints (concat (map (whole sd so) bs)) =
  map (fun q => (("Failed to instantiate plugin: '" ++ fst q ++ "'")%string, SerialSpec.render sd so (snd q))) (filter (fun q => negb (here keys (fst q))) (map fst (map fst bs))).
Proof.
  induction 1 as [|[[[ty conf] r] e] bs D _ IH]; intros F; [reflexivity|]. inversion F as [|? ? (_ & C) F']; subst. specialize (IH F'). cbn [map concat fst snd filter] in *.
  unfold complaints in *. rewrite flat_map_app, IH. unfold whole. cbn [fst snd]. rewrite flat_map_app, C. cbn [List.app flat_map error_lines fst snd].
  destruct D as [(Hh & ->)|(Hh & _ & ->)]; rewrite Hh; reflexivity.
Qed.

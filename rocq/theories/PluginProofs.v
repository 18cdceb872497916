(** Lemmas about the plugin manager. *)
From Coq Require Import String Ascii List Arith Bool Lia Permutation DecimalString DecimalNat Sorted.
From Verif Require Import Prelude OMap DatagramSpec FilesystemModel FilesystemProps PluginModel PluginSpec.
Import ListNotations.
Open Scope list_scope.

(** ** Names *)

Lemma append_inj_l (a b c : string) : (a ++ b = a ++ c -> b = c)%string.
Proof. induction a; simpl; auto. intros H. injection H. auto. Qed.
Lemma to_string_inj n m : to_string n = to_string m -> n = m.
Proof.
  unfold to_string. intros H. apply DecimalNat.Unsigned.to_uint_inj.
  assert (NilEmpty.uint_of_string (NilEmpty.string_of_uint (Nat.to_uint n)) = NilEmpty.uint_of_string (NilEmpty.string_of_uint (Nat.to_uint m))) as E by congruence.
  rewrite !NilEmpty.usu in E. congruence.
Qed.
Lemma name_inj id n m : (id ++ to_string n = id ++ to_string m)%string -> n = m.
Proof. intros H. apply append_inj_l in H. now apply to_string_inj. Qed.

Lemma indexed_in t i : indexed_exists t i = true <-> In (tp_id t ++ to_string i)%string (names_in_use t).
Proof.
  unfold indexed_exists, names_in_use. pose proof (olookup_some_iff_key (tp_id t ++ to_string i)%string (tp_insts t)) as K.
  unfold okeys in K. rewrite K. destruct (olookup _ _); split; congruence || auto; discriminate.
Qed.

Lemma index_loop_spec t fuel : forall i, (forall j, j < i -> indexed_exists t j = true) ->
  match index_loop fuel t i with
  | Ok k => indexed_exists t k = false /\ (forall j, j < k -> indexed_exists t j = true)
  | NoFuel => forall j, j < i + fuel -> indexed_exists t j = true
  | _ => False
  end.
Proof.
  induction fuel as [|fuel IH]; intros i H; simpl; [intros j L; apply H; lia|].
  destruct (indexed_exists t i) eqn:E; [|auto].
  specialize (IH (S i)). destruct (index_loop fuel t (S i)).
  - apply IH. intros j L. destruct (Nat.eq_dec j i) as [->|]; auto. apply H. lia.
  - apply IH. intros j L. destruct (Nat.eq_dec j i) as [->|]; auto. apply H. lia.
  - apply IH. intros j L. destruct (Nat.eq_dec j i) as [->|]; auto. apply H. lia.
  - intros j L. apply IH; [|lia]. intros j' L'. destruct (Nat.eq_dec j' i) as [->|]; auto. apply H. lia.
Qed.

(** The search ends, with the lowest free index. *)
Lemma free_index_spec t : exists k, free_index t = Ok k /\ lowest t (tp_id t) k.
Proof.
  unfold free_index. pose proof (index_loop_spec t (S (length (tp_insts t))) 0 ltac:(intros; lia)) as H.
  destruct (index_loop (S (length (tp_insts t))) t 0) as [k| | |]; try contradiction.
  - exists k. split; auto. destruct H as (A & B). split.
    + intros I. apply indexed_in in I. congruence.
    + intros j L. apply indexed_in; auto.
  - exfalso. assert (incl (map (fun j => (tp_id t ++ to_string j)%string) (seq 0 (S (length (tp_insts t))))) (names_in_use t)) as I.
    { intros s I. apply in_map_iff in I as (j & <- & I). apply in_seq in I. apply indexed_in, H. lia. }
    apply NoDup_incl_length in I.
    + unfold names_in_use in I. rewrite !map_length, seq_length in I. lia.
    + apply FinFun.Injective_map_NoDup; [intros a b E; now apply name_inj in E|apply seq_NoDup].
Qed.

Lemma lowest_unique t id k k' : lowest t id k -> lowest t id k' -> k = k'.
Proof.
  intros (A & B) (A' & B'). destruct (Nat.lt_trichotomy k k') as [L|[|L]]; auto; exfalso; [apply A, B'|apply A', B]; auto.
Qed.

(** ** Maps as bags *)

Lemma oinsert_perm {V} k (v : V) m : osorted m -> Permutation (oinsert k v m) ((k, v) :: oremove k m).
Proof.
  induction m as [|[k' v'] m IH]; intros S; simpl; auto.
  destruct (String.compare k k') eqn:E.
  - apply scompare_eq in E. subst k'. rewrite String.eqb_refl. constructor.
    replace (oremove k m) with m; auto. symmetry. apply osorted_head_notin in S. clear IH.
    induction m as [|[x y] m IH]; simpl; auto. simpl in S. destruct (String.eqb_spec k x) as [->|N]; [tauto|]. f_equal. apply IH. tauto.
  - assert (oremove k ((k', v') :: m) = (k', v') :: m) as R.
    { assert (~ In k (okeys ((k', v') :: m))) as N.
      { intros [I|I]; simpl in I; [subst; rewrite scompare_refl in E; discriminate|].
        inversion S as [|? ? _ F]; subst. simpl in F. rewrite Forall_forall in F. apply F in I.
        apply (slt_irrefl k'). eapply slt_trans; eauto. }
      clear -N. set (l := (k', v') :: m) in *. clearbody l. induction l as [|[x y] l IH]; simpl; auto. simpl in N.
      destruct (String.eqb_spec k x) as [->|]; [tauto|]. f_equal. apply IH. tauto. }
    simpl in R. destruct (String.eqb_spec k k') as [->|]; [rewrite scompare_refl in E; discriminate|]. rewrite R. auto.
  - destruct (String.eqb_spec k k') as [->|N]; [rewrite scompare_refl in E; discriminate|].
    rewrite IH by (eapply osorted_tail; eauto). constructor.
Qed.

Lemma oremove_perm {V} k (v : V) m : osorted m -> olookup k m = Some v -> Permutation m ((k, v) :: oremove k m).
Proof. intros S L. rewrite <- oinsert_perm by auto. rewrite oinsert_lookup_id; auto. Qed.

Lemma oremove_absent {V} k (m : omap V) : olookup k m = None -> oremove k m = m.
Proof.
  induction m as [|[x y] m IH]; simpl; auto. rewrite String.eqb_sym. destruct (String.eqb x k); [discriminate|]. intros H. f_equal; auto.
Qed.

(** ** Unloading *)

Lemma stop_all_ok l e u : stop_all l = (e, Ok u) ->
  e = map PeStop (flat_map (fun s => match snd s with Some i => [i] | None => [] end) l) /\ forall n, ~ In (n, @None inst) l.
Proof.
  revert e. induction l as [|[n [i|]] l IH]; simpl; intros e H; [injection H as <- _; auto| |discriminate].
  destruct (stop_all l) as [e1 r1]. injection H as <- ->. destruct (IH _ eq_refl) as (-> & N). split; auto.
  intros n' [E|I]; [congruence|]. eapply N; eauto.
Qed.
Lemma deinit_all_ok l e u : deinit_all l = (e, Ok u) ->
  e = map PeDeinit (flat_map (fun s => match snd s with Some i => [i] | None => [] end) l).
Proof.
  revert e. induction l as [|[n [i|]] l IH]; simpl; intros e H; [injection H as <- _; auto| |discriminate].
  destruct (deinit_all l) as [e1 r1]. injection H as <- ->. now rewrite (IH _ eq_refl).
Qed.
Lemma all_fine l : (forall n, ~ In (n, @None inst) l) -> (exists e, stop_all l = (e, Ok tt)) /\ (exists e, deinit_all l = (e, Ok tt)).
Proof.
  induction l as [|[n [i|]] l IH]; simpl; intros N; [eauto| |exfalso; eapply N; eauto].
  destruct IH as ((e1 & E1) & (e2 & E2)); [intros n' I; eapply N; eauto|]. rewrite E1, E2. eauto.
Qed.
Lemma stop_all_null l n : In (n, @None inst) l -> snd (stop_all l) = UB.
Proof.
  induction l as [|[n' [i|]] l IH]; simpl; [tauto| |auto]. intros [E|I]; [congruence|].
  destruct (stop_all l). simpl in *. auto.
Qed.
Lemma stop_all_res l : snd (stop_all l) = Ok tt \/ snd (stop_all l) = UB.
Proof. induction l as [|[n [i|]] l IH]; simpl; auto. destruct (stop_all l); simpl in *; auto. Qed.
Lemma deinit_all_res l : snd (deinit_all l) = Ok tt \/ snd (deinit_all l) = UB.
Proof. induction l as [|[n [i|]] l IH]; simpl; auto. destruct (deinit_all l); simpl in *; auto. Qed.

Lemma unload_fine t : ~ null_entry t -> exists t', unload t = (t', map PeStop (instances t) ++ map PeDeinit (instances t), Ok tt).
Proof.
  intros N. destruct (all_fine (tp_insts t)) as ((e1 & E1) & (e2 & E2)); [intros n I; apply N; exists n; auto|].
  unfold unload. rewrite E1, E2. apply stop_all_ok in E1 as (-> & _). apply deinit_all_ok in E2 as ->. eauto.
Qed.
Lemma unload_null t : null_entry t -> snd (unload t) = UB.
Proof.
  intros (n & I). unfold unload. apply stop_all_null in I. destruct (stop_all (tp_insts t)) as [e r]. simpl in I. subst r. reflexivity.
Qed.
Lemma null_dec t : null_entry t \/ ~ null_entry t.
Proof.
  unfold null_entry. induction (tp_insts t) as [|[n [i|]] l IH].
  - right. intros (n & []).
  - destruct IH as [(n' & I)|N]; [left; exists n'; simpl; auto|right]. intros (n' & [E|I]); [congruence|]. apply N. eauto.
  - left. exists n. simpl; auto.
Qed.
Lemma unload_ok t t' e u : unload t = (t', e, Ok u) -> ~ null_entry t /\ e = map PeStop (instances t) ++ map PeDeinit (instances t).
Proof.
  intros H. destruct (null_dec t) as [N|N]; [apply unload_null in N; rewrite H in N; discriminate|].
  destruct (unload_fine t N) as (t'' & E). rewrite H in E. injection E as _ ->. auto.
Qed.

(** The events of unloading one template, with its library. *)
Definition block (t : template) : list pevent := map PeStop (instances t) ++ map PeDeinit (instances t) ++ [PeClose (tp_handle t)].

Lemma unload_each_fine l : (forall k t, In (k, t) l -> ~ null_entry t) -> unload_each l = (flat_map (fun kt => block (snd kt)) l, Ok tt).
Proof.
  induction l as [|[k t] l IH]; simpl; intros N; auto. destruct (unload_fine t) as (t' & ->); [eapply N; eauto|].
  rewrite IH by (intros; eapply N; eauto). unfold block. rewrite <- !app_assoc. reflexivity.
Qed.
Lemma unload_each_null l k t : In (k, t) l -> null_entry t -> snd (unload_each l) = UB.
Proof.
  induction l as [|[k' t'] l IH]; simpl; [tauto|]. intros I N. destruct (unload t') as [[t1 e1] r1] eqn:U.
  destruct r1; try (destruct I as [E|I]; [injection E as -> ->; apply unload_null in N; rewrite U in N; auto|]).
  - discriminate.
  - specialize (IH I N). destruct (unload_each l). auto.
  - exfalso. unfold unload in U. pose proof (stop_all_res (tp_insts t')) as R. destruct (stop_all (tp_insts t')) as [? []]; simpl in R; try (destruct R; discriminate).
    pose proof (deinit_all_res (tp_insts t')) as R'. destruct (deinit_all (tp_insts t')) as [? []]; simpl in R'; try (destruct R'; discriminate); discriminate.
  - reflexivity.
  - exfalso. unfold unload in U. pose proof (stop_all_res (tp_insts t')) as R. destruct (stop_all (tp_insts t')) as [? []]; simpl in R; try (destruct R; discriminate).
    pose proof (deinit_all_res (tp_insts t')) as R'. destruct (deinit_all (tp_insts t')) as [? []]; simpl in R'; try (destruct R'; discriminate); discriminate.
Qed.
Lemma unload_each_ok l e u : unload_each l = (e, Ok u) -> (forall k t, In (k, t) l -> ~ null_entry t) /\ e = flat_map (fun kt => block (snd kt)) l.
Proof.
  intros H. assert (forall k t, In (k, t) l -> ~ null_entry t) as N.
  { intros k t I Ne. pose proof (unload_each_null _ _ _ I Ne) as E. rewrite H in E. discriminate. }
  split; auto. rewrite unload_each_fine in H by auto. congruence.
Qed.

(** ** The invariant *)

Record tp_inv (next : nat) (k : string) (t : template) : Prop := mkTpInv {
  ti_id : tp_id t = k;
  ti_ne : k <> ""%string;
  ti_fn : tp_fn t = true;
  ti_sorted : osorted (tp_insts t);
  ti_names : forall n i, In (n, Some i) (tp_insts t) -> in_name i = n /\ in_num i < next
}.

Record inv (st : pm) (tr : list pevent) : Prop := mkInv {
  iv_sorted : osorted (pm_templates st);
  iv_tp : forall k t, olookup k (pm_templates st) = Some t -> tp_inv (pm_insts st) k t;
  iv_live : NoDup (map in_num (live st));
  iv_opened : opened tr = seq 0 (pm_handles st);
  iv_assoc : forall id, assoc id (fst (ledger tr)) = option_map tp_handle (olookup id (pm_templates st));
  iv_perm : Permutation (opened tr) (closed tr ++ replaced tr ++ map (fun kt => tp_handle (snd kt)) (pm_templates st))
}.

Lemma instances_in t i : In i (instances t) <-> exists n, In (n, Some i) (tp_insts t).
Proof.
  unfold instances. rewrite in_flat_map. split.
  - intros ([n o] & I & H). destruct o; simpl in H; [|contradiction]. destruct H as [->|[]]. eauto.
  - intros (n & I). exists (n, Some i). split; simpl; auto.
Qed.
Lemma live_in st i : In i (live st) <-> exists k t, In (k, t) (pm_templates st) /\ In i (instances t).
Proof.
  unfold live. rewrite in_flat_map. split.
  - intros ([k t] & I & H). eauto.
  - intros (k & t & I & H). exists (k, t). auto.
Qed.

Lemma opened_app a b : opened (a ++ b) = opened a ++ opened b.
Proof. unfold opened. now rewrite flat_map_app. Qed.
Lemma closed_app a b : closed (a ++ b) = closed a ++ closed b.
Proof. unfold closed. now rewrite flat_map_app. Qed.
Lemma ledger_app a b : ledger (a ++ b) = fold_left ledger_step b (ledger a).
Proof. unfold ledger. now rewrite fold_left_app. Qed.

(** Events that concern neither handles nor the ledger. *)
Definition quiet (e : pevent) : Prop := match e with PeOpen _ | PeClose _ | PeLoaded _ _ | PeUnloaded => False | _ => True end.
Lemma quiet_all l : Forall quiet l -> opened l = [] /\ closed l = [] /\ forall s, fold_left ledger_step l s = s.
Proof.
  induction 1 as [|e l Q _ (A & B & C)]; simpl; auto. destruct e; simpl in *; try contradiction; auto.
Qed.
Lemma quiet_unload t : Forall quiet (map PeStop (instances t) ++ map PeDeinit (instances t)).
Proof. apply Forall_app. split; apply Forall_forall; intros e I; apply in_map_iff in I as (i & <- & _); simpl; auto. Qed.

Lemma perm_flat_map {A B} (f : A -> list B) l l' : Permutation l l' -> Permutation (flat_map f l) (flat_map f l').
Proof. induction 1; simpl; auto; [now apply Permutation_app_head|rewrite !app_assoc; apply Permutation_app_tail, Permutation_app_comm|etransitivity; eauto]. Qed.

Lemma live_templates st st' : pm_templates st' = pm_templates st -> live st' = live st.
Proof. unfold live. now intros ->. Qed.

Lemma inv_quiet st st' tr e : inv st tr -> Forall quiet e -> pm_templates st' = pm_templates st -> pm_handles st' = pm_handles st ->
  pm_insts st' = pm_insts st -> inv st' (tr ++ e).
Proof.
  intros [A B C D E F] Q T H I. destruct (quiet_all e Q) as (Q1 & Q2 & Q3).
  constructor; rewrite ?T, ?H, ?I; auto.
  - now rewrite (live_templates st st' T).
  - now rewrite opened_app, Q1, app_nil_r.
  - now rewrite ledger_app, Q3.
  - unfold replaced. rewrite opened_app, closed_app, ledger_app, Q1, Q2, Q3, !app_nil_r. exact F.
Qed.
Lemma inv_same st st' tr : inv st tr -> pm_templates st' = pm_templates st -> pm_handles st' = pm_handles st ->
  pm_insts st' = pm_insts st -> inv st' tr.
Proof. intros. rewrite <- (app_nil_r tr). eapply inv_quiet; eauto. Qed.

(** A library opened and closed again. *)
Lemma inv_open_close st tr : inv st tr ->
  inv (mkPm (pm_paths st) (pm_bus st) (pm_templates st) (pm_buses st) (S (pm_handles st)) (pm_insts st)) (tr ++ [PeOpen (pm_handles st); PeClose (pm_handles st)]).
Proof.
  intros [A B C D E F]. constructor; cbn [pm_templates pm_insts pm_handles]; auto.
  - rewrite opened_app, D, seq_S. reflexivity.
  - now rewrite ledger_app.
  - unfold replaced. rewrite opened_app, closed_app, ledger_app. cbn. rewrite F, <- !app_assoc. apply Permutation_app_head.
    rewrite app_assoc. apply Permutation_app_comm.
Qed.

Lemma assoc_cons id id' h l : assoc id ((id', h) :: l) = if String.eqb id id' then Some h else assoc id l.
Proof. unfold assoc. simpl. now destruct (String.eqb id id'). Qed.

Lemma live_insert st k t m : pm_templates st = m -> osorted m ->
  Permutation (flat_map (fun kt => instances (snd kt)) (oinsert k t m)) (instances t ++ flat_map (fun kt => instances (snd kt)) (oremove k m)).
Proof. intros <- S. rewrite (perm_flat_map _ _ _ (oinsert_perm k t _ S)). reflexivity. Qed.

Lemma map_insert {B} (f : string * template -> B) k t m : osorted m -> Permutation (map f (oinsert k t m)) (f (k, t) :: map f (oremove k m)).
Proof. intros S. rewrite (Permutation_map f (oinsert_perm k t m S)). reflexivity. Qed.

Lemma oremove_in {V} k (m : omap V) x : In x (oremove k m) -> In x m.
Proof. induction m as [|[k0 v0] m IH]; simpl; auto. destruct (String.eqb k k0); simpl; [auto|]. tauto. Qed.

Lemma nodup_sub {A} (l1 l2 : list A) : NoDup (l1 ++ l2) -> NoDup l2.
Proof. induction l1; simpl; auto. inversion 1; auto. Qed.

(** A template registered under an identifier. *)
Lemma inv_load st tr id e : inv st tr -> id <> ""%string ->
  match olookup id (pm_templates st) with
  | None => e = []
  | Some old => e = map PeStop (instances old) ++ map PeDeinit (instances old)
  end ->
  inv (mkPm (pm_paths st) (pm_bus st) (oinsert id (mkTemplate id true [] (pm_handles st)) (pm_templates st)) (pm_buses st) (S (pm_handles st)) (pm_insts st))
      (tr ++ PeOpen (pm_handles st) :: PeLoaded id (pm_handles st) :: e).
Proof.
  intros [A B C D E F] Ne Ev. set (h := pm_handles st) in *.
  assert (opened e = [] /\ closed e = [] /\ forall s, fold_left ledger_step e s = s) as (Q1 & Q2 & Q3).
  { apply quiet_all. destruct (olookup id (pm_templates st)); subst e; auto using quiet_unload. }
  assert (opened (tr ++ PeOpen h :: PeLoaded id h :: e) = opened tr ++ [h]) as HO by (rewrite opened_app; simpl; rewrite Q1; reflexivity).
  assert (closed (tr ++ PeOpen h :: PeLoaded id h :: e) = closed tr) as HC by (rewrite closed_app; simpl; rewrite Q2; apply app_nil_r).
  assert (ledger (tr ++ PeOpen h :: PeLoaded id h :: e) = ledger_step (ledger tr) (PeLoaded id h)) as HL by (rewrite ledger_app; simpl; rewrite Q3; reflexivity).
  constructor; cbn [pm_templates pm_insts pm_handles].
  - now apply osorted_insert.
  - intros k t L. destruct (String.eqb_spec id k) as [<-|N].
    + rewrite olookup_insert_eq in L by auto. injection L as <-. constructor; simpl; auto using osorted_nil; contradiction.
    + rewrite olookup_insert_ne in L by auto. auto.
  - unfold live. cbn [pm_templates]. rewrite (Permutation_map in_num (live_insert st id _ _ eq_refl A)). simpl.
    destruct (olookup id (pm_templates st)) as [old|] eqn:L.
    + unfold live in C. rewrite (Permutation_map in_num (perm_flat_map _ _ _ (oremove_perm id old _ A L))) in C. simpl in C.
      rewrite map_app in C. now apply nodup_sub in C.
    + now rewrite oremove_absent.
  - rewrite HO, D, seq_S. reflexivity.
  - intros i. rewrite HL. cbn [ledger_step fst]. rewrite assoc_cons. destruct (String.eqb_spec i id) as [->|N].
    + now rewrite olookup_insert_eq.
    + rewrite olookup_insert_ne by auto. auto.
  - rewrite HO, HC. unfold replaced. rewrite HL. cbn [ledger_step snd]. rewrite (E id), map_insert by auto. cbn [snd tp_handle].
    unfold replaced in F. rewrite F. rewrite <- !app_assoc. apply Permutation_app_head.
    destruct (olookup id (pm_templates st)) as [old|] eqn:L; cbn [option_map].
    + rewrite (Permutation_map (fun kt => tp_handle (snd kt)) (oremove_perm id old _ A L)). cbn [map snd].
      change (tp_handle old :: snd (ledger tr)) with ([tp_handle old] ++ snd (ledger tr)).
      set (R := map _ (oremove id (pm_templates st))).
      transitivity (snd (ledger tr) ++ ([tp_handle old] ++ (R ++ [h]))); [reflexivity|].
      transitivity (snd (ledger tr) ++ ([tp_handle old] ++ (h :: R))); [do 2 apply Permutation_app_head; symmetry; apply Permutation_cons_append|].
      rewrite !app_assoc. apply Permutation_app_tail, Permutation_app_comm.
    + rewrite oremove_absent by auto. apply Permutation_app_head. symmetry. apply Permutation_cons_append.
Qed.

Lemma load_template_inv w path st tr st' e b : inv st tr -> load_template w path st = (st', e, Ok b) -> inv st' (tr ++ e).
Proof.
  intros IV H. unfold load_template in H. destruct (candidate w path); [|injection H as <- <- _; rewrite app_nil_r; auto].
  destruct (w_open w (c_str path)) as [l|]; [|injection H as <- <- _; rewrite app_nil_r; auto].
  destruct (lb_info l) as [[id|]|]; [|discriminate|injection H as <- <- _; now apply inv_open_close].
  destruct (String.eqb_spec id "") as [Em|Ne]; [injection H as <- <- _; now apply inv_open_close|].
  destruct (lb_create l); [|injection H as <- <- _; now apply inv_open_close].
  destruct (olookup id (pm_templates st)) as [old|] eqn:L.
  - destruct (unload old) as [[t1 e1] r1] eqn:U. destruct r1; try discriminate. injection H as <- <- _.
    apply unload_ok in U as (_ & ->). apply (inv_load st); auto. rewrite L. reflexivity.
  - injection H as <- <- _. apply (inv_load st); auto. rewrite L. reflexivity.
Qed.

Lemma load_template_res w path st st' e r : load_template w path st = (st', e, r) -> (exists b, r = Ok b) \/ r = UB.
Proof.
  unfold load_template. intros H. destruct (candidate w path); [|injection H as _ _ <-; eauto].
  destruct (w_open w (c_str path)) as [l|]; [|injection H as _ _ <-; eauto].
  destruct (lb_info l) as [[id|]|]; [|injection H as _ _ <-; auto|injection H as _ _ <-; eauto].
  destruct (String.eqb id ""); [injection H as _ _ <-; eauto|]. destruct (lb_create l); [|injection H as _ _ <-; eauto].
  destruct (olookup id (pm_templates st)) as [old|]; [|injection H as _ _ <-; eauto].
  destruct (unload old) as [[t1 e1] r1] eqn:U. injection H as _ _ <-. unfold unload in U.
  pose proof (stop_all_res (tp_insts old)) as R1. pose proof (deinit_all_res (tp_insts old)) as R2.
  destruct (stop_all (tp_insts old)) as [? r2], (deinit_all (tp_insts old)) as [? r3]. simpl in R1, R2.
  destruct R1 as [->| ->]; [destruct R2 as [->| ->]|]; injection U as _ _ <-; simpl; eauto.
Qed.

Lemma load_files_inv w dir fs : forall st tr st' e u, inv st tr -> load_files w dir fs st = (st', e, Ok u) -> inv st' (tr ++ e).
Proof.
  induction fs as [|f fs IH]; simpl; intros st tr st' e u IV H; [injection H as <- <- _; now rewrite app_nil_r|].
  destruct (load_template w (combine_paths dir f) st) as [[st1 e1] r1] eqn:L. destruct r1; try discriminate.
  destruct (load_files w dir fs st1) as [[st2 e2] r2] eqn:L2. injection H as <- <- ->. rewrite app_assoc.
  eapply IH; [|exact L2]. eapply load_template_inv; eauto.
Qed.
Lemma load_paths_inv w ps : forall st tr st' e u, inv st tr -> load_paths w ps st = (st', e, Ok u) -> inv st' (tr ++ e).
Proof.
  induction ps as [|p ps IH]; simpl; intros st tr st' e u IV H; [injection H as <- <- _; now rewrite app_nil_r|].
  destruct (load_files w p _ st) as [[st1 e1] r1] eqn:L. destruct r1; try discriminate.
  destruct (load_paths w ps st1) as [[st2 e2] r2] eqn:L2. injection H as <- <- ->. rewrite app_assoc.
  eapply IH; [|exact L2]. eapply load_files_inv; eauto.
Qed.
Lemma load_files_res w dir fs : forall st st' e r, load_files w dir fs st = (st', e, r) -> r = Ok tt \/ r = UB.
Proof.
  induction fs as [|f fs IH]; simpl; intros st st' e r H; [injection H as _ _ <-; auto|].
  destruct (load_template w (combine_paths dir f) st) as [[st1 e1] r1] eqn:L.
  apply load_template_res in L as [(b & ->)| ->]; [|injection H as _ _ <-; auto].
  destruct (load_files w dir fs st1) as [[st2 e2] r2] eqn:L2. injection H as _ _ <-. eauto.
Qed.
Lemma load_paths_res w ps : forall st st' e r, load_paths w ps st = (st', e, r) -> r = Ok tt \/ r = UB.
Proof.
  induction ps as [|p ps IH]; simpl; intros st st' e r H; [injection H as _ _ <-; auto|].
  destruct (load_files w p _ st) as [[st1 e1] r1] eqn:L.
  apply load_files_res in L as [->| ->]; [|injection H as _ _ <-; auto].
  destruct (load_paths w ps st1) as [[st2 e2] r2] eqn:L2. injection H as _ _ <-. eauto.
Qed.

(** ** Unloading everything *)

Lemma blocks_facts (l : list (string * template)) : let e := flat_map (fun kt => block (snd kt)) l in
  opened e = [] /\ closed e = map (fun kt => tp_handle (snd kt)) l /\ (forall s, fold_left ledger_step e s = s) /\
  stopped e = flat_map (fun kt => instances (snd kt)) l /\ deinited e = flat_map (fun kt => instances (snd kt)) l.
Proof.
  induction l as [|[k t] l (A & B & C & D & E)]; cbn [flat_map map snd] in *; [repeat split|].
  assert (block t = (map PeStop (instances t) ++ map PeDeinit (instances t)) ++ [PeClose (tp_handle t)]) as HB by (unfold block; now rewrite app_assoc).
  assert (forall l', stopped (map PeStop l') = l' /\ deinited (map PeStop l') = [] /\ stopped (map PeDeinit l') = [] /\ deinited (map PeDeinit l') = l') as SD.
  { unfold stopped, deinited. clear. induction l' as [|i l' (A & B & C & D)]; cbn [map flat_map app]; repeat split; auto; f_equal; auto. }
  destruct (SD (instances t)) as (S1 & S2 & S3 & S4). clear SD.
  destruct (quiet_all _ (quiet_unload t)) as (Q1 & Q2 & Q3). rewrite HB. clear HB.
  repeat split.
  - rewrite opened_app, opened_app, Q1, A. reflexivity.
  - rewrite closed_app, closed_app, Q2, B. reflexivity.
  - intros s. rewrite fold_left_app, fold_left_app, Q3, C. reflexivity.
  - unfold stopped in *. rewrite !flat_map_app, S1, S3, D. cbn; now rewrite !app_nil_r.
  - unfold deinited in *. rewrite !flat_map_app, S2, S4, E. cbn. now rewrite ?app_nil_r.
Qed.

(** The destructors of the templates find nothing left to do. *)
Lemma destroy_nothing l : (forall k t, In (k, t) l -> ~ null_entry t) -> destroy_each (map (fun kt : string * template => fst (fst (unload (snd kt)))) l) = ([], Ok tt).
Proof.
  induction l as [|[k t] l IH]; intros N; [reflexivity|]. cbn [map destroy_each snd].
  assert (unload (fst (fst (unload t))) = (fst (fst (unload t)), [], Ok tt)) as ->.
  { destruct (unload_fine t) as (t' & E); [eapply N; simpl; eauto|]. assert (tp_insts t' = [] /\ tp_fn t' = false) as (I & M).
    { unfold unload in E. destruct (stop_all (tp_insts t)) as [e1 []]; try discriminate. destruct (deinit_all (tp_insts t)) as [e2 []]; try discriminate. injection E as <- _. auto. }
    rewrite E. cbn [fst]. destruct t' as [a b c d]. cbn in I, M. subst. reflexivity. }
  rewrite IH by (intros; eapply N; simpl; eauto). reflexivity.
Qed.
Lemma unload_templates_eq st : unload_templates st =
  match pm_templates st with
  | [] => (st, [], Ok tt)
  | ts => let (e, r) := unload_each ts in match r with Ok _ => (set_templates st [], e ++ [PeUnloaded], Ok tt) | _ => (st, e, r) end
  end.
Proof.
  unfold unload_templates. destruct (pm_templates st) as [|p l]; auto. destruct (unload_each (p :: l)) as [e []] eqn:U; auto.
  apply unload_each_ok in U as (N & _). rewrite destroy_nothing by auto. reflexivity.
Qed.

Lemma unload_templates_ok st st' e u : unload_templates st = (st', e, Ok u) ->
  (forall k t, In (k, t) (pm_templates st) -> ~ null_entry t) /\ st' = set_templates st [] /\
  e = flat_map (fun kt => block (snd kt)) (pm_templates st) ++ match pm_templates st with [] => [] | _ => [PeUnloaded] end.
Proof.
  rewrite unload_templates_eq. destruct (pm_templates st) as [|p l] eqn:T.
  - intros H. injection H as <- <- _. split; [intros k t []|]. split; auto. destruct st; simpl in *; subst; reflexivity.
  - destruct (unload_each (p :: l)) as [e1 r1] eqn:U. destruct r1; try discriminate. intros H. injection H as <- <- _.
    apply unload_each_ok in U as (N & ->). auto.
Qed.
Lemma unload_templates_fine st : (forall k t, In (k, t) (pm_templates st) -> ~ null_entry t) -> exists st' e, unload_templates st = (st', e, Ok tt).
Proof. rewrite unload_templates_eq. destruct (pm_templates st) as [|p l] eqn:T; eauto. intros N. rewrite unload_each_fine by auto. eauto. Qed.
Lemma unload_templates_null st k t : In (k, t) (pm_templates st) -> null_entry t -> snd (unload_templates st) = UB.
Proof.
  rewrite unload_templates_eq. destruct (pm_templates st) as [|p l] eqn:T; [intros []|]. intros I N.
  pose proof (unload_each_null _ _ _ I N) as E. destruct (unload_each (p :: l)) as [e r]. simpl in E. subst r. reflexivity.
Qed.

Lemma unload_inv st tr st' e u : inv st tr -> unload_templates st = (st', e, Ok u) -> inv st' (tr ++ e).
Proof.
  intros [A B C D E F] H. apply unload_templates_ok in H as (_ & -> & ->).
  destruct (blocks_facts (pm_templates st)) as (O1 & C1 & L1 & _ & _).
  set (tail := match pm_templates st with [] => [] | _ => [PeUnloaded] end).
  assert (opened tail = [] /\ closed tail = []) as (T1 & T2) by (unfold tail; destruct (pm_templates st); auto).
  assert (fold_left ledger_step tail (ledger tr) = (if match pm_templates st with [] => true | _ => false end then fst (ledger tr) else [], snd (ledger tr))) as T3.
  { unfold tail. destruct (pm_templates st); simpl; auto. now destruct (ledger tr). }
  constructor; cbn [set_templates pm_templates pm_insts pm_handles].
  - apply osorted_nil.
  - discriminate.
  - constructor.
  - rewrite !opened_app, O1, T1, !app_nil_r. exact D.
  - intros id. rewrite ledger_app, fold_left_app, L1, T3. cbn [fst].
    destruct (pm_templates st) eqn:T; auto.
  - unfold replaced. rewrite !opened_app, !closed_app, ledger_app, fold_left_app, L1, T3, O1, C1, T1, T2, !app_nil_r. cbn [snd map].
    unfold replaced in F. rewrite F, <- app_assoc. apply Permutation_app_head, Permutation_app_comm.
Qed.

(** ** Instantiating *)

Lemma create_child_ok bs p name bs' b : create_child bs p name = Some (Ok (bs', b)) ->
  exists kids, nth_error bs p = Some kids /\ ~ In name kids /\ bs' = list_set p (kids ++ [name]) bs ++ [[]] /\ b = length bs.
Proof.
  unfold create_child. destruct (nth_error bs p) as [kids|]; [|discriminate].
  destruct (existsb (String.eqb name) kids) eqn:X; [discriminate|]. intros H. injection H as <- <-. exists kids. repeat split; auto.
  intros I. assert (existsb (String.eqb name) kids = true) by (apply existsb_exists; exists name; rewrite String.eqb_refl; auto). congruence.
Qed.
Lemma create_child_eq bs p name kids : nth_error bs p = Some kids -> ~ In name kids ->
  create_child bs p name = Some (Ok (list_set p (kids ++ [name]) bs ++ [[]], length bs)).
Proof.
  unfold create_child. intros -> N. destruct (existsb (String.eqb name) kids) eqn:X; auto.
  apply existsb_exists in X as (y & I & E). apply String.eqb_eq in E. congruence.
Qed.
Lemma create_child_dup bs p name kids : nth_error bs p = Some kids -> In name kids -> create_child bs p name = Some (Throw (DuplicateKey name)).
Proof.
  unfold create_child. intros -> I. assert (existsb (String.eqb name) kids = true) as -> by (apply existsb_exists; exists name; rewrite String.eqb_refl; auto). reflexivity.
Qed.
Lemma create_child_cases bs p name : create_child bs p name = None \/ create_child bs p name = Some (Throw (DuplicateKey name)) \/
  exists bs' b, create_child bs p name = Some (Ok (bs', b)).
Proof. unfold create_child. destruct (nth_error bs p); auto. destruct (existsb _ _); eauto. Qed.

Lemma instances_insert t name o : osorted (tp_insts t) -> ~ In name (names_in_use t) ->
  Permutation (instances (set_insts t (oinsert name o (tp_insts t)))) (match o with Some i => [i] | None => [] end ++ instances t).
Proof.
  intros S N. unfold instances, set_insts. cbn [tp_insts]. rewrite (perm_flat_map _ _ _ (oinsert_perm name o _ S)). cbn [flat_map snd].
  rewrite oremove_absent; [reflexivity|]. now apply olookup_not_in.
Qed.

Lemma in_oinsert {V} k (v : V) m x : osorted m -> In x (oinsert k v m) -> x = (k, v) \/ In x m.
Proof.
  intros S I. apply (Permutation_in _ (oinsert_perm k v m S)) in I as [I|I]; auto. right. eapply oremove_in; eauto.
Qed.

(** A new entry in a template. *)
Lemma inv_entry st tr tid t name o bs n e : inv st tr -> olookup tid (pm_templates st) = Some t -> ~ In name (names_in_use t) ->
  match o with Some i => in_name i = name /\ in_num i = pm_insts st /\ n = S (pm_insts st) | None => n = pm_insts st end -> Forall quiet e ->
  inv (mkPm (pm_paths st) (pm_bus st) (oinsert tid (set_insts t (oinsert name o (tp_insts t))) (pm_templates st)) bs (pm_handles st) n) (tr ++ e).
Proof.
  intros [A B C D E F] L N O Q. destruct (quiet_all e Q) as (Q1 & Q2 & Q3). destruct (B _ _ L) as [B1 B2 B3 B4 B5].
  set (t' := set_insts t (oinsert name o (tp_insts t))).
  assert (pm_insts st <= n) as Le by (destruct o; intuition lia).
  assert (Permutation (pm_templates st) ((tid, t) :: oremove tid (pm_templates st))) as P by (apply oremove_perm; auto).
  constructor; cbn [pm_templates pm_insts pm_handles].
  - now apply osorted_insert.
  - intros k u Lk. destruct (String.eqb_spec tid k) as [<-|Ne].
    + rewrite olookup_insert_eq in Lk by auto. injection Lk as <-. constructor; cbn [t' set_insts tp_id tp_fn tp_insts]; auto using osorted_insert.
      intros m i I. apply in_oinsert in I as [I|I]; auto.
      * injection I as -> <-. destruct O as (O1 & O2 & O3). split; [auto|lia].
      * apply B5 in I as (? & ?). split; [auto|lia].
    + rewrite olookup_insert_ne in Lk by auto. destruct (B _ _ Lk) as [? ? ? ? G]. constructor; auto.
      intros m i I. apply G in I as (? & ?). split; [auto|lia].
  - unfold live in *. cbn [pm_templates]. rewrite (Permutation_map in_num (live_insert st tid t' _ eq_refl A)).
    assert (Permutation (instances t') (match o with Some i => [i] | None => [] end ++ instances t)) as PI by (apply instances_insert; auto).
    rewrite map_app, (Permutation_map in_num PI), map_app.
    assert (Permutation (map in_num (live st)) (map in_num (instances t) ++ map in_num (flat_map (fun kt => instances (snd kt)) (oremove tid (pm_templates st))))) as P'.
    { unfold live. rewrite (Permutation_map in_num (perm_flat_map _ _ _ P)). simpl. now rewrite map_app. }
    rewrite <- app_assoc. destruct o as [i|]; simpl.
    + constructor; [|rewrite <- P'; exact C]. rewrite <- P'. intros I. apply in_map_iff in I as (j & J1 & J2).
      apply live_in in J2 as (k & u & Ik & Iu). apply in_olookup in Ik; auto. apply instances_in in Iu as (m & Im).
      destruct (B _ _ Ik) as [? ? ? ? G]. apply G in Im as (_ & Lt). destruct O as (O1 & O2 & O3). lia.
    + rewrite <- P'. exact C.
  - now rewrite opened_app, Q1, app_nil_r.
  - intros id. rewrite ledger_app, Q3, E. destruct (String.eqb_spec tid id) as [<-|Ne].
    + rewrite olookup_insert_eq, L by auto. reflexivity.
    + now rewrite olookup_insert_ne.
  - unfold replaced. rewrite opened_app, closed_app, ledger_app, Q1, Q2, Q3, !app_nil_r, map_insert by auto. unfold replaced in F. rewrite F.
    do 2 apply Permutation_app_head. rewrite (Permutation_map (fun kt => tp_handle (snd kt)) P). reflexivity.
Qed.

Lemma mkPm_eta st : mkPm (pm_paths st) (pm_bus st) (pm_templates st) (pm_buses st) (pm_handles st) (pm_insts st) = st.
Proof. now destruct st. Qed.

(** What InstantiateTemplate does with a registered template, case by case. *)
Lemma instantiate_cases st tr slot tid bus conf cr t : inv st tr -> olookup tid (pm_templates st) = Some t ->
  exists k, lowest t tid k /\
  let name := (tid ++ to_string k)%string in
  let add o bs n := mkPm (pm_paths st) (pm_bus st) (oinsert tid (set_insts t (oinsert name o (tp_insts t))) (pm_templates st)) bs (pm_handles st) n in
  let res := instantiate_template slot tid bus conf cr st in
  (res = (st, [], UB) /\ (forall p kids, parent_of st bus p -> ~ children st p kids)) \/
  (exists p kids, parent_of st bus p /\ children st p kids /\
     ((In name kids /\ res = (st, [], Throw (DuplicateKey name))) \/
      (~ In name kids /\
       let bs := list_set p (kids ++ [name]) (pm_buses st) ++ [[]] in let b := length (pm_buses st) in
       let i := mkInst (pm_insts st) name b conf in
       match cr with
       | CrObject => res = (add (Some i) bs (S (pm_insts st)), [PeBus p name b; PeCreate tid i], Ok (Some i))
       | CrNull => res = (add None bs (pm_insts st), [PeBus p name b], Ok None)
       | CrThrow x => res = ((if slot then add None bs (pm_insts st)
                              else mkPm (pm_paths st) (pm_bus st) (pm_templates st) bs (pm_handles st) (pm_insts st)), [PeBus p name b], Throw x)
       end))).
Proof.
  intros IV L. destruct (free_index_spec t) as (k & FI & Lo). destruct (iv_tp _ _ IV _ _ L) as [B1 B2 B3 B4 B5]. rewrite B1 in Lo.
  exists k. split; auto. cbn zeta. unfold instantiate_template. rewrite L. unfold instantiate. rewrite FI, B1, B3.
  set (parent := match bus with Some b => Some b | None => pm_bus st end).
  assert (forall p, parent_of st bus p <-> parent = Some p) as PO.
  { intros p. unfold parent_of, parent. destruct bus; split; [intros [H|(H & _)]; congruence|auto|intros [H|(_ & H)]; congruence|auto]. }
  destruct parent as [p|].
  - unfold children. destruct (nth_error (pm_buses st) p) as [kids|] eqn:K.
    + right. exists p, kids. split; [now apply PO|]. split; auto.
      destruct (in_dec string_dec (tid ++ to_string k)%string kids) as [I|N].
      * left. split; auto. rewrite (create_child_dup _ _ _ _ K I). rewrite oinsert_lookup_id by (try apply IV; auto). now rewrite mkPm_eta.
      * right. split; auto. rewrite (create_child_eq _ _ _ _ K N). destruct cr; try reflexivity.
        destruct slot; try reflexivity. rewrite oinsert_lookup_id by (try apply IV; auto). reflexivity.
    + left. assert (create_child (pm_buses st) p (tid ++ to_string k) = None) as -> by (unfold create_child; now rewrite K).
      rewrite oinsert_lookup_id by (try apply IV; auto). rewrite mkPm_eta. split; auto.
      intros p' kids P C. apply PO in P. injection P as <-. congruence.
  - left. rewrite oinsert_lookup_id by (try apply IV; auto). rewrite mkPm_eta. split; auto.
    intros p' kids P C. apply PO in P. discriminate.
Qed.

Lemma instantiate_inv st tr slot tid bus conf cr st' e r : inv st tr -> instantiate_template slot tid bus conf cr st = (st', e, r) ->
  r <> UB -> inv st' (tr ++ e).
Proof.
  intros IV H NU. destruct (olookup tid (pm_templates st)) as [t|] eqn:L.
  2: { unfold instantiate_template in H. rewrite L in H. injection H as <- <- _. now rewrite app_nil_r. }
  destruct (instantiate_cases st tr slot tid bus conf cr t IV L) as (k & Lo & [(E & _)|(p & kids & _ & _ & [(_ & E)|(N & E)])]); cbn zeta in E.
  - rewrite E in H. congruence.
  - rewrite E in H. injection H as <- <- _. now rewrite app_nil_r.
  - destruct cr as [| |x]; rewrite E in H; try (injection H as <- <- _).
    + eapply inv_entry; eauto; try apply Lo; simpl; auto; repeat constructor.
    + eapply inv_entry; eauto; try apply Lo; simpl; auto; repeat constructor.
    + destruct slot; [eapply inv_entry; eauto; try apply Lo; simpl; auto; repeat constructor|].
      eapply inv_quiet; eauto. repeat constructor.
Qed.

(** ** All histories *)

Lemma pstep_inv o st tr st' e r : inv st tr -> pstep o st = (st', e, r) -> r <> UB -> inv st' (tr ++ e).
Proof.
  intros IV H NU. destruct o; cbn [pstep] in H.
  - injection H as <- <- _. rewrite app_nil_r. eapply inv_same; eauto.
  - injection H as <- <- _. rewrite app_nil_r. eapply inv_same; eauto.
  - destruct (load_template w path st) as [[st1 e1] r1] eqn:L. injection H as <- <- <-.
    destruct (load_template_res _ _ _ _ _ _ L) as [(b & ->)| ->]; [eapply load_template_inv; eauto|exfalso; apply NU; reflexivity].
  - destruct (load_paths w (pm_paths st) st) as [[st1 e1] r1] eqn:L. injection H as <- <- <-.
    destruct (load_paths_res _ _ _ _ _ _ L) as [->| ->]; [eapply load_paths_inv; eauto|exfalso; apply NU; reflexivity].
  - destruct (unload_templates st) as [[st1 e1] r1] eqn:U. injection H as <- <- <-. destruct r1.
    + eapply unload_inv; eauto.
    + exfalso. clear -U. rewrite unload_templates_eq in U. destruct (pm_templates st) as [|p l] eqn:T; [discriminate|].
      destruct (unload_each (p :: l)) as [e2 r2] eqn:U2.
      assert (r2 = Ok tt \/ r2 = UB) as [->| ->]; [|discriminate|discriminate].
      destruct (Exists_dec (fun kt => null_entry (snd kt)) (p :: l)) as [X|X].
      { intros [k0 t0]. simpl. unfold null_entry. clear. induction (tp_insts t0) as [|[n [i|]] l IH].
        - right. intros (n & []).
        - destruct IH as [I|N]; [left; destruct I as (n' & I); exists n'; simpl; auto|right]. intros (n' & [E|I]); [congruence|]. apply N. eauto.
        - left. exists n. simpl; auto. }
      * apply Exists_exists in X as ([k0 t0] & I & N). pose proof (unload_each_null _ _ _ I N) as E. rewrite U2 in E. auto.
      * rewrite unload_each_fine in U2; [injection U2 as _ <-; auto|]. intros k0 t0 I N. apply X, Exists_exists. exists (k0, t0). auto.
    + exfalso. apply NU. reflexivity.
    + exfalso. clear -U. rewrite unload_templates_eq in U. destruct (pm_templates st) as [|p l] eqn:T; [discriminate|].
      destruct (unload_each (p :: l)) as [e2 r2] eqn:U2.
      assert (r2 = Ok tt \/ r2 = UB) as [->| ->]; [|discriminate|discriminate].
      destruct (Exists_dec (fun kt => null_entry (snd kt)) (p :: l)) as [X|X].
      { intros [k0 t0]. simpl. unfold null_entry. clear. induction (tp_insts t0) as [|[n [i|]] l IH].
        - right. intros (n & []).
        - destruct IH as [I|N]; [left; destruct I as (n' & I); exists n'; simpl; auto|right]. intros (n' & [E|I]); [congruence|]. apply N. eauto.
        - left. exists n. simpl; auto. }
      * apply Exists_exists in X as ([k0 t0] & I & N). pose proof (unload_each_null _ _ _ I N) as E. rewrite U2 in E. auto.
      * rewrite unload_each_fine in U2; [injection U2 as _ <-; auto|]. intros k0 t0 I N. apply X, Exists_exists. exists (k0, t0). auto.
  - destruct (instantiate_template slot tid bus conf cr st) as [[st1 e1] r1] eqn:I. injection H as <- <- <-.
    eapply instantiate_inv; eauto. intros ->. apply NU. reflexivity.
  - injection H as <- <- _. rewrite app_nil_r. eapply inv_same; eauto.
  - destruct (create_child (pm_buses st) b name) as [[[bs b']| | |]|]; injection H as <- <- <-; rewrite ?app_nil_r; auto; try congruence.
    eapply inv_same; eauto.
Qed.

Lemma prun_inv os : forall st tr st' e rs, inv st tr -> prun os st = (st', e, rs) -> ~ In UB rs -> inv st' (tr ++ e).
Proof.
  induction os as [|o os IH]; simpl; intros st tr st' e rs IV H NU; [injection H as <- <- _; now rewrite app_nil_r|].
  destruct (pstep o st) as [[st1 e1] r1] eqn:P.
  assert (r1 = UB \/ r1 <> UB) as [->|N] by (destruct r1; auto; right; discriminate).
  { injection H as <- <- <-. exfalso. apply NU. simpl; auto. }
  pose proof (pstep_inv _ _ _ _ _ _ IV P N) as IV'. destruct (prun os st1) as [[st2 e2] rs2] eqn:R.
  assert (forall A (x y : A), match r1 with UB => x | _ => y end = y) as ER by (destruct r1; auto; congruence).
  rewrite ER in H. injection H as <- <- <-. rewrite app_assoc. eapply IH; eauto. intros I. apply NU. simpl; auto.
Qed.

Lemma inv_init : inv pinit [].
Proof. constructor; simpl; auto using osorted_nil; try discriminate. constructor. Qed.

Lemma reached_inv st tr : reached st tr -> inv st tr.
Proof. intros (os & rs & H & N). change tr with ([] ++ tr). eapply prun_inv; eauto. apply inv_init. Qed.

Lemma prun_app os1 : forall os2 st st1 e1 rs1 st2 e2 rs2, prun os1 st = (st1, e1, rs1) -> ~ In UB rs1 -> prun os2 st1 = (st2, e2, rs2) ->
  prun (os1 ++ os2) st = (st2, e1 ++ e2, rs1 ++ rs2).
Proof.
  induction os1 as [|o os1 IH]; simpl; intros os2 st st1 e1 rs1 st2 e2 rs2 H N H2; [injection H as <- <- <-; auto|].
  destruct (pstep o st) as [[s e] r] eqn:P. destruct (prun os1 s) as [[s' e'] rs'] eqn:R.
  assert (r = UB \/ r <> UB) as [->|Nr] by (destruct r; auto; right; discriminate).
  { injection H as <- <- <-. exfalso. apply N. simpl; auto. }
  assert (forall A (x y : A), match r with UB => x | _ => y end = y) as ER by (destruct r; auto; congruence).
  rewrite ER in H. injection H as <- <- <-. rewrite (IH os2 s s' e' rs' st2 e2 rs2 R) by (auto; intros I; apply N; simpl; auto).
  rewrite ER, <- app_assoc. reflexivity.
Qed.
Lemma reached_step st tr o st' e r : reached st tr -> pstep o st = (st', e, r) -> r <> UB -> reached st' (tr ++ e).
Proof.
  intros (os & rs & H & N) P NU. exists (os ++ [o]), (rs ++ [r]). split.
  - eapply prun_app; eauto. simpl. rewrite P. destruct r; try congruence; rewrite app_nil_r; reflexivity.
  - intros I. apply in_app_or in I as [I|[I|[]]]; auto.
Qed.

Lemma null_dec_all (l : list (string * template)) : (forall k t, In (k, t) l -> ~ null_entry t) \/ exists k t, In (k, t) l /\ null_entry t.
Proof.
  induction l as [|[k t] l [IH|(k' & t' & I & N)]]; [left; intros k t []| |right; exists k', t'; simpl; auto].
  destruct (null_dec t) as [N|N]; [right; exists k, t; simpl; auto|left]. intros k' t' [E|I]; [injection E as <- <-; auto|eauto].
Qed.

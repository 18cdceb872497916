(** Lemmas about the application object's reading of configurations. *)
From Coq Require Import String Ascii List Arith ZArith NArith Bool Lia.
From Verif Require Import Prelude OMap DatagramModel DatagramSpec DatagramStmt DatagramProofs DatagramHeap DatagramRefine DatagramRefine2
  SerialModel SerialSpec SerialProofs SerialProofs2 PrintModel PluginModel PluginSpec PluginProofs AppModel AppSpec.
Import ListNotations.
Open Scope list_scope.

(** ** Datagram steps *)

Definition rep1 (h : heap) (l : loc) (t : dg) : Prop := exists F, own h l t F /\ NoDup F.

Lemma rep1_state h l t : rep1 h l t <-> rep_state (h, [l]) [t].
Proof.
  split.
  - intros (F & O & N). exists F. split; auto. simpl. rewrite <- (app_nil_r F). repeat constructor. auto.
  - intros (F & O & N). simpl in O. inversion O as [|? ? ? ? F1 F2 H1 H2]; subst. inversion H2; subst. rewrite app_nil_r in N. exists F1. auto.
Qed.

Lemma at_sim p o h l t : rep1 h l t ->
  exists h', (c <- h_path p l ;; h_op o c) h = (h', snd (spec_at p (spec_op o) t)) /\ rep1 h' l (fst (spec_at p (spec_op o) t)).
Proof.
  intros R. apply rep1_state in R. destruct (stmt_sim (SOp 0 p o) [t] _ (h, [l]) (le_n _) R) as (st' & E & R').
  cbn [h_stmt with_handle nth_error] in E. unfold with_handle, with_res in E. cbn [nth_error] in E.
  cbn [spec_stmt] in E, R'. unfold on_var in E, R'. cbn [nth_error] in E, R'.
  destruct (spec_at p (spec_op o) t) as [t' r]. cbn [fst snd list_set] in *.
  destruct ((c <- h_path p l ;; h_op o c) h) as [h' r'].
  injection E as <- E. exists h'. split; [|now apply rep1_state]. f_equal. destruct r'; simpl in E; congruence.
Qed.

Lemma op_sim1 o h l t : rep1 h l t -> exists h', h_op o l h = (h', snd (spec_op o t)) /\ rep1 h' l (fst (spec_op o t)).
Proof. intros R. destruct (at_sim [] o h l t R) as (h' & E & R'). exists h'. split; auto. Qed.

Lemma conf_sim fuel config i h t t' u : rep1 h config t ->
  spec_focus [SKey "plugins"; SIdx i; SKey "configuration"] t = (t', Ok u) -> dg_depth u < fuel ->
  exists h' conf, get_configuration fuel config i h = (h', Ok conf) /\ rep1 h' config t' /\ rep1 h' conf u.
Proof.
  intros (F & O & N) E D. unfold get_configuration. rewrite (bind_ok _ _ _ _ _ (raw_new_eq h)).
  set (h0 := h ++ [empty_node]). set (conf := length h).
  pose proof (own_valid _ _ _ _ O) as V. rewrite Forall_forall in V.
  assert (own h0 config t F) as O0 by (eapply own_frame; [eauto|]; intros x I; apply nth_error_app1; auto).
  destruct (path_focus [SKey "plugins"; SIdx i; SKey "configuration"] h0 config t F O0 N) as (h1 & F1 & O1 & N1 & S1 & P).
  rewrite E in O1, P. cbn [fst snd] in O1, P. destruct P as (c & Fa & Fc & Fb & Ep & -> & Oc & _).
  rewrite (bind_ok _ _ _ _ _ Ep).
  assert (conf < length h0) as Lc by (unfold h0, conf; rewrite app_length; simpl; lia).
  assert (~ In conf F) as NF by (intros I; apply V in I; unfold conf in I; lia).
  assert (own h1 conf Emp [conf]) as Oe.
  { constructor. rewrite (so_frame _ _ _ _ S1) by auto. unfold h0, conf. rewrite nth_error_app2, Nat.sub_diag; auto. }
  destruct (dg_assign_own fuel h1 conf Emp [conf] c u Fc Oe Oc D) as (h2 & F' & Ea & Oa & Na & Sa).
  rewrite (bind_ok _ _ _ _ _ Ea). exists h2, conf. split; [reflexivity|]. split; [|exists F'; auto].
  exists (Fa ++ Fc ++ Fb). split; auto. eapply own_frame; [exact O1|]. intros x I. apply (so_frame _ _ _ _ Sa).
  - pose proof (own_valid _ _ _ _ O1) as V1. rewrite Forall_forall in V1. auto.
  - intros [<-|[]]. apply (so_foot _ _ _ _ S1) in I. destruct I as [I|I]; [auto|lia].
Qed.

Lemma contents_ok t : forall f h l F, dg_depth t < f -> own h l t F -> contents f h l = Ok t.
Proof.
  induction t as [|d|ts IH|kvs IH] using dg_ind'; intros f h l F Hf HO; destruct f as [|f]; try lia;
    inversion HO as [? Hn|? ? Hn|? ps ? F' Hn Hos|? m ? F' Hn Hs Hk Hos]; subst; cbn [contents]; rewrite Hn; cbn [nd_type nd_val nd_list nd_dict]; auto.
  - match goal with |- ?fx ps [] = _ => enough (G : forall acc, fx ps acc = Ok (Lst (acc ++ ts))) by exact (G []) end.
    assert (Hd : forall t, In t ts -> dg_depth t < f) by (intros t Ht; apply depth_lst_child in Ht; simpl in Hf, Ht; lia).
    clear Hn HO Hf. revert ps F' Hos. induction ts as [|t ts IHts]; intros ps F' Hos acc; inversion Hos; subst.
    + now rewrite app_nil_r.
    + inversion IH; subst. match goal with A : own h _ t _ |- _ => rewrite (H1 f h _ _ (Hd t (or_introl eq_refl)) A) end.
      cbn [res_bind]. rewrite (IHts H3 (fun u Hu => Hd u (or_intror Hu)) _ _ H4). now rewrite <- app_assoc.
  - match goal with |- ?fx m [] = _ => enough (G : forall acc, fx m acc = Ok (Dct (acc ++ kvs))) by exact (G []) end.
    assert (Hd : forall p, In p kvs -> dg_depth (snd p) < f) by (intros t Ht; apply depth_dct_child in Ht; simpl in Hf, Ht; lia).
    clear Hn HO Hf Hs. revert m F' Hk Hos. induction kvs as [|[k t] kvs IHts]; intros m F' Hk Hos acc;
      destruct m as [|[k' q] m]; try discriminate Hk.
    + now rewrite !app_nil_r.
    + injection Hk as -> Hk. cbn [map snd fst] in *. inversion Hos; subst. inversion IH; subst.
      match goal with A : own h _ t _, B : forall f h l F, _ |- _ => rewrite (B f h _ _ (Hd (k, t) (or_introl eq_refl)) A) end.
      cbn [res_bind]. match goal with A : Forall _ kvs, B : owns h _ _ _ |- _ =>
        rewrite (IHts A (fun u Hu => Hd u (or_intror Hu)) m _ Hk B) end. now rewrite <- !app_assoc.
Qed.

Lemma contents_mono f : forall h l t g, contents f h l = Ok t -> f <= g -> contents g h l = Ok t.
Proof.
  induction f as [|f IH]; intros h l t g C L; [discriminate|]. destruct g as [|g]; [lia|]. cbn [contents] in *.
  destruct (nth_error h l) as [n|]; auto. destruct (nd_type n); auto.
  - match type of C with ?f1 _ _ = _ => match goal with |- ?f2 _ _ = _ => enough (G : forall ps acc, f1 ps acc = Ok t -> f2 ps acc = Ok t) by exact (G _ _ C) end end.
    clear C. induction ps as [|[p|] ps IHp]; intros acc C; auto.
    destruct (contents f h p) as [u| | |] eqn:E; try discriminate. rewrite (IH h p u g E) by lia. exact (IHp _ C).
  - match type of C with ?f1 _ _ = _ => match goal with |- ?f2 _ _ = _ => enough (G : forall ps acc, f1 ps acc = Ok t -> f2 ps acc = Ok t) by exact (G _ _ C) end end.
    clear C. induction ps as [|[k [p|]] ps IHp]; intros acc C; auto.
    destruct (contents f h p) as [u| | |] eqn:E; try discriminate. rewrite (IH h p u g E) by lia. exact (IHp _ C).
Qed.

(** ** One call *)

Lemma okeys_lookup {V} k (m : omap V) : ~ In k (okeys m) <-> olookup k m = None.
Proof. rewrite olookup_some_iff_key. destruct (olookup k m); split; congruence || auto. intros H. exfalso. apply H. discriminate. Qed.

Lemma okeys_replace {V} k (v w : V) (m : omap V) : olookup k m = Some w -> forall x, In x (okeys (oinsert k v m)) <-> In x (okeys m).
Proof.
  intros L x. rewrite okeys_insert_in. split; auto. intros [->|]; auto. apply olookup_some_iff_key. congruence.
Qed.

Section Call.
  Variables (slot : bool) (plug : nat -> created * option exc).

  Lemma call_ok ty conf a : ready (ap_pm a) ->
    exists a' r e, instantiate_plugin slot plug ty conf a = (a', r) /\ ap_trace a' = ap_trace a ++ e /\ ap_calls a' = S (ap_calls a) /\
      did (ap_pm a) ((ty, conf), r) e /\ (r = Ok tt \/ exists x, r = Throw x) /\
      ready (ap_pm a') /\ (forall x, In x (okeys (pm_templates (ap_pm a'))) <-> In x (okeys (pm_templates (ap_pm a)))).
  Proof.
    intros ((tr & R) & b & kids & Bs & K). unfold instantiate_plugin.
    destruct (instantiate_template slot ty None conf (fst (plug (ap_calls a))) (ap_pm a)) as [[pm' e] r] eqn:E.
    assert (r <> UB -> exists tr', reached pm' tr') as R'.
    { intros NU. exists (tr ++ e). eapply (reached_step _ _ (PInstantiate slot ty None conf (fst (plug (ap_calls a)))) pm' e (res_map PInst r)); eauto.
      - cbn [pstep]. now rewrite E.
      - destruct r; try discriminate. congruence. }
    destruct (olookup ty (pm_templates (ap_pm a))) as [t|] eqn:L.
    2:{ unfold instantiate_template in E. rewrite L in E. injection E as <- <- <-. simpl. eexists _, _, []. split; [reflexivity|].
        split; [reflexivity|]. split; [reflexivity|]. split; [|split; [eauto|split; [split; [eauto|eauto]|tauto]]].
        split; [auto|]. split; [discriminate|]. intros _ i []. }
    assert (In ty (okeys (pm_templates (ap_pm a)))) as Ik by (apply olookup_some_iff_key; congruence).
    destruct (instantiate_cases _ _ slot ty None conf (fst (plug (ap_calls a))) t (reached_inv _ _ R) L) as (k & Lo & [(_ & NP)|(p & kids' & P & K' & D)]).
    { exfalso. eapply NP; [right; eauto|eauto]. }
    rewrite E in D. destruct P as [P|(_ & P)]; [discriminate|]. rewrite Bs in P. injection P as <-.
    assert (kids' = kids) as -> by (unfold children in *; congruence).
    assert (b < length (pm_buses (ap_pm a))) as Lb by (apply nth_error_Some; unfold children in K; congruence).
    destruct D as [(I & D)|(NI & D)].
    { injection D as -> -> ->. simpl. eexists _, _, []. split; [reflexivity|]. split; [reflexivity|]. split; [reflexivity|].
      split; [|split; [eauto|split; [split; [eauto|eauto]|tauto]]]. split; [tauto|]. split; [discriminate|]. intros _ i []. }
    destruct (plug (ap_calls a)) as [cr init]. simpl fst in *. simpl snd.
    set (add := fun (o : option inst) bs n => mkPm (pm_paths (ap_pm a)) (pm_bus (ap_pm a)) (oinsert ty (set_insts t (oinsert (ty ++ to_string k)%string o (tp_insts t))) (pm_templates (ap_pm a))) bs (pm_handles (ap_pm a)) n).
    assert (forall o bs n x, In x (okeys (pm_templates (add o bs n))) <-> In x (okeys (pm_templates (ap_pm a)))) as KA.
    { intros o bs n x. unfold add. cbn [pm_templates]. eapply okeys_replace; eauto. }
    assert (children' : forall l, nth_error (list_set b (kids ++ [(ty ++ to_string k)%string]) (pm_buses (ap_pm a)) ++ [l]) b = Some (kids ++ [(ty ++ to_string k)%string])).
    { intros l. rewrite nth_error_app1 by (now rewrite list_set_length). now apply list_set_eq. }
    destruct cr as [| |x].
    - cbn zeta in D. injection D as -> -> ->. fold (add (Some (mkInst (pm_insts (ap_pm a)) (ty ++ to_string k) (length (pm_buses (ap_pm a))) conf)) (list_set b (kids ++ [(ty ++ to_string k)%string]) (pm_buses (ap_pm a)) ++ [[]]) (S (pm_insts (ap_pm a)))) in *.
      cbn [map]. destruct init as [ex|].
      + eexists _, _, _. split; [reflexivity|]. split; [cbn [emit ap_trace]; rewrite <- app_assoc; reflexivity|]. split; [reflexivity|].
        split; [|split; [eauto|split; [split; [apply R'; discriminate|exists b; eexists; split; [exact Bs|apply children']]|apply KA]]].
        split; [tauto|]. split; [discriminate|]. intros _ i H. simpl in H. intuition discriminate.
      + eexists _, _, _. split; [reflexivity|]. split; [cbn [emit ap_trace]; rewrite <- !app_assoc; reflexivity|]. split; [reflexivity|].
        split; [|split; [eauto|split; [split; [apply R'; discriminate|exists b; eexists; split; [exact Bs|apply children']]|apply KA]]].
        split; [tauto|]. split; [|congruence]. intros _. exists b, (length (pm_buses (ap_pm a))), k, (pm_insts (ap_pm a)). reflexivity.
    - cbn zeta in D. injection D as -> -> ->. cbn [map].
      eexists _, _, _. split; [reflexivity|]. split; [reflexivity|]. split; [reflexivity|].
      split; [|split; [eauto|split; [split; [apply R'; discriminate|exists b; eexists; split; [exact Bs|apply children']]|apply (KA None)]]].
      split; [tauto|]. split; [discriminate|]. intros _ i H. simpl in H. intuition discriminate.
    - cbn zeta in D. injection D as Ep -> ->. cbn [map].
      eexists _, _, _. split; [reflexivity|]. split; [reflexivity|]. split; [reflexivity|].
      split; [split; [tauto|]; split; [discriminate|]; intros _ i H; simpl in H; intuition discriminate|].
      split; [eauto|]. cbn [ap_pm]. split.
      + split; [apply R'; discriminate|]. exists b. eexists. unfold children. destruct slot; subst pm'; cbn [pm_bus pm_buses]; (split; [exact Bs|apply children']).
      + destruct slot; subst pm'; [apply (KA None)|]. cbn [pm_templates]. tauto.
  Qed.
End Call.

(** ** The loop *)

Lemma skipn_nth {A} (l : list A) i x : nth_error l i = Some x -> skipn i l = x :: skipn (S i) l.
Proof. revert i. induction l as [|y l IH]; intros [|i] H; try discriminate; simpl in *; [injection H as ->; auto|]. rewrite (IH _ H). reflexivity. Qed.
Lemma skipn_set {A} (l : list A) i x : skipn (S i) (list_set i x l) = skipn (S i) l.
Proof. revert i. induction l as [|y l IH]; intros [|i]; auto. cbn [list_set]. rewrite !skipn_cons. apply IH. Qed.
Lemma list_set_same {A} (l : list A) i x : nth_error l i = Some x -> list_set i x l = l.
Proof. revert i. induction l as [|y l IH]; intros [|i] H; try discriminate; simpl in *; [injection H as ->; auto|]. now rewrite IH. Qed.

Lemma depth_conf t c : item_of t <> Bad -> (exists ty, item_of t = Want ty c) -> dg_depth c <= dg_depth t.
Proof.
  intros _ (ty & H). destruct t as [| | |kvs]; try discriminate. unfold item_of in H.
  destruct (olookup "type" kvs) as [[|[]| |]|]; try discriminate. injection H as _ <-.
  destruct (olookup "configuration" kvs) as [u|] eqn:E; [|simpl; lia].
  apply olookup_in in E. apply depth_dct_child in E. simpl in *. lia.
Qed.

Section Read.
  Variables (slot : bool) (plug : nat -> created * option exc) (tokener : string -> option json).
  Variables (sd : N -> string) (so : string -> string -> string) (fuel : nat).

  Lemma attempt_ok h ty conf t a : rep1 h conf t -> dg_depth t < fuel -> ready (ap_pm a) ->
    exists a' r0 e, attempt slot plug sd so fuel h ty conf a = (a', match r0 with Throw (OperationFailed _) => Ok tt | _ => r0 end) /\
      ap_trace a' = ap_trace a ++ whole sd so (((ty, t), r0), e) /\ did (ap_pm a) ((ty, t), r0) e /\
      (r0 = Ok tt \/ exists x, r0 = Throw x) /\ ready (ap_pm a') /\
      (forall x, In x (okeys (pm_templates (ap_pm a'))) <-> In x (okeys (pm_templates (ap_pm a)))).
  Proof.
    intros (F & O & N) D Rd. unfold attempt. rewrite (contents_ok t fuel h conf F D O).
    destruct (call_ok slot plug ty t a Rd) as (a1 & r & e & -> & T & _ & Di & Rr & Rd' & K).
    assert (forall l, ap_trace (emit l (emit [AeCall ty t r] a1)) = ap_trace a ++ e ++ AeCall ty t r :: l) as TT.
    { intros l. unfold emit. cbn [ap_trace]. rewrite T, <- !app_assoc. reflexivity. }
    exists (match r with Throw (OperationFailed what) => emit [AeError what (render sd so t)] (emit [AeCall ty t r] a1) | _ => emit [AeCall ty t r] a1 end), r, e.
    split; [|split; [|split; [|split; [|split]]]]; auto.
    - destruct Rr as [->|(x & ->)]; [reflexivity|]. destruct x; try reflexivity. now rewrite (raw_print_ok sd so t fuel h conf F D O).
    - unfold whole, error_lines. cbn [fst snd]. specialize (TT []) as T0. unfold emit at 1 in T0. cbn [ap_trace] in T0. rewrite app_nil_r in T0.
      destruct Rr as [->|(x & ->)]; [exact T0|]. destruct x; try exact T0. apply TT.
    - destruct Rr as [->|(x & ->)]; [exact Rd'|]. destruct x; exact Rd'.
    - destruct Rr as [->|(x & ->)]; [exact K|]. destruct x; exact K.
  Qed.

  Lemma did_weaken st st' c e : (forall x, In x (okeys (pm_templates st)) <-> In x (okeys (pm_templates st'))) -> did st c e -> did st' c e.
  Proof. destruct c as [[ty conf] r]. intros K (A & B & C). split; [|split]; auto. intros N. apply A. now rewrite K. Qed.

  (** What the loop leaves in the configuration: later items as they were. *)
  Lemma spec_has_type kvs ts i t : olookup "plugins" kvs = Some (Lst ts) -> nth_error ts i = Some t ->
    spec_at [SKey "plugins"; SIdx i] (spec_op (OExists "type")) (Dct kvs) =
    (Dct (oinsert "plugins" (Lst ts) kvs), snd (spec_op (OExists "type") t)).
  Proof. intros L N. cbn [spec_at kids_dict]. rewrite L. cbn [kids_list]. rewrite N. cbn [spec_op snd]. now rewrite list_set_same. Qed.

  Definition holds (h : heap) (config : loc) (ts : list dg) : Prop :=
    exists kvs, rep1 h config (Dct kvs) /\ olookup "plugins" kvs = Some (Lst ts).

  Lemma holds_has h config ts i t : holds h config ts -> nth_error ts i = Some t ->
    exists h', has_type config i h = (h', snd (spec_op (OExists "type") t)) /\ holds h' config ts.
  Proof.
    intros (kvs & R & L) N. destruct (at_sim [SKey "plugins"; SIdx i] (OExists "type") h config (Dct kvs) R) as (h' & E & R').
    rewrite (spec_has_type _ _ _ _ L N) in *. exists h'. split; [exact E|]. eexists. split; [exact R'|]. apply olookup_insert_eq'.
  Qed.

  Lemma holds_get h config ts i items v : holds h config ts -> nth_error ts i = Some (Dct items) -> olookup "type" items = Some v ->
    osorted items ->
    exists h', get_type config i h = (h', snd (spec_op (ORead TyStr) v)) /\ holds h' config ts.
  Proof.
    intros (kvs & R & L) N V S. destruct (at_sim [SKey "plugins"; SIdx i; SKey "type"] (ORead TyStr) h config (Dct kvs) R) as (h' & E & R').
    assert (spec_at [SKey "plugins"; SIdx i; SKey "type"] (spec_op (ORead TyStr)) (Dct kvs) =
      (Dct (oinsert "plugins" (Lst ts) kvs), snd (spec_op (ORead TyStr) v))) as X.
    { cbn [spec_at kids_dict]. rewrite L. cbn [kids_list]. rewrite N. cbn [kids_dict]. rewrite V. cbn [spec_op snd fst].
      rewrite (oinsert_lookup_id _ _ _ S V). cbn [fst snd]. rewrite (list_set_same _ _ _ N). destruct v; reflexivity. }
    rewrite X in *. exists h'. split; [exact E|]. eexists. split; [exact R'|]. apply olookup_insert_eq'.
  Qed.

  Lemma holds_conf h config ts i items : holds h config ts -> nth_error ts i = Some (Dct items) ->
    let u := match olookup "configuration" items with Some c => c | None => Emp end in
    dg_depth u < fuel ->
    exists h' conf, get_configuration fuel config i h = (h', Ok conf) /\
      holds h' config (list_set i (Dct (oinsert "configuration" u items)) ts) /\ rep1 h' conf u.
  Proof.
    intros (kvs & R & L) N u D. destruct (conf_sim fuel config i h (Dct kvs) (Dct (oinsert "plugins" (Lst (list_set i (Dct (oinsert "configuration" u items)) ts)) kvs)) u R) as (h' & conf & E & R1 & R2); auto.
    - unfold spec_focus. cbn [spec_at kids_dict]. rewrite L. cbn [kids_list]. rewrite N. reflexivity.
    - exists h', conf. split; auto. split; auto. eexists. split; [exact R1|]. apply olookup_insert_eq'.
  Qed.

  Lemma holds_sorted h config ts i items : holds h config ts -> nth_error ts i = Some (Dct items) -> osorted items.
  Proof.
    intros (kvs & (F & O & _) & L) N. apply own_wf in O. inversion O as [| | |? S W]; subst. rewrite Forall_forall in W.
    apply olookup_in in L. apply W in L. simpl in L. inversion L as [| |? W'|]; subst. rewrite Forall_forall in W'.
    apply nth_error_In in N. apply W' in N. inversion N; auto.
  Qed.

  Lemma read_items_ok config todo : forall i ts h a, holds h config ts -> length ts = i + todo ->
    (forall t, In t (skipn i ts) -> dg_depth t < fuel) -> ready (ap_pm a) ->
    exists h' a' r bs, read_items slot plug sd so fuel config i todo h a = (h', a', r) /\
      ap_trace a' = ap_trace a ++ concat (map (whole sd so) bs) /\ ran (map item_of (skipn i ts)) (map fst bs) r /\
      Forall (fun b => did (ap_pm a) (fst b) (snd b)) bs /\ ready (ap_pm a') /\
      (forall x, In x (okeys (pm_templates (ap_pm a'))) <-> In x (okeys (pm_templates (ap_pm a)))) /\
      (r = Ok tt \/ exists x, r = Throw x).
  Proof.
    induction todo as [|todo IH]; intros i ts h a H Ln D Rd.
    - exists h, a, (Ok tt), []. rewrite skipn_all2 by lia. simpl. rewrite app_nil_r. repeat split; auto; try apply Rd. constructor.
    - destruct (nth_error ts i) as [t|] eqn:N; [|apply nth_error_None in N; lia].
      rewrite (skipn_nth _ _ _ N) in *. cbn [map read_items].
      destruct (holds_has h config ts i t H N) as (h1 & -> & H1).
      assert (skipped : item_of t = Skip -> exists h' a' r bs, read_items slot plug sd so fuel config (S i) todo h1 a = (h', a', r) /\
        ap_trace a' = ap_trace a ++ concat (map (whole sd so) bs) /\ ran (item_of t :: map item_of (skipn (S i) ts)) (map fst bs) r /\
        Forall (fun b => did (ap_pm a) (fst b) (snd b)) bs /\ ready (ap_pm a') /\
        (forall x, In x (okeys (pm_templates (ap_pm a'))) <-> In x (okeys (pm_templates (ap_pm a)))) /\ (r = Ok tt \/ exists x, r = Throw x)).
      { intros Sk. destruct (IH (S i) ts h1 a H1) as (h' & a' & r & bs & E & T & R & Fd & Rd' & K & Rr); auto; [lia|intros; apply D; simpl; auto|].
        exists h', a', r, bs. rewrite Sk. split; [exact E|]. split; [exact T|]. split; [now constructor|]. auto. }
      destruct t as [|d|l|items]; try (apply skipped; reflexivity).
      cbn [spec_op snd]. destruct (olookup "type" items) as [v|] eqn:V; [|apply skipped; cbn [item_of]; now rewrite V].
      clear skipped. pose proof (holds_sorted _ _ _ _ _ H1 N) as St.
      destruct (holds_get h1 config ts i items v H1 N V St) as (h2 & -> & H2).
      assert (refused : (forall ty, v <> Val (DStr ty)) -> item_of (Dct items) = Bad /\ snd (spec_op (ORead TyStr) v) = Throw InvalidOperation).
      { intros Nv. cbn [item_of spec_op snd]. rewrite V. destruct v as [|[]| |]; auto. exfalso. eapply Nv; eauto. }
      assert ((exists ty, v = Val (DStr ty)) \/ (forall ty, v <> Val (DStr ty))) as [(ty & ->)|Nv].
      { destruct v as [|[]| |]; try (right; intros; discriminate). left. eauto. }
      2:{ destruct (refused Nv) as (Hb & ->). rewrite Hb. exists h2, a, (Throw InvalidOperation), []. split; [reflexivity|]. simpl. rewrite app_nil_r.
          repeat split; auto; try apply Rd; eauto. constructor. }
      clear refused. cbn [spec_op snd data_ty vty_eqb].
      set (u := match olookup "configuration" items with Some c => c | None => Emp end).
      assert (item_of (Dct items) = Want ty u) as Wu by (cbn [item_of]; rewrite V; reflexivity).
      assert (dg_depth u < fuel) as Du.
      { eapply Nat.le_lt_trans; [apply (depth_conf (Dct items)); [congruence|eauto]|]. apply D. simpl; auto. }
      destruct (holds_conf h2 config ts i items H2 N Du) as (h3 & conf & -> & H3 & Rc). fold u in H3.
      destruct (attempt_ok h3 ty conf u a Rc Du Rd) as (a1 & r0 & e & -> & T1 & Di & Rr0 & Rd1 & K1). rewrite Wu.
      assert (contained r0 \/ ~ contained r0) as [Co|Nc].
      { unfold contained. destruct Rr0 as [->|(x & ->)]; [auto|]. destruct x; try (right; intros [?|(w & ?)]; discriminate). left; eauto. }
      + replace (match r0 with Throw (OperationFailed _) => Ok tt | _ => r0 end) with (@Ok unit tt) by (destruct Co as [->|(w & ->)]; reflexivity).
        destruct (IH (S i) _ h3 a1 H3) as (h' & a' & r & bs & E & T & R & Fd & Rd' & K & Rr); auto.
        { rewrite list_set_length. lia. }
        { rewrite skipn_set. intros. apply D; simpl; auto. }
        rewrite skipn_set in R. exists h', a', r, ((((ty, u), r0), e) :: bs). split; [exact E|]. cbn [map concat fst].
        split; [rewrite T, T1, <- app_assoc; reflexivity|]. split; [now constructor|]. split; [|split; [auto|split; [|auto]]].
        * constructor; [exact Di|]. eapply Forall_impl; [|exact Fd]. intros b. apply did_weaken. intros x. now rewrite K1.
        * intros x. now rewrite K, K1.
      + exists h3, a1, r0, [(((ty, u), r0), e)]. split.
        { destruct Rr0 as [->|(x & ->)]; [exfalso; apply Nc; left; auto|]. destruct x; try reflexivity. exfalso. apply Nc. right. eauto. }
        cbn [map concat fst]. rewrite app_nil_r. split; [exact T1|]. split; [now constructor|]. split; [now constructor|]. auto.
  Qed.

  Lemma small_count n : (n < 2 ^ 31)%N -> Z.to_nat (to_int (N.modulo n (2 ^ 32))) = N.to_nat n.
  Proof.
    intros L. assert (n < 2 ^ 32)%N as L2 by (eapply N.lt_trans; [exact L|reflexivity]).
    rewrite N.mod_small by exact L2. unfold to_int. apply N.ltb_lt in L. rewrite L. apply N2Z.id || (rewrite <- N_nat_Z; apply Nat2Z.id).
  Qed.

  Lemma read_config_ok config h t a : rep1 h config t -> dg_depth t < fuel -> countable t -> ready (ap_pm a) ->
    exists h' a' r bs, read_config slot plug sd so fuel config h a = (h', a', r) /\
      ap_trace a' = ap_trace a ++ concat (map (whole sd so) bs) /\
      match doc_of t with
      | Nothing => bs = [] /\ r = Ok tt /\ a' = a
      | Wrong => bs = [] /\ (exists x, r = Throw x) /\ a' = a
      | Items l => ran l (map fst bs) r
      end /\
      Forall (fun b => did (ap_pm a) (fst b) (snd b)) bs /\ ready (ap_pm a') /\
      (forall x, In x (okeys (pm_templates (ap_pm a'))) <-> In x (okeys (pm_templates (ap_pm a)))) /\
      (r = Ok tt \/ exists x, r = Throw x).
  Proof.
    intros R D Ct Rd. unfold read_config.
    destruct (op_sim1 (OExists "plugins") h config t R) as (h1 & -> & R1). cbn [spec_op fst snd] in R1 |- *.
    assert (quiet : forall (h0 : heap) (r : res unit), (exists h' a' r' (bs : list (call * list aevent)), (h0, a, r) = (h', a', r') /\
      ap_trace a' = ap_trace a ++ concat (map (whole sd so) bs) /\ (bs = [] /\ r' = r /\ a' = a) /\
      Forall (fun b => did (ap_pm a) (fst b) (snd b)) bs /\ ready (ap_pm a') /\
      (forall x, In x (okeys (pm_templates (ap_pm a'))) <-> In x (okeys (pm_templates (ap_pm a)))))).
    { intros h0 r. exists h0, a, r, []. simpl. rewrite app_nil_r. split; [reflexivity|]. split; [reflexivity|]. repeat split; auto; apply Rd. }
    Ltac finish' q h0 r0 := let h' := fresh in let a' := fresh in let r := fresh in let bs := fresh in let E := fresh in
      let T := fresh in let B := fresh in let Er := fresh in let Ea := fresh in let F := fresh in let G := fresh in let K := fresh in
      destruct (q h0 r0) as (h' & a' & r & bs & E & T & (B & Er & Ea) & F & G & K); exists h', a', r, bs; subst r;
      split; [exact E|]; split; [exact T|]; split; [first [exact (conj B (conj eq_refl Ea)) | split; [exact B|split; [eexists; reflexivity|exact Ea]]]|]; split; [exact F|];
      split; [exact G|]; split; [exact K|]; first [left; reflexivity | right; eexists; reflexivity].
    Ltac finish h0 r0 := match goal with q : forall (_ : heap) (_ : res unit), _ |- _ => finish' q h0 r0 end.
    destruct t as [|d|l|kvs]; try (finish h1 (@Ok unit tt)).
    cbn [doc_of]. destruct (olookup "plugins" kvs) as [v|] eqn:L.
    2:{ finish h1 (@Ok unit tt). }
    destruct (at_sim [SKey "plugins"] OCount h1 config (Dct kvs) R1) as (h2 & Ec & R2). rewrite Ec. clear Ec.
    cbn [spec_at kids_dict] in *. rewrite L in *. cbn [spec_op spec_count fst snd] in *.
    assert (oinsert "plugins" v kvs = kvs) as Ei.
    { destruct R1 as (F1 & O1 & _). apply own_wf in O1. inversion O1; subst. now apply oinsert_lookup_id. }
    destruct v as [|d|ts|m].
    - finish h2 (@Throw unit InvalidOperation).
    - finish h2 (@Throw unit InvalidOperation).
    - unfold countable in Ct. rewrite L in Ct. cbn [fst snd spec_count] in *. rewrite (small_count _ Ct), Nat2N.id.
      assert (holds h2 config ts) as H by (eexists; split; [exact R2|apply olookup_insert_eq']).
      destruct (read_items_ok config (length ts) 0 ts h2 a H eq_refl) as (h' & a' & r & bs & E & T & Rn & F & G & K & Rr); auto.
      { simpl. intros t It. apply depth_lst_child in It. apply olookup_in in L. apply depth_dct_child in L. simpl in *. lia. }
      exists h', a', r, bs. split; [exact E|]. split; [exact T|]. split; [exact Rn|]. auto.
    - unfold countable in Ct. rewrite L in Ct. cbn [fst snd spec_count] in *. rewrite (small_count _ Ct), Nat2N.id.
      destruct m as [|p m]; cbn [length read_items].
      + finish h2 (@Ok unit tt).
      + destruct (at_sim [SKey "plugins"; SIdx 0] (OExists "type") h2 config _ R2) as (h3 & E3 & R3).
        unfold has_type. rewrite E3. cbn [spec_at kids_dict]. rewrite olookup_insert_eq'. cbn [kids_list nth_error fst snd res_bind].
        finish h3 (@Throw unit (IndexOutOfBounds 0)).
  Qed.

  Lemma read_file_ok text h a t : file_means tokener text t -> (forall j, tokener text = Some j -> ~ bad_key j) ->
    dg_depth t < fuel -> countable t -> ready (ap_pm a) ->
    exists h' a' r bs, read_file slot plug tokener sd so fuel text h a = (h', a', r) /\
      ap_trace a' = ap_trace a ++ concat (map (whole sd so) bs) /\
      match doc_of t with
      | Nothing => bs = [] /\ r = Ok tt /\ a' = a
      | Wrong => bs = [] /\ (exists x, r = Throw x) /\ a' = a
      | Items l => ran l (map fst bs) r
      end /\
      Forall (fun b => did (ap_pm a) (fst b) (snd b)) bs /\ ready (ap_pm a') /\
      (forall x, In x (okeys (pm_templates (ap_pm a'))) <-> In x (okeys (pm_templates (ap_pm a)))) /\
      (r = Ok tt \/ exists x, r = Throw x).
  Proof.
    intros Fm Hb D Ct Rd. unfold read_file.
    assert (K : makes (raw_from_json tokener text) t).
    { unfold raw_from_json, file_means in *. destruct (tokener text) as [j|].
      - destruct (parse_json_ok j (Hb j eq_refl)) as (u & J & Fl). rewrite (json_means_fun _ _ _ Fm J). apply makes_fill. exact Fl.
      - subst t. apply (makes_fill (fun _ => ret tt)). intros. now apply fill_none. }
    destruct (K h) as (h1 & l & F & -> & _ & O & N & _). apply read_config_ok with (t := t); auto. exists F. auto.
  Qed.

  Lemma read_files_ok texts : forall ts h a, Forall2 (file_means tokener) texts ts ->
    (forall text j, In text texts -> tokener text = Some j -> ~ bad_key j) ->
    Forall (fun t => dg_depth t < fuel /\ countable t) ts -> ready (ap_pm a) ->
    exists h' a' r bs, read_files slot plug tokener sd so fuel texts h a = (h', a', r) /\
      ap_trace a' = ap_trace a ++ concat (map (whole sd so) bs) /\ ran_all (map doc_of ts) (map fst bs) r /\
      Forall (fun b => did (ap_pm a) (fst b) (snd b)) bs /\ ready (ap_pm a') /\ (r = Ok tt \/ exists x, r = Throw x).
  Proof.
    induction texts as [|text texts IH]; intros ts h a F2 Hb Fd Rd; inversion F2 as [|? t ? ts' Ft Fts]; subst; cbn [read_files map].
    - exists h, a, (Ok tt), []. simpl. rewrite app_nil_r. repeat split; auto; try apply Rd. constructor.
    - inversion Fd as [|? ? (D & C) Fd']; subst.
      destruct (read_file_ok text h a t Ft) as (h1 & a1 & r1 & bs1 & -> & T1 & M1 & F1 & R1 & K1 & Rr1); auto; [intros j; apply Hb; simpl; auto|].
      destruct Rr1 as [->|(x & ->)].
      + destruct (IH ts' h1 a1) as (h2 & a2 & r2 & bs2 & E2 & T2 & M2 & F2' & R2 & Rr2); auto; [intros; eapply Hb; simpl; eauto|].
        exists h2, a2, r2, (bs1 ++ bs2). split; [exact E2|]. split; [rewrite T2, T1, map_app, concat_app, <- app_assoc; reflexivity|].
        split; [|split; [|auto]].
        * rewrite map_app. destruct (doc_of t) as [| |l].
          -- destruct M1 as (-> & _). now constructor.
          -- destruct M1 as (_ & (x & ?) & _). discriminate.
          -- now constructor.
        * apply Forall_app. split; auto. eapply Forall_impl; [|exact F2']. intros b. apply did_weaken. intros x. now rewrite K1.
      + exists h1, a1, (Throw x), bs1. split; [reflexivity|]. split; [exact T1|]. split; [|split; [exact F1|split; [exact R1|eauto]]].
        destruct (doc_of t) as [| |l].
        * destruct M1 as (_ & ? & _). discriminate.
        * destruct M1 as (-> & _). constructor.
        * now constructor.
  Qed.
End Read.

(** Refinement of whole statements and programs. *)
From Coq Require Import String Ascii List Arith ZArith NArith Bool Lia Sorting.
From Verif Require Import Prelude OMap DatagramModel DatagramSpec DatagramHeap DatagramProofs DatagramEq DatagramStmt DatagramRefine.
Import ListNotations.
Open Scope list_scope.

(** The client's variables hold the trees [vs], with no node shared between or
    within them. *)
Definition rep_state (st : cstate) (vs : list dg) : Prop :=
  exists F, owns (fst st) (map Some (snd st)) vs F /\ NoDup F.

Lemma owns_nth h env vs F v l :
  owns h (map Some env) vs F -> nth_error env v = Some l ->
  exists t Fa Fc Fb, nth_error vs v = Some t /\ F = Fa ++ Fc ++ Fb /\ own h l t Fc /\
    forall h' t' Fc', own h' l t' Fc' ->
      (forall x, In x Fa \/ In x Fb -> nth_error h' x = nth_error h x) ->
      owns h' (map Some env) (list_set v t' vs) (Fa ++ Fc' ++ Fb).
Proof.
  revert vs F v. induction env as [|e env IH]; intros vs F [|v] HO Hv; try discriminate.
  - injection Hv as ->. inversion HO as [|? ? t ts F1 F2 H1 H2]; subst.
    exists t, [], F1, F2. simpl. repeat split; auto.
    intros h' t' Fc' Ht Hf. constructor; auto. eapply owns_frame; eauto.
  - simpl in HO. inversion HO as [|? ? t ts F1 F2 H1 H2]; subst. simpl in Hv.
    destruct (IH _ _ _ H2 Hv) as (t' & Fa & Fc & Fb & E & -> & Ho & Hp).
    exists t', (F1 ++ Fa), Fc, Fb. simpl. repeat split; auto.
    + now rewrite <- app_assoc.
    + intros h' u Fc' Hu Hf. rewrite <- app_assoc. constructor.
      * eapply own_frame; eauto. intros x Hx. apply Hf. left. apply in_app_iff; auto.
      * apply Hp; auto. intros x Hx. apply Hf. rewrite in_app_iff. tauto.
Qed.

Lemma owns_nth_none h env vs F v :
  owns h (map Some env) vs F -> nth_error env v = None -> nth_error vs v = None.
Proof.
  intros HO H. apply nth_error_None. apply nth_error_None in H.
  rewrite <- (owns_length _ _ _ _ HO), map_length. auto.
Qed.

Lemma replace_mid h h' (Fa Fc Fb Fc' : list loc) :
  NoDup (Fa ++ Fc ++ Fb) -> NoDup Fc' -> step_ok h h' Fc Fc' ->
  (forall x, In x (Fa ++ Fc ++ Fb) -> x < length h) ->
  NoDup (Fa ++ Fc' ++ Fb) /\ (forall x, In x Fa \/ In x Fb -> nth_error h' x = nth_error h x) /\
  step_ok h h' (Fa ++ Fc ++ Fb) (Fa ++ Fc' ++ Fb).
Proof.
  intros HN HN' S V.
  destruct (NoDup_app_inv _ _ HN) as (HNa & HNd' & Dac). destruct (NoDup_app_inv _ _ HNd') as (HNc & HNb & Dcb).
  assert (A : forall x, In x Fc' -> ~ In x Fa /\ ~ In x Fb).
  { intros x Hx. apply (so_foot _ _ _ _ S) in Hx. split; intros Hi; destruct Hx as [Hx|Hx].
    - apply (Dac x Hi), in_app_iff; auto.
    - assert (x < length h) by (apply V; rewrite in_mid; auto). lia.
    - apply (Dcb x Hx Hi).
    - assert (x < length h) by (apply V; rewrite in_mid; auto). lia. }
  repeat split.
  - apply NoDup_app_intro; auto.
    + apply NoDup_app_intro; auto. intros x Hx. now apply A.
    + intros x Hx Hi. apply in_app_iff in Hi. destruct Hi as [Hi|Hi].
      * destruct (A x Hi); auto.
      * apply (Dac x Hx), in_app_iff; auto.
  - intros x Hx. apply (so_frame _ _ _ _ S).
    + apply V. rewrite in_mid. tauto.
    + intros Hi. destruct Hx as [Hx|Hx]; [apply (Dac x Hx), in_app_iff; auto|apply (Dcb x Hi Hx)].
  - apply (so_len _ _ _ _ S).
  - intros x Hx Hi. apply (so_frame _ _ _ _ S); auto. intros Hc. apply Hi. rewrite in_mid; auto.
  - intros x Hx. rewrite in_mid in *. destruct Hx as [Hx|[Hx|Hx]]; auto.
    apply (so_foot _ _ _ _ S) in Hx. destruct Hx; auto.
Qed.

Lemma rep_new h env vs n t :
  rep_state (h, env) vs -> own (h ++ [n]) (length h) t [length h] ->
  rep_state (h ++ [n], env ++ [length h]) (vs ++ [t]).
Proof.
  intros (F & HO & HN) Ho. exists (F ++ [length h]). simpl in *. split.
  - rewrite map_app. simpl. apply owns_app; [|now apply owns_one].
    eapply owns_frame; eauto. intros x Hx. apply nth_error_app1.
    pose proof (owns_valid _ _ _ _ HO) as V. rewrite Forall_forall in V. auto.
  - apply NoDup_app_intro; auto.
    + repeat constructor; auto.
    + intros x Hx [<-|[]]. pose proof (owns_valid _ _ _ _ HO) as V. rewrite Forall_forall in V.
      apply V in Hx. lia.
Qed.

(** Moving the contents of a node to another location. *)
Lemma own_move h c t F d n0 :
  own h c t F -> nth_error h d = Some n0 -> ~ In d F ->
  exists n, nth_error h c = Some n /\ own (list_set d n h) d t (d :: tl F).
Proof.
  intros HO Hd HdF.
  inversion HO as [? Hn|? v Hn|? ps ts F0 Hn HOs|? m kvs F0 Hn Hs Hk HOs]; subst; simpl in *;
    eexists; (split; [exact Hn|]).
  - constructor. eapply nth_set_eq; eauto.
  - constructor. eapply nth_set_eq; eauto.
  - econstructor; [eapply nth_set_eq; eauto|].
    eapply owns_frame; eauto. intros x Hx. apply list_set_ne. intros ->. auto.
  - econstructor; eauto; [eapply nth_set_eq; eauto|].
    eapply owns_frame; eauto. intros x Hx. apply list_set_ne. intros ->. auto.
Qed.

Lemma dg_assign_own f h d td Fd s ts Fs :
  own h d td Fd -> own h s ts Fs -> dg_depth ts < f ->
  exists h' F', dg_assign f d s h = (h', Ok tt) /\ own h' d ts F' /\ NoDup F' /\ step_ok h h' Fd F'.
Proof.
  intros Hd Hs Hf.
  destruct (raw_copy_ok ts f h s Fs Hs Hf) as (h1 & c & F1 & E1 & X1 & O1 & N1 & G1).
  unfold dg_assign. rewrite (bind_ok _ _ _ _ _ E1).
  destruct (own_node _ _ _ _ Hd) as (nd & Hnd & _).
  pose proof (nth_lt _ _ _ Hnd) as Hdl.
  rewrite Forall_forall in G1.
  assert (HdF : ~ In d F1) by (intros Hi; apply G1 in Hi; lia).
  assert (Hnd1 : nth_error h1 d = Some nd) by (destruct X1 as [_ X1]; rewrite X1; auto).
  destruct (own_move _ _ _ _ _ _ O1 Hnd1 HdF) as (n & Hn & O2).
  rewrite (raw_assign_eq _ _ _ _ _ Hnd1 Hn).
  eexists _, _. split; [reflexivity|]. split; [exact O2|].
  destruct (own_head _ _ _ _ O1) as (F1' & ->). simpl in *.
  inversion N1; subst. pose proof (own_in_head _ _ _ _ Hd) as HdFd.
  split; [constructor; auto|]. destruct X1 as [L1 X1]. constructor.
  - rewrite list_set_length. auto.
  - intros x Hx HxF. rewrite list_set_ne by (intros ->; auto). auto.
  - intros x [<-|Hx]; auto.
Qed.

Lemma dg_copy_ctor_own f h s ts Fs :
  own h s ts Fs -> dg_depth ts < f ->
  exists h' F', dg_copy_ctor f s h = (h', Ok (length h)) /\ own h' (length h) ts F' /\ NoDup F' /\
    extends h h' /\ Forall (fun x => length h <= x) F'.
Proof.
  intros Hs Hf. unfold dg_copy_ctor.
  rewrite (bind_ok _ _ _ _ _ (raw_new_eq h)).
  set (h0 := h ++ [empty_node]).
  assert (Hs0 : own h0 s ts Fs) by (eapply own_extends; eauto using extends_app).
  assert (Hd : own h0 (length h) Emp [length h]) by (constructor; apply nth_error_app_new).
  destruct (dg_assign_own f h0 (length h) Emp [length h] s ts Fs Hd Hs0 Hf) as (h1 & F1 & E1 & O1 & N1 & S1).
  unfold dg_assign in E1. exists h1, F1.
  assert (E2 : (c <- raw_copy f s;; raw_assign (length h) c;;; ret (length h)) h0 = (h1, Ok (length h))).
  { unfold bind in E1 |- *. destruct (raw_copy f s h0) as [hh [c| | |]]; try discriminate.
    now rewrite E1. }
  split; [exact E2|]. split; [auto|]. split; [auto|]. split.
  - split.
    + pose proof (so_len _ _ _ _ S1). unfold h0 in *. rewrite app_length in *. lia.
    + intros x Hx. rewrite (so_frame _ _ _ _ S1).
      * apply nth_error_app1; auto.
      * unfold h0. rewrite app_length. lia.
      * intros [<-|[]]. lia.
  - apply Forall_forall. intros x Hx. apply (so_foot _ _ _ _ S1) in Hx.
    destruct Hx as [[<-|[]]|Hx]; auto. unfold h0 in Hx. rewrite app_length in Hx. lia.
Qed.

Fixpoint max_depth (vs : list dg) : nat :=
  match vs with [] => 0 | t :: vs' => Nat.max (dg_depth t) (max_depth vs') end.

Lemma max_depth_nth vs v t : nth_error vs v = Some t -> dg_depth t <= max_depth vs.
Proof.
  revert v; induction vs as [|u vs IH]; intros [|v] H; try discriminate; simpl in *.
  - injection H as ->. lia.
  - apply IH in H. lia.
Qed.

Lemma with_handle_some env s h k l : nth_error env s = Some l -> with_handle env s h k = k l.
Proof. unfold with_handle. now intros ->. Qed.
Lemma with_handle_none env s h k : nth_error env s = None -> with_handle env s h k = ((h, env), Ok RBadHandle).
Proof. unfold with_handle. now intros ->. Qed.

(** A focused update [v[p] <- f(w, .)] on the heap, shared by the two statements. *)
Lemma from_sim (f : dg -> dg -> dg) (m : loc -> loc -> M unit) N :
  (forall h d td Fd s ts Fs, own h d td Fd -> NoDup Fd -> own h s ts Fs -> dg_depth ts < N ->
     exists h' F', m d s h = (h', Ok tt) /\ own h' d (f ts td) F' /\ NoDup F' /\ step_ok h h' Fd F') ->
  forall v p w vs st,
    rep_state st vs ->
    max_depth (fst (on_var v vs (@Ok rv RBadHandle) (spec_at p (fun t => (t, Ok RUnit))))) < N ->
    exists st',
      (let (h, env) := st in
       with_handle env v h (fun l => with_handle env w h (fun lw =>
         with_res env unit_rv (c <- h_path p l ;; m c lw) h)))
      = (st', snd (spec_from v p w f vs)) /\ rep_state st' (fst (spec_from v p w f vs)).
Proof.
  intros Hm v p w vs [h env] HR HN. pose proof HR as (F & HO & ND). simpl fst in HO; simpl snd in HO.
  unfold spec_from.
  destruct (nth_error env v) as [l|] eqn:Ev.
  2:{ rewrite (with_handle_none _ _ _ _ Ev). rewrite (owns_nth_none _ _ _ _ _ HO Ev).
      exists (h, env). auto. }
  rewrite (with_handle_some _ _ _ _ _ Ev).
  destruct (owns_nth _ _ _ _ _ _ HO Ev) as (t & Fa & Fc & Fb & Et & EF & Hown & Hput).
  rewrite Et.
  destruct (nth_error env w) as [lw|] eqn:Ew.
  2:{ rewrite (with_handle_none _ _ _ _ Ew). rewrite (owns_nth_none _ _ _ _ _ HO Ew).
      exists (h, env). auto. }
  rewrite (with_handle_some _ _ _ _ _ Ew).
  destruct (owns_nth _ _ _ _ _ _ HO Ew) as (tw0 & _ & _ & _ & Etw & _).
  rewrite Etw.
  subst F.
  destruct (NoDup_app_inv _ _ ND) as (_ & ND' & _). destruct (NoDup_app_inv _ _ ND') as (NDc & _ & _).
  pose proof (owns_valid _ _ _ _ HO) as V. rewrite Forall_forall in V.
  destruct (path_focus p h l t Fc Hown NDc) as (h1 & F1 & O1 & ND1 & S1 & Hr).
  destruct (replace_mid _ _ _ _ _ _ ND ND1 S1 V) as (ND1' & Fr1 & S1').
  specialize (Hput h1 _ _ O1 Fr1) as HO1.
  unfold on_var in HN |- *. rewrite Et in HN |- *.
  pose proof (spec_at_focus p (fun t => (t, @Ok rv RUnit)) t) as HF.
  destruct (spec_focus p t) as [t1 r] eqn:Ef. simpl fst in O1, HO1; simpl snd in Hr.
  destruct r as [u|e| |]; try tauto.
  - destruct HF as [HF HFt]. rewrite HF in HN |- *. cbn [fst snd] in HN |- *. rewrite <- HFt in HN |- *.
    set (vs1 := list_set v t1 vs) in *.
    destruct Hr as (c & Ga & Gc & Gb & Ep & EG & Oc & Hplug).
    (* the source variable in the intermediate state *)
    destruct (owns_nth _ _ _ _ _ _ HO1 Ew) as (tw & Wa & Wc & Wb & Etw1 & EW & Hw & _).
    rewrite Etw1.
    assert (Hdw : dg_depth tw < N) by (pose proof (max_depth_nth _ _ _ Etw1); lia).
    subst F1. destruct (NoDup_app_inv _ _ ND1) as (_ & ND1a & _). destruct (NoDup_app_inv _ _ ND1a) as (NDGc & _ & _).
    destruct (Hm h1 c u Gc lw tw Wc Oc NDGc Hw Hdw) as (h2 & F2 & E2 & O2 & ND2 & S2).
    assert (V1 : forall x, In x (Fa ++ (Ga ++ Gc ++ Gb) ++ Fb) -> x < length h1).
    { pose proof (owns_valid _ _ _ _ HO1) as VV. rewrite Forall_forall in VV. auto. }
    assert (V1g : forall x, In x (Ga ++ Gc ++ Gb) -> x < length h1) by (intros; apply V1; rewrite in_mid; auto).
    destruct (replace_mid _ _ _ _ _ _ ND1 ND2 S2 V1g) as (NDg & Frg & Sg).
    specialize (Hplug h2 _ _ O2 Frg).
    destruct (replace_mid _ _ _ _ _ _ ND1' NDg Sg V1) as (NDall & Frall & Sall).
    assert (E12 : (c <- h_path p l;; m c lw) h = (h2, Ok tt)).
    { rewrite (bind_ok _ _ _ _ _ Ep). exact E2. }
    unfold with_res. rewrite E12. simpl res_map.
    assert (Hv1 : nth_error vs1 v = Some t1).
    { unfold vs1. eapply nth_set_eq; eauto. }
    unfold on_var. rewrite Hv1.
    assert (Ht1 : spec_at p (fun t => (f tw t, @Ok rv RUnit)) t1 = (spec_plug p (f tw u) t, Ok RUnit)).
    { replace t1 with (fst (spec_focus p t)) by (now rewrite Ef).
      rewrite (spec_at_again p _ t u) by (now rewrite Ef).
      pose proof (spec_at_focus p (fun t => (f tw t, @Ok rv RUnit)) t) as HF2.
      rewrite Ef in HF2. apply HF2. }
    rewrite Ht1. cbn [fst snd].
    eexists. split; [reflexivity|].
    exists (Fa ++ (Ga ++ F2 ++ Gb) ++ Fb). split; [|exact NDall]. cbn [fst snd].
    unfold vs1. rewrite list_set_set.
    apply Hput; auto. intros x Hx. rewrite Frall by auto. apply Fr1; auto.
  - rewrite HF in HN |- *. cbn [fst snd]. unfold with_res, bind. rewrite Hr. simpl res_map.
    eexists. split; [reflexivity|]. exists (Fa ++ F1 ++ Fb). auto.
Qed.

Lemma add_copy_own N : forall h d td Fd s ts Fs,
  own h d td Fd -> NoDup Fd -> own h s ts Fs -> dg_depth ts < N ->
  exists h' F', (c' <- raw_copy N s ;; raw_add d (Some c')) h = (h', Ok tt) /\
    own h' d (Lst (kids_list td ++ [ts])) F' /\ NoDup F' /\ step_ok h h' Fd F'.
Proof.
  intros h d td Fd s ts Fs Hd HNd Hs Hf.
  destruct (raw_copy_ok ts N h s Fs Hs Hf) as (h1 & c & F1 & E1 & X1 & O1 & N1 & G1).
  rewrite (bind_ok _ _ _ _ _ E1). rewrite Forall_forall in G1.
  pose proof (own_valid _ _ _ _ Hd) as V. rewrite Forall_forall in V.
  destruct (add_own h1 d td Fd c ts F1) as (h2 & F2 & E2 & O2 & N2 & L2 & Fr2 & Ft2); auto.
  { eapply own_extends; eauto. }
  { intros x Hx Hi. apply G1 in Hx. apply V in Hi. lia. }
  destruct X1 as [L1 X1].
  exists h2, F2. repeat split; auto.
  - lia.
  - intros x Hx HxF. rewrite Fr2; auto.
  - intros x Hx. apply Ft2 in Hx. destruct Hx; auto.
Qed.

Definition stmt_bound (s : stmt) (vs : list dg) : nat :=
  S (Nat.max (max_depth vs)
    (match s with
     | SAssign v p _ | SAddCopy v p _ =>
       max_depth (fst (on_var v vs (@Ok rv RBadHandle) (spec_at p (fun t => (t, Ok RUnit)))))
     | _ => 0
     end)).

Lemma stmt_sim s vs fuel st :
  stmt_bound s vs <= fuel -> rep_state st vs ->
  exists st', h_stmt fuel s st = (st', snd (spec_stmt s vs)) /\ rep_state st' (fst (spec_stmt s vs)).
Proof.
  intros Hf HR. unfold stmt_bound in Hf. destruct st as [h env]. pose proof HR as (F & HO & ND). cbn [fst snd] in HO.
  destruct s as [ty|v|w|v p o|v p w|v p w|v w].
  - simpl. unfold with_new, raw_new_type, alloc.
    eexists. split; [reflexivity|]. apply rep_new; auto.
    destruct ty; simpl.
    + constructor. apply nth_error_app_new.
    + eapply own_lst; [apply nth_error_app_new|constructor].
    + eapply own_dct; [apply nth_error_app_new|constructor|reflexivity|constructor].
    + constructor. apply nth_error_app_new.
  - simpl. unfold with_new, raw_new_val, alloc.
    eexists. split; [reflexivity|]. apply rep_new; auto. constructor. apply nth_error_app_new.
  - simpl h_stmt. simpl spec_stmt.
    destruct (nth_error env w) as [l|] eqn:Ew.
    2:{ rewrite (with_handle_none _ _ _ _ Ew). rewrite (owns_nth_none _ _ _ _ _ HO Ew). eexists; eauto. }
    rewrite (with_handle_some _ _ _ _ _ Ew).
    destruct (owns_nth _ _ _ _ _ _ HO Ew) as (t & Fa & Fc & Fb & Et & EF & Hown & _).
    rewrite Et. pose proof (max_depth_nth _ _ _ Et) as Hd.
    destruct (dg_copy_ctor_own fuel h l t Fc Hown) as (h' & F' & E' & O' & N' & X' & G'); [lia|].
    unfold with_new. rewrite E'. eexists. split; [reflexivity|].
    pose proof (owns_valid _ _ _ _ HO) as V. rewrite Forall_forall in V, G'.
    exists (F ++ F'). cbn [fst snd]. split.
    + rewrite map_app. simpl. apply owns_app; [|now apply owns_one].
      eapply owns_frame; eauto. intros x Hx. apply X'. auto.
    + apply NoDup_app_intro; auto. intros x Hx Hx'. apply V in Hx. apply G' in Hx'. lia.
  - simpl h_stmt. simpl spec_stmt. unfold on_var.
    destruct (nth_error env v) as [l|] eqn:Ev.
    2:{ rewrite (with_handle_none _ _ _ _ Ev). rewrite (owns_nth_none _ _ _ _ _ HO Ev). eexists; eauto. }
    rewrite (with_handle_some _ _ _ _ _ Ev).
    destruct (owns_nth _ _ _ _ _ _ HO Ev) as (t & Fa & Fc & Fb & Et & EF & Hown & Hput).
    rewrite Et. subst F.
    destruct (NoDup_app_inv _ _ ND) as (_ & ND' & _). destruct (NoDup_app_inv _ _ ND') as (NDc & _ & _).
    pose proof (owns_valid _ _ _ _ HO) as V. rewrite Forall_forall in V.
    destruct (path_focus p h l t Fc Hown NDc) as (h1 & F1 & O1 & ND1 & S1 & Hr).
    pose proof (spec_at_focus p (spec_op o) t) as HF.
    destruct (spec_focus p t) as [t1 r] eqn:Ef. simpl fst in O1; simpl snd in Hr.
    destruct r as [u|e| |]; try tauto.
    + destruct HF as [HF HFt]. rewrite HF. cbn [fst snd].
      destruct Hr as (c & Ga & Gc & Gb & Ep & -> & Oc & Hplug).
      destruct (NoDup_app_inv _ _ ND1) as (_ & ND1a & _). destruct (NoDup_app_inv _ _ ND1a) as (NDGc & _ & _).
      destruct (op_sim o h1 c u Gc Oc NDGc) as (h2 & F2 & E2 & O2 & ND2 & S2).
      assert (V1 : forall x, In x (Ga ++ Gc ++ Gb) -> x < length h1).
      { pose proof (own_valid _ _ _ _ O1) as VV. rewrite Forall_forall in VV. auto. }
      destruct (replace_mid _ _ _ _ _ _ ND1 ND2 S2 V1) as (NDg & Frg & Sg).
      specialize (Hplug h2 _ _ O2 Frg).
      assert (S02 : step_ok h h2 Fc (Ga ++ F2 ++ Gb)) by (eapply step_ok_trans; eauto).
      destruct (replace_mid _ _ _ _ _ _ ND NDg S02 V) as (NDall & Frall & _).
      assert (E12 : (c <- h_path p l;; h_op o c) h = (h2, snd (spec_op o u))).
      { rewrite (bind_ok _ _ _ _ _ Ep). exact E2. }
      unfold with_res. rewrite E12.
      assert (Eid : forall r : res rv, res_map (fun x => x) r = r) by (intros []; reflexivity).
      rewrite Eid. eexists. split; [reflexivity|].
      exists (Fa ++ (Ga ++ F2 ++ Gb) ++ Fb). split; [|exact NDall].
      apply Hput; auto.
    + rewrite HF. cbn [fst snd]. unfold with_res, bind. rewrite Hr. simpl res_map.
      destruct (replace_mid _ _ _ _ _ _ ND ND1 S1 V) as (NDall & Frall & _).
      eexists. split; [reflexivity|]. exists (Fa ++ F1 ++ Fb). split; auto.
  - refine (from_sim (fun src _ => src) (fun c lw => dg_assign fuel c lw) fuel _ v p w vs (h, env) HR _); [|lia].
    intros h0 d td Fd s ts Fs Hd HNd Hs Hdep.
    destruct (dg_assign_own fuel h0 d td Fd s ts Fs Hd Hs Hdep) as (h' & F' & E & O' & N' & S').
    exists h', F'; auto.
  - refine (from_sim (fun src t => Lst (kids_list t ++ [src])) (fun c lw => c' <- raw_copy fuel lw ;; raw_add c (Some c')) fuel _ v p w vs (h, env) HR _); [|lia].
    apply add_copy_own.
  - simpl h_stmt. simpl spec_stmt.
    destruct (nth_error env v) as [l|] eqn:Ev.
    2:{ rewrite (with_handle_none _ _ _ _ Ev). rewrite (owns_nth_none _ _ _ _ _ HO Ev). eexists; eauto. }
    rewrite (with_handle_some _ _ _ _ _ Ev).
    destruct (owns_nth _ _ _ _ _ _ HO Ev) as (t & Fa & Fc & Fb & Et & EF & Hown & _). rewrite Et.
    destruct (nth_error env w) as [lw|] eqn:Ew.
    2:{ rewrite (with_handle_none _ _ _ _ Ew). rewrite (owns_nth_none _ _ _ _ _ HO Ew). eexists; eauto. }
    rewrite (with_handle_some _ _ _ _ _ Ew).
    destruct (owns_nth _ _ _ _ _ _ HO Ew) as (tw & Wa & Wc & Wb & Etw & EW & Hw & _). rewrite Etw.
    pose proof (max_depth_nth _ _ _ Et).
    rewrite (dg_eq_spec fuel h l lw t tw); [|eexists; eauto|eexists; eauto|lia].
    eexists. split; [reflexivity|]. exact HR.
Qed.

Lemma run_sim ss : forall vs, exists N, forall fuel st, N <= fuel -> rep_state st vs ->
  exists st', h_run fuel ss st = (st', snd (spec_run ss vs)) /\ rep_state st' (fst (spec_run ss vs)).
Proof.
  induction ss as [|s ss IH]; intros vs.
  - exists 0. intros fuel st _ HR. exists st. auto.
  - destruct (IH (fst (spec_stmt s vs))) as (N & HN).
    exists (Nat.max (stmt_bound s vs) N). intros fuel st Hf HR.
    destruct (stmt_sim s vs fuel st) as (st1 & E1 & R1); auto; [lia|].
    destruct (HN fuel st1) as (st2 & E2 & R2); auto; [lia|].
    exists st2. simpl. rewrite E1. destruct (spec_stmt s vs) as [vs1 r1]. cbn [fst snd] in *.
    rewrite E2. destruct (spec_run ss vs1). auto.
Qed.

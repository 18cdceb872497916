(** Lemmas about the representation relation, copying and comparison. *)
From Coq Require Import String Ascii List Arith ZArith NArith Bool Lia Sorting.
From Verif Require Import Prelude OMap DatagramModel DatagramSpec DatagramHeap.
Import ListNotations.
Open Scope list_scope.

(** ** Induction principles *)

Section DgInd.
  Variable P : dg -> Prop.
  Hypothesis HEmp : P Emp.
  Hypothesis HVal : forall d, P (Val d).
  Hypothesis HLst : forall ts, Forall P ts -> P (Lst ts).
  Hypothesis HDct : forall kvs, Forall (fun p => P (snd p)) kvs -> P (Dct kvs).

  Fixpoint dg_ind' (t : dg) : P t :=
    match t with
    | Emp => HEmp
    | Val d => HVal d
    | Lst ts => HLst ts ((fix go ts : Forall P ts :=
                            match ts with
                            | [] => Forall_nil _
                            | t :: ts' => Forall_cons _ (dg_ind' t) (go ts')
                            end) ts)
    | Dct kvs => HDct kvs ((fix go kvs : Forall (fun p => P (snd p)) kvs :=
                              match kvs with
                              | [] => Forall_nil _
                              | p :: kvs' => Forall_cons _ (dg_ind' (snd p)) (go kvs')
                              end) kvs)
    end.
End DgInd.

Scheme own_min := Minimality for own Sort Prop
with owns_min := Minimality for owns Sort Prop.
Combined Scheme own_owns_ind from own_min, owns_min.

(** ** Basic facts about [own] *)

Lemma own_valid_both h :
  (forall l t F, own h l t F -> Forall (fun x => x < length h) F) /\
  (forall ps ts F, owns h ps ts F -> Forall (fun x => x < length h) F).
Proof.
  apply own_owns_ind; intros; repeat constructor; eauto using nth_lt.
  apply Forall_app; auto.
Qed.
Lemma own_valid h l t F : own h l t F -> Forall (fun x => x < length h) F.
Proof. apply own_valid_both. Qed.
Lemma owns_valid h ps ts F : owns h ps ts F -> Forall (fun x => x < length h) F.
Proof. apply own_valid_both. Qed.

Lemma own_frame_both h h' :
  (forall l t F, own h l t F -> (forall x, In x F -> nth_error h' x = nth_error h x) -> own h' l t F) /\
  (forall ps ts F, owns h ps ts F -> (forall x, In x F -> nth_error h' x = nth_error h x) -> owns h' ps ts F).
Proof.
  apply own_owns_ind.
  - intros l H Hf. constructor. rewrite Hf; simpl; auto.
  - intros l d H Hf. constructor. rewrite Hf; simpl; auto.
  - intros l ps ts F H _ IH Hf. econstructor.
    + rewrite Hf; simpl; eauto.
    + apply IH. intros; apply Hf; simpl; auto.
  - intros l m kvs F H Hs Hk _ IH Hf. econstructor; eauto.
    + rewrite Hf; simpl; eauto.
    + apply IH. intros; apply Hf; simpl; auto.
  - constructor.
  - intros p ps t ts F1 F2 _ IH1 _ IH2 Hf. constructor.
    + apply IH1. intros; apply Hf, in_or_app; auto.
    + apply IH2. intros; apply Hf, in_or_app; auto.
Qed.
Lemma own_frame h h' l t F :
  own h l t F -> (forall x, In x F -> nth_error h' x = nth_error h x) -> own h' l t F.
Proof. apply own_frame_both. Qed.
Lemma owns_frame h h' ps ts F :
  owns h ps ts F -> (forall x, In x F -> nth_error h' x = nth_error h x) -> owns h' ps ts F.
Proof. apply own_frame_both. Qed.

Lemma own_head h l t F : own h l t F -> exists F', F = l :: F'.
Proof. intros H; inversion H; subst; eauto. Qed.

Lemma own_in_head h l t F : own h l t F -> In l F.
Proof. intros H. destruct (own_head _ _ _ _ H) as (F' & ->). simpl; auto. Qed.

Lemma own_wf_both h :
  (forall l t F, own h l t F -> dg_wf t) /\
  (forall ps ts F, owns h ps ts F -> Forall dg_wf ts).
Proof.
  apply own_owns_ind; intros; try constructor; auto.
  - unfold osorted in *. congruence.
  - apply Forall_map. auto.
Qed.
Lemma own_wf h l t F : own h l t F -> dg_wf t.
Proof. apply own_wf_both. Qed.

Lemma owns_length h ps ts F : owns h ps ts F -> length ps = length ts.
Proof. induction 1; simpl; auto. Qed.

Lemma pairs_eq {A B} (m n : list (A * B)) : map fst m = map fst n -> map snd m = map snd n -> m = n.
Proof.
  revert n; induction m as [|[a b] m IH]; intros [|[a' b'] n]; simpl; intros H1 H2; try discriminate; auto.
  injection H1 as -> H1. injection H2 as -> H2. f_equal; auto.
Qed.

Lemma own_det_both h :
  (forall l t F, own h l t F -> forall t' F', own h l t' F' -> t = t' /\ F = F') /\
  (forall ps ts F, owns h ps ts F -> forall ts' F', owns h ps ts' F' -> ts = ts' /\ F = F').
Proof.
  apply own_owns_ind.
  - intros l H t' F' H'. inversion H'; subst; rewrite H in *; try discriminate; auto.
  - intros l d H t' F' H'. inversion H'; subst; rewrite H in *; try discriminate; auto.
    split; auto; congruence.
  - intros l ps ts F H _ IH t' F' H'.
    inversion H'; subst; rewrite H in *; try discriminate.
    match goal with E : Some _ = Some _ |- _ => injection E as E; subst end.
    match goal with O : owns _ _ _ _ |- _ => destruct (IH _ _ O); subst; auto end.
  - intros l m kvs F H Hs Hk _ IH t' F' H'.
    inversion H' as [| | |? ? kvs' ? H0 ? Hk' HO]; subst; rewrite H in *; try discriminate.
    injection H0 as ->. destruct (IH _ _ HO) as [E ->].
    split; auto. f_equal. apply pairs_eq; auto. unfold okeys in *. congruence.
  - intros ts' F' H'. inversion H'; auto.
  - intros p ps t ts F1 F2 _ IH1 _ IH2 ts' F' H'. inversion H'; subst.
    match goal with O : own _ _ _ _ |- _ => destruct (IH1 _ _ O); subst end.
    match goal with O : owns _ _ _ _ |- _ => destruct (IH2 _ _ O); subst; auto end.
Qed.
Lemma own_det h l t F t' F' : own h l t F -> own h l t' F' -> t = t' /\ F = F'.
Proof. intros H H'. exact (proj1 (own_det_both h) _ _ _ H _ _ H'). Qed.

Lemma owns_app h ps ts F ps' ts' F' :
  owns h ps ts F -> owns h ps' ts' F' -> owns h (ps ++ ps') (ts ++ ts') (F ++ F').
Proof. induction 1; simpl; intros; auto. rewrite <- app_assoc. constructor; auto. Qed.

Lemma owns_one h p t F : own h p t F -> owns h [Some p] [t] F.
Proof. intros H. rewrite <- (app_nil_r F). constructor; auto. constructor. Qed.

Lemma owns_split h ps1 ps2 ts F :
  owns h (ps1 ++ ps2) ts F ->
  exists ts1 ts2 F1 F2, ts = ts1 ++ ts2 /\ F = F1 ++ F2 /\ length ts1 = length ps1 /\
    owns h ps1 ts1 F1 /\ owns h ps2 ts2 F2.
Proof.
  revert ts F. induction ps1 as [|p ps1 IH]; simpl; intros ts F H.
  - exists [], ts, [], F. repeat split; auto. constructor.
  - inversion H as [|q ? t ts' Fa Fb Hq Hr]; subst.
    destruct (IH _ _ Hr) as (ts1 & ts2 & F1 & F2 & -> & -> & Hl & H1 & H2).
    exists (t :: ts1), ts2, (Fa ++ F1), F2. simpl. rewrite Hl, app_assoc. repeat split; auto.
    constructor; auto.
Qed.

(** ** Depth *)

Lemma depth_lst_child ts t : In t ts -> dg_depth t < dg_depth (Lst ts).
Proof.
  simpl. induction ts as [|u ts IH]; simpl; intros H; [tauto|].
  destruct H as [->|H]; [lia|]. specialize (IH H). lia.
Qed.

Lemma depth_dct_child kvs p : In p kvs -> dg_depth (snd p) < dg_depth (Dct kvs).
Proof.
  simpl. induction kvs as [|u kvs IH]; simpl; intros H; [tauto|].
  destruct H as [->|H]; [lia|]. specialize (IH H). lia.
Qed.

(** ** Copy *)

(** Heap extension: existing nodes are untouched. *)
Definition extends (h h' : heap) : Prop :=
  length h <= length h' /\ forall x, x < length h -> nth_error h' x = nth_error h x.

Lemma extends_refl h : extends h h.
Proof. split; auto. Qed.
Lemma extends_trans h1 h2 h3 : extends h1 h2 -> extends h2 h3 -> extends h1 h3.
Proof. intros [L1 E1] [L2 E2]. split; [lia|]. intros x H. rewrite E2 by lia. auto. Qed.
Lemma extends_app h ns : extends h (h ++ ns).
Proof. split; [rewrite app_length; lia|]. intros x H. now apply nth_error_app1. Qed.

Lemma own_extends h h' l t F : own h l t F -> extends h h' -> own h' l t F.
Proof.
  intros H [_ E]. eapply own_frame; eauto. intros x Hx. apply E.
  pose proof (own_valid _ _ _ _ H) as V. rewrite Forall_forall in V. auto.
Qed.

(** The loops of [raw_copy], named. *)
Definition copy_pairs (f : nat) (c : loc) : omap (option loc) -> M loc :=
  fix copy_pairs kvs :=
    match kvs with
    | [] => ret c
    | (k, p) :: kvs' =>
      match p with
      | None => ub
      | Some l' => c' <- raw_copy f l' ;; raw_put_key c k (Some c') ;;; copy_pairs kvs'
      end
    end.
Definition copy_items (f : nat) (c : loc) : list (option loc) -> M loc :=
  fix copy_items ps :=
    match ps with
    | [] => ret c
    | p :: ps' =>
      match p with
      | None => ub
      | Some l' => c' <- raw_copy f l' ;; raw_add c (Some c') ;;; copy_items ps'
      end
    end.

Lemma raw_copy_S f l :
  raw_copy (S f) l =
  (n <- load l ;;
   c <- raw_new ;;
   store c (mkNode [] [] None (nd_type n)) ;;;
   match nd_type n with
   | TEmpty => ret c
   | TDict => copy_pairs f c (nd_dict n)
   | TList => copy_items f c (nd_list n)
   | TValue => match nd_val n with None => ub | Some d => raw_set_data c (Some d) ;;; ret c end
   end).
Proof. reflexivity. Qed.

Definition copies (f : nat) (t : dg) : Prop :=
  forall h l F, own h l t F -> dg_depth t < f ->
  exists h' c F', raw_copy f l h = (h', Ok c) /\ extends h h' /\
    own h' c t F' /\ NoDup F' /\ Forall (fun x => length h <= x) F'.

(** Nodes other than [c] are untouched. *)
Definition extends_but (c : loc) (h h' : heap) : Prop :=
  length h <= length h' /\ forall x, x < length h -> x <> c -> nth_error h' x = nth_error h x.

Lemma extends_but_trans c h1 h2 h3 : extends_but c h1 h2 -> extends_but c h2 h3 -> extends_but c h1 h3.
Proof. intros [L1 E1] [L2 E2]. split; [lia|]. intros x H H'. rewrite E2 by lia. auto. Qed.
Lemma extends_extends_but c h h' : extends h h' -> extends_but c h h'.
Proof. intros [L E]. split; auto. Qed.
Lemma set_extends_but c n h : extends_but c h (list_set c n h).
Proof. split; [now rewrite list_set_length|]. intros x _ H. rewrite list_set_ne; auto. Qed.

Lemma own_extends_but c h h' l t F : own h l t F -> ~ In c F -> extends_but c h h' -> own h' l t F.
Proof.
  intros H Hc [_ E]. eapply own_frame; eauto. intros x Hx. apply E; [|congruence].
  pose proof (own_valid _ _ _ _ H) as V. rewrite Forall_forall in V. auto.
Qed.
Lemma owns_extends_but c h h' ps ts F : owns h ps ts F -> ~ In c F -> extends_but c h h' -> owns h' ps ts F.
Proof.
  intros H Hc [_ E]. eapply owns_frame; eauto. intros x Hx. apply E; [|congruence].
  pose proof (owns_valid _ _ _ _ H) as V. rewrite Forall_forall in V. auto.
Qed.

Lemma NoDup_app_intro {A} (l1 l2 : list A) :
  NoDup l1 -> NoDup l2 -> (forall x, In x l1 -> ~ In x l2) -> NoDup (l1 ++ l2).
Proof.
  induction l1 as [|a l1 IH]; simpl; intros H1 H2 H; auto.
  inversion H1; subst. constructor.
  - rewrite in_app_iff. intros [?|?]; auto. apply (H a); auto.
  - apply IH; auto.
Qed.

Lemma NoDup_app_inv {A} (l1 l2 : list A) :
  NoDup (l1 ++ l2) -> NoDup l1 /\ NoDup l2 /\ (forall x, In x l1 -> ~ In x l2).
Proof.
  induction l1 as [|a l1 IH]; simpl; intros H.
  - repeat split; auto. constructor.
  - inversion H as [|? ? Hn Hd]; subst. destruct (IH Hd) as (H1 & H2 & H3).
    rewrite in_app_iff in Hn. repeat split; auto.
    + constructor; auto.
    + intros x [->|Hx]; auto.
Qed.

Lemma copy_items_ok f c ts :
  Forall (copies f) ts -> Forall (fun t => dg_depth t < f) ts ->
  forall ps F h dps dts Fd,
    owns h ps ts F -> ~ In c F -> c < length h ->
    nth_error h c = Some (mkNode [] dps None TList) ->
    owns h dps dts Fd -> NoDup Fd -> ~ In c Fd ->
    exists h' dps' Fd',
      copy_items f c ps h = (h', Ok c) /\ extends_but c h h' /\
      nth_error h' c = Some (mkNode [] dps' None TList) /\
      owns h' dps' (dts ++ ts) Fd' /\ NoDup Fd' /\ ~ In c Fd' /\
      Forall (fun x => In x Fd \/ length h <= x) Fd'.
Proof.
  induction ts as [|t ts IH]; intros HC HD ps F h dps dts Fd HO HcF Hc Hn Hdone Hnd HcFd.
  - inversion HO; subst. exists h, dps, Fd. simpl. rewrite app_nil_r. unfold ret.
    repeat split; auto; try (apply Forall_forall; auto).
  - inversion HO as [|l' ps' ? ? F1 F2 HO1 HO2]; subst.
    inversion HC as [|? ? HC1 HC2]; subst. inversion HD as [|? ? HD1 HD2]; subst.
    rewrite in_app_iff in HcF.
    destruct (HC1 h l' F1 HO1 HD1) as (h1 & c1 & F1' & E1 & X1 & O1 & N1 & G1).
    simpl. rewrite (bind_ok _ _ _ _ _ E1).
    assert (Hn1 : nth_error h1 c = Some (mkNode [] dps None TList)).
    { destruct X1 as [_ X1]. rewrite X1; auto. }
    rewrite (bind_ok _ _ _ _ _ (raw_add_eq _ _ _ _ Hn1)).
    unfold set_list, as_list; cbn [nd_dict nd_list nd_val nd_type].
    set (h2 := list_set c (mkNode [] (dps ++ [Some c1]) None TList) h1).
    assert (X2 : extends_but c h1 h2) by apply set_extends_but.
    assert (X02 : extends_but c h h2).
    { eapply extends_but_trans; eauto. now apply extends_extends_but. }
    rewrite Forall_forall in G1.
    assert (Hc1 : ~ In c F1') by (intros Hi; apply G1 in Hi; lia).
    destruct (IH HC2 HD2 ps' F2 h2 (dps ++ [Some c1]) (dts ++ [t]) (Fd ++ F1'))
      as (h3 & dps' & Fd' & E3 & X3 & Hn3 & O3 & N3 & HcF3 & G3).
    + eapply owns_extends_but; eauto.
    + tauto.
    + destruct X02. lia.
    + unfold h2. apply list_set_eq. destruct X1. lia.
    + apply owns_app.
      * eapply owns_extends_but; eauto.
      * apply owns_one. eapply own_extends_but; eauto.
    + apply NoDup_app_intro; auto. intros x Hx Hx'. apply G1 in Hx'.
      pose proof (owns_valid _ _ _ _ Hdone) as V. rewrite Forall_forall in V. apply V in Hx. lia.
    + rewrite in_app_iff. tauto.
    + exists h3, dps', Fd'. rewrite <- app_assoc in O3. repeat split; auto.
      * destruct X02, X3. lia.
      * destruct X02 as [L02 E02], X3 as [L3' E3']. intros x Hx Hxc.
        rewrite E3' by (auto; lia). apply E02; auto.
      * eapply Forall_impl; [|exact G3]. intros x [Hx|Hx].
        -- apply in_app_iff in Hx. destruct Hx as [Hx|Hx]; auto.
        -- right. destruct X02. lia.
Qed.

Lemma copy_pairs_ok f c kvs :
  Forall (fun p => copies f (snd p)) kvs -> Forall (fun p => dg_depth (snd p) < f) kvs ->
  forall m F h dm dkvs Fd,
    okeys m = okeys kvs ->
    owns h (map snd m) (map snd kvs) F -> ~ In c F -> c < length h ->
    nth_error h c = Some (mkNode dm [] None TDict) ->
    osorted (dm ++ m) -> okeys dm = okeys dkvs ->
    owns h (map snd dm) (map snd dkvs) Fd -> NoDup Fd -> ~ In c Fd ->
    exists h' dm' Fd',
      copy_pairs f c m h = (h', Ok c) /\ extends_but c h h' /\
      nth_error h' c = Some (mkNode dm' [] None TDict) /\
      osorted dm' /\ okeys dm' = okeys (dkvs ++ kvs) /\
      owns h' (map snd dm') (map snd (dkvs ++ kvs)) Fd' /\ NoDup Fd' /\ ~ In c Fd' /\
      Forall (fun x => In x Fd \/ length h <= x) Fd'.
Proof.
  induction kvs as [|[k t] kvs IH]; intros HC HD m F h dm dkvs Fd Hk HO HcF Hc Hn Hs Hdk Hdone Hnd HcFd.
  - destruct m; [|discriminate]. inversion HO; subst. exists h, dm, Fd.
    rewrite app_nil_r in Hs. rewrite app_nil_r. simpl. unfold ret.
    repeat split; auto; try (apply Forall_forall; auto).
  - destruct m as [|[k' p] m]; [discriminate|]. injection Hk as -> Hk.
    simpl in HO. inversion HO as [|l' ps' ? ? F1 F2 HO1 HO2]; subst.
    inversion HC as [|? ? HC1 HC2]; subst. inversion HD as [|? ? HD1 HD2]; subst.
    rewrite in_app_iff in HcF. simpl in HC1, HD1.
    destruct (HC1 h l' F1 HO1 HD1) as (h1 & c1 & F1' & E1 & X1 & O1 & N1 & G1).
    simpl. rewrite (bind_ok _ _ _ _ _ E1).
    assert (Hn1 : nth_error h1 c = Some (mkNode dm [] None TDict)).
    { destruct X1 as [_ X1]. rewrite X1; auto. }
    rewrite (bind_ok _ _ _ _ _ (raw_put_key_eq _ _ _ _ _ Hn1)).
    unfold set_dict, as_dict; cbn [nd_dict nd_list nd_val nd_type].
    assert (Hlast : Forall (fun k' => slt k' k) (okeys dm)).
    { unfold osorted, okeys in Hs. rewrite map_app in Hs. simpl in Hs.
      apply StronglySorted_app_inv in Hs. destruct Hs as (_ & _ & Hf).
      eapply Forall_impl; [|exact Hf]. intros a Ha. now inversion Ha. }
    rewrite oinsert_last by auto.
    rewrite olookup_not_in.
    2:{ rewrite Forall_forall in Hlast. intros Hin. apply Hlast in Hin. now apply slt_irrefl in Hin. }
    set (h1' := h1 ++ [empty_node]).
    set (h2 := list_set c (mkNode (dm ++ [(k, Some c1)]) [] None TDict) h1').
    assert (X1' : extends h1 h1') by apply extends_app.
    assert (X2 : extends_but c h1' h2) by apply set_extends_but.
    assert (X12 : extends_but c h1 h2) by (eapply extends_but_trans; eauto using extends_extends_but).
    assert (X02 : extends_but c h h2) by (eapply extends_but_trans; eauto using extends_extends_but).
    rewrite Forall_forall in G1.
    assert (Hc1 : ~ In c F1') by (intros Hi; apply G1 in Hi; lia).
    destruct (IH HC2 HD2 m F2 h2 (dm ++ [(k, Some c1)]) (dkvs ++ [(k, t)]) (Fd ++ F1'))
      as (h3 & dm' & Fd' & E3 & X3 & Hn3 & S3 & K3 & O3 & N3 & HcF3 & G3).
    + exact Hk.
    + eapply owns_extends_but; eauto.
    + tauto.
    + destruct X02. lia.
    + unfold h2. apply list_set_eq. destruct X1, X1'. lia.
    + rewrite <- app_assoc. simpl.
      unfold osorted, okeys in Hs |- *. rewrite map_app in Hs |- *. exact Hs.
    + unfold okeys in *. rewrite !map_app. simpl. now rewrite Hdk.
    + rewrite !map_app. simpl. apply owns_app.
      * eapply owns_extends_but; eauto.
      * apply owns_one. eapply own_extends_but; eauto.
    + apply NoDup_app_intro; auto. intros x Hx Hx'. apply G1 in Hx'.
      pose proof (owns_valid _ _ _ _ Hdone) as V. rewrite Forall_forall in V. apply V in Hx. lia.
    + rewrite in_app_iff. tauto.
    + exists h3, dm', Fd'. rewrite <- app_assoc in K3, O3. repeat split; auto.
      * destruct X02, X3. lia.
      * destruct X02 as [L02 E02], X3 as [L3' E3']. intros x Hx Hxc.
        rewrite E3' by (auto; lia). apply E02; auto.
      * eapply Forall_impl; [|exact G3]. intros x [Hx|Hx].
        -- apply in_app_iff in Hx. destruct Hx as [Hx|Hx]; auto.
        -- right. destruct X02. lia.
Qed.

Theorem raw_copy_ok t : forall f, copies f t.
Proof.
  induction t as [|d|ts IHt|kvs IHt] using dg_ind'; intros f h l F HO Hd; destruct f as [|f]; try lia;
    rewrite raw_copy_S; inversion HO; subst.
  - (* Emp *)
    match goal with E : nth_error h l = _ |- _ => rename E into Hn end.
    rewrite (bind_ok _ _ _ _ _ (load_ok _ _ _ Hn)).
    rewrite (bind_ok _ _ _ _ _ (raw_new_eq h)).
    erewrite bind_ok by (eapply store_ok; apply nth_error_app_new).
    simpl. eexists _, _, [length h]. split; [reflexivity|].
    assert (nth_error (list_set (length h) (mkNode [] [] None TEmpty) (h ++ [empty_node])) (length h) = Some (mkNode [] [] None TEmpty)).
    { apply list_set_eq. rewrite app_length. simpl. lia. }
    repeat split.
    + rewrite list_set_length, app_length. lia.
    + intros x Hx. rewrite list_set_ne by lia. now apply nth_error_app1.
    + now constructor.
    + repeat constructor; auto.
    + repeat constructor; auto.
  - (* Val *)
    match goal with E : nth_error h l = _ |- _ => rename E into Hn end.
    rewrite (bind_ok _ _ _ _ _ (load_ok _ _ _ Hn)).
    rewrite (bind_ok _ _ _ _ _ (raw_new_eq h)).
    erewrite bind_ok by (eapply store_ok; apply nth_error_app_new).
    cbn [nd_dict nd_list nd_val nd_type].
    assert (Hc : nth_error (list_set (length h) (mkNode [] [] None TValue) (h ++ [empty_node])) (length h) = Some (mkNode [] [] None TValue)).
    { apply list_set_eq. rewrite app_length. simpl. lia. }
    erewrite bind_ok by (eapply raw_set_data_eq; exact Hc).
    unfold value_node; cbn [nd_dict nd_list nd_val nd_type].
    rewrite list_set_set.
    eexists _, _, [length h]. split; [reflexivity|]. repeat split.
    + rewrite list_set_length, app_length. lia.
    + intros x Hx. rewrite list_set_ne by lia. now apply nth_error_app1.
    + constructor. apply list_set_eq. rewrite app_length. simpl. lia.
    + repeat constructor; auto.
    + repeat constructor; auto.
  - (* Lst *)
    match goal with E : nth_error h l = _ |- _ => rename E into Hn end.
    match goal with E : owns h _ _ _ |- _ => rename E into HOs end.
    rewrite (bind_ok _ _ _ _ _ (load_ok _ _ _ Hn)).
    rewrite (bind_ok _ _ _ _ _ (raw_new_eq h)).
    erewrite bind_ok by (eapply store_ok; apply nth_error_app_new).
    cbn [nd_dict nd_list nd_val nd_type].
    set (h1 := list_set (length h) (mkNode [] [] None TList) (h ++ [empty_node])).
    assert (X1 : extends h h1).
    { split; [unfold h1; rewrite list_set_length, app_length; lia|].
      intros x Hx. unfold h1. rewrite list_set_ne by lia. now apply nth_error_app1. }
    assert (Hlen1 : length h1 = S (length h)) by (unfold h1; rewrite list_set_length, app_length; simpl; lia).
    destruct (copy_items_ok f (length h) ts) with (ps := ps) (F := F0) (h := h1) (dps := @nil (option loc)) (dts := @nil dg) (Fd := @nil loc)
      as (h2 & dps & Fd & E2 & X2 & Hn2 & O2 & N2 & Hc2 & G2).
    + eapply Forall_impl; [|exact IHt]. auto.
    + apply Forall_forall. intros t Ht. pose proof (depth_lst_child _ _ Ht). lia.
    + eapply owns_frame; eauto. intros x Hx. destruct X1 as [_ X1]. apply X1.
      pose proof (owns_valid _ _ _ _ HOs) as V. rewrite Forall_forall in V. auto.
    + pose proof (owns_valid _ _ _ _ HOs) as V. rewrite Forall_forall in V. intros Hi; apply V in Hi; lia.
    + lia.
    + unfold h1. apply list_set_eq. rewrite app_length. simpl. lia.
    + constructor.
    + constructor.
    + simpl; tauto.
    + exists h2, (length h), (length h :: Fd). split; [exact E2|].
      destruct X1 as [L1 X1], X2 as [L2 X2]. repeat split.
      * lia.
      * intros x Hx. rewrite X2 by lia. auto.
      * econstructor; eauto.
      * constructor; auto.
      * constructor; auto. eapply Forall_impl; [|exact G2]. simpl. intros x [[]|Hx]. lia.
  - (* Dct *)
    match goal with E : nth_error h l = _ |- _ => rename E into Hn end.
    match goal with E : owns h _ _ _ |- _ => rename E into HOs end.
    rewrite (bind_ok _ _ _ _ _ (load_ok _ _ _ Hn)).
    rewrite (bind_ok _ _ _ _ _ (raw_new_eq h)).
    erewrite bind_ok by (eapply store_ok; apply nth_error_app_new).
    cbn [nd_dict nd_list nd_val nd_type].
    set (h1 := list_set (length h) (mkNode [] [] None TDict) (h ++ [empty_node])).
    assert (X1 : extends h h1).
    { split; [unfold h1; rewrite list_set_length, app_length; lia|].
      intros x Hx. unfold h1. rewrite list_set_ne by lia. now apply nth_error_app1. }
    assert (Hlen1 : length h1 = S (length h)) by (unfold h1; rewrite list_set_length, app_length; simpl; lia).
    destruct (copy_pairs_ok f (length h) kvs) with (m := m) (F := F0) (h := h1) (dm := @nil (string * option loc)) (dkvs := @nil (string * dg)) (Fd := @nil loc)
      as (h2 & dm & Fd & E2 & X2 & Hn2 & S2 & K2 & O2 & N2 & Hc2 & G2).
    + eapply Forall_impl; [|exact IHt]. auto.
    + apply Forall_forall. intros t Ht. pose proof (depth_dct_child _ _ Ht). lia.
    + auto.
    + eapply owns_frame; eauto. intros x Hx. destruct X1 as [_ X1]. apply X1.
      pose proof (owns_valid _ _ _ _ HOs) as V. rewrite Forall_forall in V. auto.
    + pose proof (owns_valid _ _ _ _ HOs) as V. rewrite Forall_forall in V. intros Hi; apply V in Hi; lia.
    + lia.
    + unfold h1. apply list_set_eq. rewrite app_length. simpl. lia.
    + auto.
    + auto.
    + constructor.
    + constructor.
    + simpl; tauto.
    + exists h2, (length h), (length h :: Fd). split; [exact E2|].
      destruct X1 as [L1 X1], X2 as [L2 X2]. repeat split.
      * lia.
      * intros x Hx. rewrite X2 by lia. auto.
      * econstructor; eauto.
      * constructor; auto.
      * constructor; auto. eapply Forall_impl; [|exact G2]. simpl. intros x [[]|Hx]. lia.
Qed.

(** Comparison: [raw_eq] decides [dg_same]. *)
From Coq Require Import String Ascii List Arith ZArith NArith Bool Lia Sorting.
From Verif Require Import Prelude OMap DatagramModel DatagramSpec DatagramHeap DatagramProofs.
Import ListNotations.
Open Scope list_scope.

(** ** Values *)

Lemma zero_not_nan b : dbl_is_zero b = true -> dbl_is_nan b = false.
Proof.
  unfold dbl_is_zero, dbl_is_nan. intros H. apply N.eqb_eq in H. rewrite H. reflexivity.
Qed.

Lemma dbl_eqb_same a b : dbl_eqb a b = true <-> data_same (DDouble a) (DDouble b).
Proof.
  unfold dbl_eqb. split.
  - intros H. apply andb_prop in H. destruct H as [H1 H2]. apply andb_prop in H1. destruct H1 as [Ha Hb].
    apply orb_prop in H2. destruct H2 as [H2|H2].
    + apply N.eqb_eq in H2. subst. constructor. now destruct (dbl_is_nan b).
    + apply andb_prop in H2. destruct H2. now constructor.
  - intros H. inversion H; subst.
    + match goal with E : dbl_is_nan _ = false |- _ => rewrite E end. rewrite N.eqb_refl. reflexivity.
    + rewrite !zero_not_nan by auto.
      repeat match goal with E : dbl_is_zero _ = true |- _ => rewrite E; clear E end. simpl. apply orb_true_r.
Qed.

Lemma data_equals_spec a b : data_equals a b = true <-> data_same a b.
Proof.
  destruct a, b; simpl; try (split; [discriminate|intros H; inversion H]).
  - rewrite Z.eqb_eq. split; [intros ->; constructor|intros H; inversion H; auto].
  - rewrite eqb_true_iff. split; [intros ->; constructor|intros H; inversion H; auto].
  - rewrite dbl_eqb_same. split; intros H; inversion H; subst; constructor; auto.
  - rewrite String.eqb_eq. split; [intros ->; constructor|intros H; inversion H; auto].
  - rewrite andb_true_iff, !String.eqb_eq. split; [intros [-> ->]; constructor|intros H; inversion H; auto].
Qed.

Lemma data_same_sym a b : data_same a b -> data_same b a.
Proof. intros H; inversion H; subst; constructor; auto. Qed.

Lemma data_same_trans a b c : data_same a b -> data_same b c -> data_same a c.
Proof.
  intros H1 H2; inversion H1; subst; inversion H2; subst; try (constructor; auto; fail); auto.
Qed.

Lemma spec_data_eqb_same a b : spec_data_eqb a b = true <-> data_same a b.
Proof.
  destruct a, b; simpl; try (split; [discriminate|intros H; inversion H]).
  - rewrite Z.eqb_eq. split; [intros ->; constructor|intros H; inversion H; auto].
  - rewrite eqb_true_iff. split; [intros ->; constructor|intros H; inversion H; auto].
  - apply dbl_eqb_same.
  - rewrite String.eqb_eq. split; [intros ->; constructor|intros H; inversion H; auto].
  - rewrite andb_true_iff, !String.eqb_eq. split; [intros [-> ->]; constructor|intros H; inversion H; auto].
Qed.

(** ** Trees *)

Lemma spec_eqb_same a : forall b, spec_eqb a b = true <-> dg_same a b.
Proof.
  induction a as [|d|ts IH|kvs IH] using dg_ind'; intros b.
  - destruct b; simpl; split; intros H; try discriminate; try (inversion H; fail); auto; constructor.
  - destruct b; simpl; split; intros H; try discriminate; try (inversion H; fail).
    + constructor. now apply spec_data_eqb_same.
    + inversion H; subst. now apply spec_data_eqb_same.
  - destruct b as [| |us|]; simpl; try (split; intros H; [discriminate|inversion H]).
    assert (E : forall us, ((fix go ts us := match ts, us with
                     | [], [] => true
                     | t :: ts', u :: us' => spec_eqb t u && go ts' us'
                     | _, _ => false
                     end) ts us = true) <-> Forall2 dg_same ts us).
    { clear us. induction IH as [|t ts Ht _ IHts]; intros [|u us]; split; intros H;
        try discriminate; try (inversion H; fail); auto; try constructor.
      - apply andb_prop in H. destruct H. now apply Ht.
      - apply andb_prop in H. destruct H. now apply IHts.
      - inversion H; subst. rewrite (proj2 (Ht u)) by auto. simpl. now apply IHts. }
    rewrite E. split; intros H; [now constructor|now inversion H].
  - destruct b as [| | |n]; simpl; try (split; intros H; [discriminate|inversion H]).
    assert (E : forall n, ((fix go m n := match m, n with
                   | [], [] => true
                   | (k, t) :: m', (k', u) :: n' => String.eqb k k' && spec_eqb t u && go m' n'
                   | _, _ => false
                   end) kvs n = true) <-> Forall2 (fun p q => fst p = fst q /\ dg_same (snd p) (snd q)) kvs n).
    { clear n. induction IH as [|[k t] m Ht _ IHm]; intros [|[k' u] n]; split; intros H;
        try discriminate; try (inversion H; fail); auto; try constructor.
      - apply andb_prop in H. destruct H as [H _]. apply andb_prop in H. destruct H as [H1 H2].
        apply String.eqb_eq in H1. simpl in *. split; auto. now apply Ht.
      - apply andb_prop in H. destruct H. now apply IHm.
      - inversion H as [|? ? ? ? [H1 H2] H3]; subst. simpl in *. subst k'.
        rewrite String.eqb_refl. rewrite (proj2 (Ht u)) by auto. simpl. now apply IHm. }
    rewrite E. split; intros H; [now constructor|now inversion H].
Qed.

Lemma Forall2_sym_Forall {A} (R : A -> A -> Prop) l l' :
  Forall (fun x => forall y, R x y -> R y x) l -> Forall2 R l l' -> Forall2 R l' l.
Proof. intros HF H. induction H; constructor; inversion HF; subst; auto. Qed.

Lemma dg_same_sym a : forall b, dg_same a b -> dg_same b a.
Proof.
  induction a as [|d|ts IH|kvs IH] using dg_ind'; intros b H; inversion H; subst; constructor.
  - now apply data_same_sym.
  - match goal with F : Forall2 _ _ _ |- _ => revert F end. apply Forall2_sym_Forall. auto.
  - match goal with F : Forall2 _ _ _ |- _ => revert F end. apply Forall2_sym_Forall.
    eapply Forall_impl; [|exact IH]. intros p Hp q [E S]. auto.
Qed.

Lemma Forall2_trans_Forall {A} (R : A -> A -> Prop) l1 l2 l3 :
  Forall (fun x => forall y z, R x y -> R y z -> R x z) l1 ->
  Forall2 R l1 l2 -> Forall2 R l2 l3 -> Forall2 R l1 l3.
Proof.
  intros HF H. revert l3. induction H; intros l3 H'; inversion H'; subst; constructor; inversion HF; subst; eauto.
Qed.

Lemma dg_same_trans a : forall b c, dg_same a b -> dg_same b c -> dg_same a c.
Proof.
  induction a as [|d|ts IH|kvs IH] using dg_ind'; intros b c H1 H2;
    inversion H1; subst; inversion H2; subst; constructor.
  - eapply data_same_trans; eauto.
  - eapply Forall2_trans_Forall; eauto.
  - eapply Forall2_trans_Forall; eauto.
    eapply Forall_impl; [|exact IH]. intros p Hp q r [E S] [E' S']. split; [congruence|eauto].
Qed.

Lemma data_same_refl d : (forall b, d = DDouble b -> dbl_is_nan b = false) <-> data_same d d.
Proof.
  split.
  - destruct d; intros H; constructor; auto.
  - intros H b ->. inversion H; subst; auto using zero_not_nan.
Qed.

Lemma Forall2_diag {A} (R : A -> A -> Prop) l : Forall2 R l l <-> Forall (fun x => R x x) l.
Proof.
  split; induction l as [|x l IH]; intros H; constructor; inversion H; subst; auto.
Qed.

Lemma dg_same_refl t : ~ has_nan t <-> dg_same t t.
Proof.
  induction t as [|d|ts IH|kvs IH] using dg_ind'.
  - split; [constructor|intros _ H; inversion H].
  - split.
    + intros H. constructor. apply data_same_refl. intros b ->.
      destruct (dbl_is_nan b) eqn:E; auto. exfalso. apply H. now constructor.
    + intros H HN. inversion H as [|? ? HS| |]; subst. inversion HN as [b Hb| |]; subst.
      apply data_same_refl with (b := b) in HS; auto. congruence.
  - rewrite Forall_forall in IH. split.
    + intros H. constructor. apply Forall2_diag, Forall_forall. intros t Ht.
      apply IH; auto. intros HN. apply H. econstructor; eauto.
    + intros H HN. inversion H as [| |? ? HF|]; subst. inversion HN as [|? t Hin Ht|]; subst.
      apply Forall2_diag in HF. rewrite Forall_forall in HF.
      apply (proj2 (IH _ Hin)); auto.
  - rewrite Forall_forall in IH. split.
    + intros H. constructor. apply Forall2_diag, Forall_forall. intros t Ht.
      split; auto. apply IH; auto. intros HN. apply H. econstructor; eauto.
    + intros H HN. inversion H as [| | |? ? HF]; subst. inversion HN as [| |? t Hin Ht]; subst.
      apply Forall2_diag in HF. rewrite Forall_forall in HF.
      apply (proj2 (IH _ Hin)); auto. now apply HF.
Qed.

(** For dictionaries: same keys, and same contents under each key. *)
Definition opt_rel {A} (R : A -> A -> Prop) (x y : option A) : Prop :=
  match x, y with
  | Some a, Some b => R a b
  | None, None => True
  | _, _ => False
  end.

Lemma osorted_keys_ext {V W} (m : omap V) (n : omap W) :
  osorted m -> osorted n -> (forall k, In k (okeys m) <-> In k (okeys n)) -> okeys m = okeys n.
Proof.
  intros Hm Hn H.
  rewrite <- (okeys_omap_map (fun _ => tt) m), <- (okeys_omap_map (fun _ => tt) n).
  f_equal. apply osorted_ext; auto using osorted_omap_map.
  intros k. rewrite !olookup_omap_map.
  specialize (H k). rewrite !olookup_some_iff_key in H.
  destruct (olookup k m), (olookup k n); simpl; auto; exfalso; intuition congruence.
Qed.

Lemma Forall2_keys_lookup {V W} (R : V -> W -> Prop) (m : omap V) (n : omap W) :
  osorted m -> okeys m = okeys n ->
  (forall k v, olookup k m = Some v -> exists w, olookup k n = Some w /\ R v w) ->
  Forall2 (fun p q => fst p = fst q /\ R (snd p) (snd q)) m n.
Proof.
  revert n. induction m as [|[k v] m IH]; intros [|[k' w] n] Hs Hk H; try discriminate; constructor.
  - injection Hk as -> Hk. simpl. split; auto.
    destruct (H k' v) as (w' & E & HR).
    + simpl. now rewrite String.eqb_refl.
    + simpl in E. rewrite String.eqb_refl in E. congruence.
  - injection Hk as -> Hk. apply IH; auto.
    + now apply osorted_tail in Hs.
    + intros k v0 E.
      assert (k <> k').
      { intros ->. apply (osorted_head_notin _ _ _ Hs). apply olookup_some_iff_key. congruence. }
      destruct (H k v0) as (w' & E' & HR).
      * simpl. destruct (String.eqb_spec k k'); congruence.
      * exists w'. split; auto. simpl in E'. destruct (String.eqb_spec k k'); congruence.
Qed.

Lemma Forall2_lookup {V W} (R : V -> W -> Prop) (m : omap V) (n : omap W) :
  Forall2 (fun p q => fst p = fst q /\ R (snd p) (snd q)) m n ->
  okeys m = okeys n /\
  forall k, match olookup k m, olookup k n with Some v, Some w => R v w | None, None => True | _, _ => False end.
Proof.
  unfold okeys. induction 1 as [|[k v] [k' w] m n [E HR] H [IHk IH]]; simpl; auto.
  simpl in E; subst k'. split; [now f_equal|].
  intros k0. specialize (IH k0). destruct (String.eqb_spec k0 k); auto.
Qed.

Lemma dg_same_dct m n :
  osorted m -> osorted n ->
  (dg_same (Dct m) (Dct n) <-> forall k, opt_rel dg_same (olookup k m) (olookup k n)).
Proof.
  intros Hm Hn. split.
  - intros H. inversion H as [| | |? ? HF]; subst. apply Forall2_lookup in HF. destruct HF as [_ HF].
    intros k. specialize (HF k). unfold opt_rel. now destruct (olookup k m), (olookup k n).
  - intros H. constructor. apply Forall2_keys_lookup; auto.
    + apply osorted_keys_ext; auto. intros k. specialize (H k).
      rewrite !olookup_some_iff_key. destruct (olookup k m), (olookup k n); simpl in *; try tauto;
        intuition congruence.
    + intros k v E. specialize (H k). rewrite E in H. simpl in H.
      destruct (olookup k n) as [w|]; [|tauto]. eauto.
Qed.

(** ** The comparison on the heap *)

Definition eq_items (f : nat) (h : heap) : list (option loc) -> list (option loc) -> res bool :=
  fix eq_items (ps qs : list (option loc)) : res bool :=
    match ps, qs with
    | Some p :: ps', Some q :: qs' =>
      res_bind (raw_eq f h p q) (fun b => if b then eq_items ps' qs' else Ok false)
    | [], _ => Ok true
    | _, _ => UB
    end.

Definition eq_pairs (f : nat) (h : heap) (md : omap (option loc)) : omap (option loc) -> res bool :=
  fix eq_pairs (kvs : omap (option loc)) : res bool :=
    match kvs with
    | [] => Ok true
    | (k, p) :: kvs' =>
      match olookup k md with
      | None => Ok false
      | Some q =>
        match q, p with
        | Some q', Some p' =>
          res_bind (raw_eq f h q' p') (fun b => if b then eq_pairs kvs' else Ok false)
        | _, _ => UB
        end
      end
    end.

Lemma raw_eq_S f h own rhs :
  raw_eq (S f) h own rhs =
  match nth_error h own, nth_error h rhs with
  | Some n, Some m =>
    if rtype_eqb (nd_type m) (nd_type n) then
      match nd_type n with
      | TEmpty => Ok true
      | TValue => Ok (match nd_val m, nd_val n with Some y, Some x => data_equals y x | _, _ => false end)
      | TList => if Nat.eqb (length (nd_list m)) (length (nd_list n)) then eq_items f h (nd_list n) (nd_list m) else Ok false
      | TDict => if Nat.eqb (length (nd_dict m)) (length (nd_dict n)) then eq_pairs f h (nd_dict m) (nd_dict n) else Ok false
      end
    else Ok false
  | _, _ => UB
  end.
Proof. reflexivity. Qed.

(** A result that decides a proposition. *)
Definition decides (r : res bool) (P : Prop) : Prop := exists b, r = Ok b /\ (b = true <-> P).

Lemma owns_lookup h m kvs F k :
  okeys m = okeys kvs -> owns h (map snd m) (map snd kvs) F ->
  match olookup k m, olookup k kvs with
  | Some (Some l), Some t => exists F', own h l t F'
  | None, None => True
  | _, _ => False
  end.
Proof.
  unfold okeys. revert kvs F. induction m as [|[k0 p] m IH]; intros [|[k1 t] kvs] F Hk HO; simpl in *; try discriminate; auto.
  injection Hk as -> Hk. inversion HO; subst.
  destruct (String.eqb_spec k k1).
  - eauto.
  - eapply IH; eauto.
Qed.

Lemma raw_eq_decides f : forall h a b ta tb,
  denotes h a ta -> denotes h b tb -> dg_depth ta < f \/ dg_depth tb < f ->
  decides (raw_eq f h a b) (dg_same ta tb).
Proof.
  induction f as [|f IH]; intros h a b ta tb [Fa Ha] [Fb Hb] Hd; [lia|].
  rewrite raw_eq_S.
  inversion Ha as [? Hna|? da Hna|? psa tsa FA Hna HOa|? ma kva FA Hna Hsa Hka HOa]; subst;
  inversion Hb as [? Hnb|? db Hnb|? psb tsb FB Hnb HOb|? mb kvb FB Hnb Hsb Hkb HOb]; subst;
  rewrite Hna, Hnb; cbn [nd_dict nd_list nd_val nd_type rtype_eqb];
  try (exists false; split; [reflexivity|split; [discriminate|intros HH; inversion HH]]; fail).
  - exists true. split; auto. split; auto. constructor.
  - eexists. split; [reflexivity|]. rewrite data_equals_spec. split.
    + intros. constructor. now apply data_same_sym.
    + intros HH. inversion HH; subst. now apply data_same_sym.
  - rewrite (owns_length _ _ _ _ HOa), (owns_length _ _ _ _ HOb).
    destruct (Nat.eqb_spec (length tsb) (length tsa)) as [El|Hne].
    + assert (Hch : forall t u, In t tsa -> In u tsb -> dg_depth t < f \/ dg_depth u < f).
      { intros t u Ht Hu. pose proof (depth_lst_child _ _ Ht). pose proof (depth_lst_child _ _ Hu). lia. }
      assert (G : decides (eq_items f h psa psb) (Forall2 dg_same tsa tsb)).
      { clear Ha Hb Hna Hnb Hd. revert psb tsb FB HOb El Hch.
        induction HOa as [|p ps t ts F1 F2 Hp HOa IHa]; intros psb tsb FB HOb El Hch.
        - destruct tsb; [|discriminate]. exists true. split; auto. split; auto.
        - destruct tsb as [|u us]; [discriminate|]. inversion HOb; subst.
          simpl. destruct (IH h p p0 t u) as (bb & E & Hb).
          + eexists; eauto.
          + eexists; eauto.
          + apply Hch; simpl; auto.
          + rewrite E. simpl. destruct bb.
            * destruct (IHa ps0 us F3) as (bb' & E' & Hb'); auto.
              -- intros; apply Hch; simpl; auto.
              -- exists bb'. split; auto. rewrite Hb'. split.
                 ++ intros; constructor; auto. now apply Hb.
                 ++ intros HH; inversion HH; auto.
            * exists false. split; auto. split; [discriminate|].
              intros HH; inversion HH; subst. now apply Hb. }
      destruct G as (bb & E & Hb'). exists bb. split; auto. rewrite Hb'.
      split; [now constructor|intros HH; now inversion HH].
    + exists false. split; auto. split; [discriminate|]. intros HH; inversion HH as [| |? ? HF|]; subst.
      apply Forall2_len in HF. congruence.
  - assert (La : length ma = length kva) by (rewrite <- (map_length fst ma), <- (map_length fst kva); unfold okeys in *; congruence).
    assert (Lb : length mb = length kvb) by (rewrite <- (map_length fst mb), <- (map_length fst kvb); unfold okeys in *; congruence).
    rewrite La, Lb.
    assert (Hska : osorted kva) by (unfold osorted in *; congruence).
    assert (Hskb : osorted kvb) by (unfold osorted in *; congruence).
    destruct (Nat.eqb_spec (length kvb) (length kva)) as [El|Hne].
    + assert (G : forall m kvs F, okeys m = okeys kvs -> owns h (map snd m) (map snd kvs) F ->
                 (forall p q, In p kvs -> In q kvb -> dg_depth (snd p) < f \/ dg_depth (snd q) < f) ->
                 decides (eq_pairs f h mb m) (Forall (fun p => exists u, olookup (fst p) kvb = Some u /\ dg_same (snd p) u) kvs)).
      { clear - IH Hkb HOb. intros m. induction m as [|[k p] m IHm]; intros [|[k' t] kvs] F Hk HO Hd; try discriminate.
        - exists true. split; auto. split; auto.
        - injection Hk as -> Hk. simpl in HO. inversion HO as [|p' ? ? ? F1 F2 Hp HOr]; subst.
          simpl. pose proof (owns_lookup _ _ _ _ k' Hkb HOb) as HL.
          destruct (olookup k' mb) as [[q|]|] eqn:Eq; destruct (olookup k' kvb) as [u|] eqn:Eu; try tauto.
          + destruct HL as [Fq Hq].
            destruct (IH h q p' u t) as (bb & E & Hb).
            * eexists; eauto.
            * eexists; eauto.
            * destruct (Hd (k', t) (k', u)); simpl; auto. now apply olookup_in.
            * rewrite E. simpl. destruct bb.
              -- destruct (IHm kvs F2) as (bb' & E' & Hb'); auto.
                 ++ intros; apply Hd; simpl; auto.
                 ++ exists bb'. split; auto. rewrite Hb'. split.
                    ** intros; constructor; auto. simpl. exists u. split; auto. apply dg_same_sym. now apply Hb.
                    ** intros HH; inversion HH; auto.
              -- exists false. split; auto. split; [discriminate|].
                 intros HH; inversion HH as [|? ? (u' & Eu' & Hs')]; subst. simpl in *.
                 apply Hb. apply dg_same_sym. congruence.
          + exists false. split; auto. split; [discriminate|].
            intros HH; inversion HH as [|? ? (u' & Eu' & Hs')]; subst. simpl in *. congruence. }
      destruct (G ma kva FA) as (bb & E & Hb'); auto.
      { intros p q Hp Hq. pose proof (depth_dct_child _ _ Hp). pose proof (depth_dct_child _ _ Hq). lia. }
      exists bb. split; auto. rewrite Hb'. rewrite dg_same_dct by auto. split.
      * intros HF. rewrite Forall_forall in HF.
        assert (Hkeys : okeys kva = okeys kvb).
        { apply osorted_keys_ext; auto.
          assert (I : incl (okeys kva) (okeys kvb)).
          { intros k Hk. unfold okeys in Hk. apply in_map_iff in Hk. destruct Hk as ([k0 t0] & <- & Hin).
            destruct (HF _ Hin) as (u & Eu & _). simpl in *. apply olookup_some_iff_key. congruence. }
          intros k. split; [apply I|].
          apply NoDup_length_incl; auto.
          - now apply osorted_NoDup.
          - unfold okeys. rewrite !map_length. lia. }
        intros k. destruct (olookup k kva) as [t|] eqn:Et.
        -- apply olookup_in in Et as Hin. destruct (HF _ Hin) as (u & Eu & Hs'). simpl in *. rewrite Eu. auto.
        -- destruct (olookup k kvb) as [u|] eqn:Eu; simpl; auto.
           assert (In k (okeys kva)) as Hin by (rewrite Hkeys; apply olookup_some_iff_key; congruence).
           apply olookup_some_iff_key in Hin. congruence.
      * intros HH. apply Forall_forall. intros [k t] Hin. specialize (HH k).
        rewrite (in_olookup _ _ _ Hska Hin) in HH. simpl in *.
        destruct (olookup k kvb) as [u|]; [eauto|tauto].
    + exists false. split; auto. split; [discriminate|]. intros HH; inversion HH as [| | |? ? HF]; subst.
      apply Forall2_len in HF. congruence.
Qed.

Lemma raw_eq_spec f h a b ta tb :
  denotes h a ta -> denotes h b tb -> dg_depth ta < f \/ dg_depth tb < f ->
  raw_eq f h a b = Ok (spec_eqb ta tb).
Proof.
  intros Ha Hb Hd. destruct (raw_eq_decides f h a b ta tb Ha Hb Hd) as (r & E & Hr).
  rewrite E. f_equal. pose proof (spec_eqb_same ta tb) as HS.
  destruct r, (spec_eqb ta tb); auto; exfalso; intuition congruence.
Qed.

Lemma dg_eq_spec f h a b ta tb :
  denotes h a ta -> denotes h b tb -> dg_depth ta < f \/ dg_depth tb < f ->
  dg_eq f h a b = Ok (spec_eqb ta tb).
Proof.
  intros Ha Hb Hd. unfold dg_eq. rewrite (raw_eq_spec f h b a tb ta) by (auto; tauto).
  f_equal. pose proof (spec_eqb_same ta tb) as H1. pose proof (spec_eqb_same tb ta) as H2.
  pose proof (dg_same_sym ta tb). pose proof (dg_same_sym tb ta).
  destruct (spec_eqb ta tb), (spec_eqb tb ta); auto; exfalso; intuition congruence.
Qed.

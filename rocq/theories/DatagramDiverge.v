(** What copying and comparing do on nodes that are not finite trees. *)
From Coq Require Import String Ascii List Arith ZArith NArith Bool Lia Sorting.
From Verif Require Import Prelude OMap DatagramModel DatagramSpec DatagramHeap DatagramProofs DatagramEq
  DatagramRefine DatagramInv DatagramIso DatagramFinite.
Import ListNotations.
Open Scope list_scope.

(** No null pointer occurs in the structure below [x]. *)
Definition no_null (h : heap) (x : loc) : Prop :=
  forall l n, reach h [x] l -> nth_error h l = Some n ->
    (forall p, In p (slots n) -> p <> None) /\ (nd_type n = TValue -> nd_val n <> None).

(** No NaN is stored in the structure below [x]. *)
Definition no_nan (h : heap) (x : loc) : Prop :=
  forall l n b, reach h [x] l -> nth_error h l = Some n -> nd_val n = Some (DDouble b) -> dbl_is_nan b = false.

Lemma reach_trans h env x y : reach h env x -> reach h [x] y -> reach h env y.
Proof.
  intros Hx Hy. induction Hy as [l Hl|l n c Hl IH Hn Hc].
  - destruct Hl as [<-|[]]. auto.
  - eapply reach_kid; eauto.
Qed.

Lemma slot_kid n c : In (Some c) (slots n) <-> In c (kids n).
Proof. rewrite slots_in, in_kids. tauto. Qed.

Lemma build_finite h l n :
  nth_error h l = Some n -> shape n -> (nd_type n = TValue -> nd_val n <> None) ->
  (forall p, In p (slots n) -> exists c, p = Some c /\ finite_at h c) -> finite_at h l.
Proof.
  intros Hn [Ss Sh] Hv Hk.
  assert (Hk' : forall ps, (forall p, In p ps -> In p (slots n)) -> exists ts F, owns h ps ts F).
  { intros ps Hps. destruct (slots_owns (length h) h ps) as (ts & F & A & _); eauto.
    intros p Hp. destruct (Hk p (Hps p Hp)) as (c & -> & t & F & HO). exists c, t, F. split; auto. split; auto.
    intros Hi. pose proof (own_valid _ _ _ _ HO) as V. rewrite Forall_forall in V. apply V in Hi. lia. }
  destruct n as [d ls v ty]. simpl in *. unfold slots in Hk'. simpl in Hk'. destruct ty; simpl in *.
  - destruct Sh as (-> & -> & ->). exists Emp, [l]. now constructor.
  - destruct Sh as (-> & ->). destruct (Hk' ls) as (ts & F & HO); auto.
    exists (Lst ts), (l :: F). econstructor; eauto.
  - destruct Sh as (-> & ->). destruct (Hk' (map snd d)) as (ts & F & HO).
    { intros p Hp. apply in_app_iff. auto. }
    assert (L : length (okeys d) = length ts).
    { pose proof (owns_length _ _ _ _ HO). unfold okeys. rewrite map_length in *. auto. }
    exists (Dct (combine (okeys d) ts)), (l :: F). econstructor; eauto.
    + unfold okeys at 2. now rewrite map_fst_combine.
    + rewrite map_snd_combine by auto. auto.
  - destruct Sh as (-> & ->). destruct v as [v|]; [|destruct Hv; auto].
    exists (Val v), [l]. now constructor.
Qed.

(** ** Reachability in represented trees *)

Lemma own_closed_both h :
  (forall x t F, own h x t F -> forall l n c, In l F -> nth_error h l = Some n -> In c (kids n) -> In c F) /\
  (forall ps ts F, owns h ps ts F ->
     (forall c, In (Some c) ps -> In c F) /\
     forall l n c, In l F -> nth_error h l = Some n -> In c (kids n) -> In c F).
Proof.
  apply own_owns_ind.
  - intros l H x n c [<-|[]] Hn Hc. rewrite H in Hn. injection Hn as <-. destruct Hc.
  - intros l d H x n c [<-|[]] Hn Hc. rewrite H in Hn. injection Hn as <-. destruct Hc.
  - intros l ps ts F H HO [IH1 IH2] x n c [<-|Hx] Hn Hc.
    + rewrite H in Hn. injection Hn as <-. right. apply IH1. apply slot_kid in Hc. exact Hc.
    + right. eauto.
  - intros l m kvs F H Hs Hk HO [IH1 IH2] x n c [<-|Hx] Hn Hc.
    + rewrite H in Hn. injection Hn as <-. right. apply IH1. apply slot_kid in Hc.
      unfold slots in Hc. simpl in Hc. now rewrite app_nil_r in Hc.
    + right. eauto.
  - split; [intros c []|intros l n c []].
  - intros p ps t ts F1 F2 H1 IH1 H2 [IH2 IH3]. split.
    + intros c [E|Hc]; apply in_app_iff; [injection E as <-; left; eapply own_in_head; eauto|right; auto].
    + intros l n c Hl Hn Hc. apply in_app_iff in Hl. apply in_app_iff. destruct Hl as [Hl|Hl]; [left|right]; eauto.
Qed.

Lemma reach_own h x t F y : own h x t F -> reach h [x] y -> In y F.
Proof.
  intros HO Hr. induction Hr as [l Hl|l n c Hl IH Hn Hc].
  - destruct Hl as [<-|[]]. eapply own_in_head; eauto.
  - eapply (proj1 (own_closed_both h)); eauto.
Qed.

(** A node on a cycle is not a finite tree. *)
Lemma cycle_not_finite h l n c :
  nth_error h l = Some n -> In c (kids n) -> reach h [c] l -> ~ finite_at h l.
Proof.
  intros Hn Hc Hr (t & F & HO).
  destruct (own_head _ _ _ _ HO) as (F0 & ->). apply (own_acyclic _ _ _ _ HO).
  pose proof (solid_own _ _ _ _ _ HO Hn) as (_ & B & _).
  apply slot_kid in Hc. destruct (B _ Hc) as (c' & t' & F' & E & O' & Hno). injection E as <-.
  destruct Hno. eapply reach_own; eauto.
Qed.

(** ** Copying *)

Section Copy.
Variable h0 : heap.
Hypothesis H0 : forall l n, nth_error h0 l = Some n -> shape n /\ forall c, In c (kids n) -> c < length h0.

Let P := fun x => length h0 <= x.

Definition grown (h : heap) : Prop := inv (length h0) P h /\ forall x, x < length h0 -> nth_error h x = nth_error h0 x.

Lemma grown_refl : grown h0.
Proof.
  split; auto. split; [lia|]. intros l n Hn. destruct (H0 l n Hn) as [A B]. split; auto.
  intros c Hc. split; auto. intros Hl. apply nth_lt in Hn. unfold P in Hl. lia.
Qed.

Lemma grown_tri {A} (m : M A) h Q :
  grown h -> tri (length h0) P m h Q -> let (h', r) := m h in grown h' /\ match r with Ok a => Q a h' | _ => True end.
Proof.
  intros [I O] T. specialize (T I). destruct (m h) as [h' r]. destruct T as (I' & [L R] & Q').
  split; auto. split; auto. intros x Hx. rewrite R; auto. unfold P. lia.
Qed.

Lemma copy_result f : forall l h h' r,
  grown h -> l < length h0 -> raw_copy f l h = (h', r) ->
  match r with
  | Ok _ => finite_at h0 l
  | NoFuel => True
  | _ => ~ no_null h0 l
  end.
Proof.
  induction f as [|f IH]; intros l h h' r G Hl E.
  - simpl in E. injection E as <- <-. exact I.
  - rewrite raw_copy_S in E. destruct (nth_error h0 l) as [n|] eqn:Hn; [|apply nth_error_None in Hn; lia].
    destruct (H0 _ _ Hn) as [Hs Hkids].
    assert (Hnh : nth_error h l = Some n) by (destruct G as [_ G]; rewrite G; auto).
    rewrite (bind_ok _ _ _ _ _ (load_ok _ _ _ Hnh)), (bind_ok _ _ _ _ _ (raw_new_eq h)) in E.
    set (h1 := h ++ [empty_node]) in *. set (c0 := length h) in *.
    assert (G1 : grown h1 /\ good P h1 c0).
    { apply (grown_tri raw_new h (fun c h' => good P h' c) G). apply tri_new. auto. }
    destruct G1 as [G1 Hc0].
    assert (Hnth : nth_error h1 c0 = Some empty_node) by apply nth_error_app_new.
    rewrite (bind_ok _ _ _ _ _ (store_ok _ _ _ (mkNode [] [] None (nd_type n)) Hnth)) in E.
    set (h2 := list_set c0 (mkNode [] [] None (nd_type n)) h1) in *.
    assert (G2 : grown h2 /\ good P h2 c0).
    { assert (T : tri (length h0) P (store c0 (mkNode [] [] None (nd_type n))) h1 (fun _ h' => True)).
      { apply tri_store; auto; [split; [constructor|destruct (nd_type n); simpl; auto]|]. intros x []. }
      pose proof (grown_tri _ _ _ G1 T) as K. rewrite (store_ok _ _ _ _ Hnth) in K. fold h2 in K.
      split; [apply K|]. unfold h2. now apply good_set. }
    destruct G2 as [G2 Hc2]. clearbody h2 h1. clear Hnth G1 Hc0.
    destruct Hs as [Hsort Hsh].
    destruct (nd_type n) eqn:Ty.
    + injection E as <- <-. eapply build_finite; eauto; [split; auto; rewrite Ty; auto|rewrite Ty; discriminate|].
      intros p Hp. apply slots_in in Hp. destruct Hsh as (E1 & E2 & _). rewrite E1, E2 in Hp. destruct Hp as [(k & [])|[]].
    + (* list *)
      assert (K : forall ps h2, grown h2 -> good P h2 c0 -> (forall p, In p ps -> In p (slots n)) ->
                forall h' r, copy_items f c0 ps h2 = (h', r) ->
                match r with
                | Ok _ => forall p, In p ps -> exists c, p = Some c /\ finite_at h0 c
                | NoFuel => True
                | _ => ~ no_null h0 l
                end).
      { clear E h2 G2 Hc2. induction ps as [|[p|] ps IHp]; intros h2 G2 Hc2 Hin hh rr E.
        - simpl in E. injection E as <- <-. intros p [].
        - simpl in E.
          assert (Hpk : In p (kids n)) by (apply slot_kid, Hin; simpl; auto).
          pose proof (grown_tri _ _ _ G2 (tri_copy (length h0) P (fun x Hx => Hx) f p h2)) as T.
          unfold bind in E. destruct (raw_copy f p h2) as [h3 r3] eqn:E3. destruct T as [G3 Hc'].
          pose proof (IH _ _ _ _ G2 (Hkids p Hpk) E3) as R3.
          destruct r3 as [c'|e| |].
          + assert (Hc3 : good P h3 c0).
            { destruct Hc2 as [A B]. split; auto.
              pose proof (tri_copy (length h0) P (fun x Hx => Hx) f p h2 (proj1 G2)) as T2. rewrite E3 in T2.
              destruct T2 as (_ & [L _] & _). lia. }
            pose proof (grown_tri _ _ _ G3 (tri_add (length h0) P c0 (Some c') h3 Hc3 Hc')) as T4.
            destruct (good_node _ _ _ Hc3) as (nc & Hnc).
            rewrite (raw_add_eq _ _ _ _ Hnc) in E, T4. destruct T4 as [G4 _].
            assert (Hin' : forall q, In q ps -> In q (slots n)) by (intros q Hq; apply Hin; simpl; auto).
            pose proof (IHp _ G4 (good_set _ _ _ _ _ Hc3) Hin' _ _ E) as R5.
            destruct rr; auto. intros q [<-|Hq]; eauto.
          + injection E as <- <-. intros Hnn. apply R3. intros y m Hy Hm. apply Hnn with y; auto.
            eapply reach_trans; [|exact Hy]. apply (reach_kid h0 [l] l n p); auto. apply reach_env; simpl; auto.
          + injection E as <- <-. intros Hnn. apply R3. intros y m Hy Hm. apply Hnn with y; auto.
            eapply reach_trans; [|exact Hy]. apply (reach_kid h0 [l] l n p); auto. apply reach_env; simpl; auto.
          + injection E as <- <-. exact I.
        - simpl in E. injection E as <- <-. intros Hnn.
          destruct (Hnn l n) as [A _]; auto; [apply reach_env; simpl; auto|]. apply (A None); auto. apply Hin; simpl; auto. }
      assert (Hin : forall p, In p (nd_list n) -> In p (slots n)) by (intros; apply slots_in; auto).
      specialize (K (nd_list n) h2 G2 Hc2 Hin _ _ E). destruct r; auto.
      eapply build_finite; eauto; [split; auto; rewrite Ty; auto|rewrite Ty; discriminate|].
      intros p Hp. apply slots_in in Hp. destruct Hsh as (E1 & _). rewrite E1 in Hp. destruct Hp as [(k & [])|Hp]. auto.
    + (* dictionary *)
      assert (K : forall ps h2, grown h2 -> good P h2 c0 -> (forall p, In p (map snd ps) -> In p (slots n)) ->
                forall h' r, copy_pairs f c0 ps h2 = (h', r) ->
                match r with
                | Ok _ => forall p, In p (map snd ps) -> exists c, p = Some c /\ finite_at h0 c
                | NoFuel => True
                | _ => ~ no_null h0 l
                end).
      { clear E h2 G2 Hc2. induction ps as [|[k [p|]] ps IHp]; intros h2 G2 Hc2 Hin hh rr E.
        - simpl in E. injection E as <- <-. intros p [].
        - simpl in E.
          assert (Hpk : In p (kids n)) by (apply slot_kid, Hin; simpl; auto).
          pose proof (grown_tri _ _ _ G2 (tri_copy (length h0) P (fun x Hx => Hx) f p h2)) as T.
          unfold bind in E. destruct (raw_copy f p h2) as [h3 r3] eqn:E3. destruct T as [G3 Hc'].
          pose proof (IH _ _ _ _ G2 (Hkids p Hpk) E3) as R3.
          destruct r3 as [c'|e| |].
          + assert (Hc3 : good P h3 c0).
            { destruct Hc2 as [A B]. split; auto.
              pose proof (tri_copy (length h0) P (fun x Hx => Hx) f p h2 (proj1 G2)) as T2. rewrite E3 in T2.
              destruct T2 as (_ & [L _] & _). lia. }
            assert (T4p : tri (length h0) P (raw_put_key c0 k (Some c')) h3 (fun _ _ => True)) by (apply tri_put_key; auto).
            pose proof (grown_tri _ _ _ G3 T4p) as T4.
            destruct (good_node _ _ _ Hc3) as (nc & Hnc).
            assert (T4g : good P (fst (raw_put_key c0 k (Some c') h3)) c0).
            { pose proof (T4p (proj1 G3)) as T5. destruct (raw_put_key c0 k (Some c') h3) as [h4 r4].
              destruct T5 as (_ & [L _] & _). destruct Hc3 as [A B]. split; auto. simpl. lia. }
            rewrite (raw_put_key_eq _ _ _ _ _ Hnc) in E, T4, T4g. destruct T4 as [G4 _].
            assert (Hin' : forall q, In q (map snd ps) -> In q (slots n)) by (intros q Hq; apply Hin; simpl; auto).
            pose proof (IHp _ G4 T4g Hin' _ _ E) as R5.
            destruct rr; auto. simpl. intros q [<-|Hq]; eauto.
          + injection E as <- <-. intros Hnn. apply R3. intros y m Hy Hm. apply Hnn with y; auto.
            eapply reach_trans; [|exact Hy]. apply (reach_kid h0 [l] l n p); auto. apply reach_env; simpl; auto.
          + injection E as <- <-. intros Hnn. apply R3. intros y m Hy Hm. apply Hnn with y; auto.
            eapply reach_trans; [|exact Hy]. apply (reach_kid h0 [l] l n p); auto. apply reach_env; simpl; auto.
          + injection E as <- <-. exact I.
        - simpl in E. injection E as <- <-. intros Hnn.
          destruct (Hnn l n) as [A _]; auto; [apply reach_env; simpl; auto|]. apply (A None); auto. apply Hin; simpl; auto. }
      assert (Hin : forall p, In p (map snd (nd_dict n)) -> In p (slots n)) by (intros; apply in_app_iff; auto).
      specialize (K (nd_dict n) h2 G2 Hc2 Hin _ _ E). destruct r; auto.
      eapply build_finite; eauto; [split; auto; rewrite Ty; auto|rewrite Ty; discriminate|].
      intros p Hp. unfold slots in Hp. destruct Hsh as (E1 & _). rewrite E1, app_nil_r in Hp. auto.
    + destruct (nd_val n) as [d|] eqn:Ev.
      * destruct (good_node _ _ _ Hc2) as (nc & Hnc).
        rewrite (bind_ok _ _ _ _ _ (raw_set_data_eq _ _ _ _ Hnc)) in E. injection E as <- <-.
        eapply build_finite; eauto; [split; auto; rewrite Ty; auto|congruence|].
        intros p Hp. apply slots_in in Hp. destruct Hsh as (E1 & E2). rewrite E1, E2 in Hp. destruct Hp as [(k & [])|[]].
      * injection E as <- <-. intros Hnn. destruct (Hnn l n) as [_ A]; auto; [apply reach_env; simpl; auto|]. now apply A.
Qed.

End Copy.

(** ** Comparing a node with itself *)

Lemma eq_self_result f : forall h l n,
  (forall l n, nth_error h l = Some n -> shape n) ->
  nth_error h l = Some n -> (forall x m c, reach h [l] x -> nth_error h x = Some m -> In c (kids m) -> exists mc, nth_error h c = Some mc) ->
  no_null h l -> no_nan h l ->
  (raw_eq f h l l = Ok true /\ finite_at h l) \/ raw_eq f h l l = NoFuel.
Proof.
  induction f as [|f IH]; intros h l n Hsh Hn Hsc Hnu Hna; [right; reflexivity|].
  rewrite raw_eq_S, Hn.
  assert (Et : rtype_eqb (nd_type n) (nd_type n) = true) by (destruct (nd_type n); reflexivity).
  rewrite Et. destruct (Hsh _ _ Hn) as [Hso Hs].
  assert (Rl : reach h [l] l) by (apply reach_env; simpl; auto).
  destruct (Hnu l n Rl Hn) as [Hns Hnv].
  assert (Hkid : forall c, In c (kids n) ->
            (raw_eq f h c c = Ok true /\ finite_at h c) \/ raw_eq f h c c = NoFuel).
  { intros c Hc. destruct (Hsc l n c Rl Hn Hc) as (nc & Hnc).
    assert (Rc : reach h [l] c) by (eapply reach_kid; eauto).
    apply (IH h c nc); auto.
    - intros x m y Hx. apply Hsc. eapply reach_trans; eauto.
    - intros x m Hx. apply Hnu. eapply reach_trans; eauto.
    - intros x m b Hx. apply Hna. eapply reach_trans; eauto. }
  destruct (nd_type n) eqn:Ty.
  - left. split; auto. eapply build_finite; eauto; [rewrite Ty; discriminate|].
    intros p Hp. apply slots_in in Hp. destruct Hs as (E1 & E2 & _). rewrite E1, E2 in Hp. destruct Hp as [(k & [])|[]].
  - rewrite Nat.eqb_refl.
    assert (K : forall ps, (forall p, In p ps -> In p (slots n)) ->
              (eq_items f h ps ps = Ok true /\ forall p, In p ps -> exists c, p = Some c /\ finite_at h c) \/
              eq_items f h ps ps = NoFuel).
    { induction ps as [|[p|] ps IHp]; intros Hin.
      - left. split; auto. intros p [].
      - simpl. destruct (Hkid p) as [[E1 F1]|E1]; [apply slot_kid, Hin; simpl; auto| |].
        + rewrite E1. simpl. destruct IHp as [[E2 F2]|E2]; [intros; apply Hin; simpl; auto| |].
          * left. split; auto. simpl. intros q [<-|Hq]; eauto.
          * right. auto.
        + right. rewrite E1. reflexivity.
      - destruct (Hns None); auto. apply Hin. simpl; auto. }
    destruct (K (nd_list n)) as [[E1 F1]|E1]; [intros; apply slots_in; auto|left|right; auto].
    split; auto. eapply build_finite; eauto; [rewrite Ty; discriminate|].
    intros p Hp. apply slots_in in Hp. destruct Hs as (E2 & _). rewrite E2 in Hp. destruct Hp as [(k & [])|Hp]. auto.
  - rewrite Nat.eqb_refl.
    assert (K : forall ps, (forall k p, In (k, p) ps -> olookup k (nd_dict n) = Some p) ->
              (eq_pairs f h (nd_dict n) ps = Ok true /\ forall p, In p (map snd ps) -> exists c, p = Some c /\ finite_at h c) \/
              eq_pairs f h (nd_dict n) ps = NoFuel).
    { induction ps as [|[k p] ps IHp]; intros Hin.
      - left. split; auto. intros p [].
      - simpl. rewrite (Hin k p) by (simpl; auto).
        assert (Hps : In p (slots n)).
        { apply slots_in. left. exists k. apply olookup_in. apply Hin. simpl; auto. }
        destruct p as [p|]; [|destruct (Hns None); auto].
        destruct (Hkid p) as [[E1 F1]|E1]; [now apply slot_kid| |].
        + rewrite E1. simpl. destruct IHp as [[E2 F2]|E2]; [intros; apply Hin; simpl; auto| |].
          * left. split; auto. simpl. intros q [<-|Hq]; eauto.
          * right. auto.
        + right. rewrite E1. reflexivity. }
    destruct (K (nd_dict n)) as [[E1 F1]|E1]; [intros k p Hp; now apply in_olookup|left|right; auto].
    split; auto. eapply build_finite; eauto; [rewrite Ty; discriminate|].
    intros p Hp. unfold slots in Hp. destruct Hs as (E2 & _). rewrite E2, app_nil_r in Hp. auto.
  - left. destruct (nd_val n) as [d|] eqn:Ev; [|destruct Hnv; auto]. split.
    + f_equal. apply data_equals_spec. apply data_same_refl. intros b ->. eapply Hna; eauto.
    + eapply build_finite; eauto; [rewrite Ev; discriminate|].
      intros p Hp. apply slots_in in Hp. destruct Hs as (E1 & E2). rewrite E1, E2 in Hp. destruct Hp as [(k & [])|[]].
Qed.

(** ** Inserting a node beneath itself *)

Lemma reach_set h d n s x :
  reach h [s] x -> reach (list_set d n h) [s] x \/ reach (list_set d n h) [s] d.
Proof.
  intros H. induction H as [l Hl|l m c Hl IH Hm Hc].
  - left. now apply reach_env.
  - destruct IH as [IH|IH]; auto. destruct (Nat.eq_dec l d) as [->|Hne]; auto.
    left. eapply reach_kid; eauto. rewrite list_set_ne; auto.
Qed.

Lemma insert_cycle h d s n0 n :
  nth_error h d = Some n0 -> reach h [s] d -> In s (kids n) -> ~ finite_at (list_set d n h) d.
Proof.
  intros Hd Hr Hs. eapply cycle_not_finite; [eapply nth_set_eq; eauto|exact Hs|].
  destruct (reach_set h d n s d Hr); auto.
Qed.

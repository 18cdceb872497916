(** Lemmas about serialisation, JSON conversion and printing. *)
From Coq Require Import String Ascii List Arith ZArith NArith Bool Lia Sorting.
From Verif Require Import Prelude OMap DatagramModel DatagramSpec DatagramHeap DatagramProofs DatagramEq
  DatagramStmt DatagramRefine DatagramRefine2 SerialModel SerialSpec.
Import ListNotations.
Open Scope list_scope.

(** ** Putting a node under a key *)

Lemma oinsert_mid {V} k (v v0 : V) m1 m2 :
  osorted (m1 ++ (k, v0) :: m2) -> oinsert k v (m1 ++ (k, v0) :: m2) = m1 ++ (k, v) :: m2.
Proof.
  induction m1 as [|[k1 v1] m1 IH]; intros Hs; simpl.
  - now rewrite scompare_refl.
  - assert (Hgt : String.compare k k1 = Gt).
    { apply scompare_gt. unfold osorted in Hs; simpl in Hs. apply StronglySorted_inv in Hs. destruct Hs as [_ Hf].
      rewrite Forall_forall in Hf. apply Hf. unfold okeys. rewrite map_app, in_app_iff. simpl; auto. }
    rewrite Hgt, IH; auto. eapply osorted_tail; exact Hs.
Qed.

Lemma get_key_view h l t F k h1 c :
  own h l t F -> dg_view_key l k h = (h1, Ok c) -> raw_get_key l k h = (h1, Ok (Some c)).
Proof.
  intros HO E. destruct (own_as_dict _ _ _ _ HO) as (m & F' & Hn & Hs & Hk & HOs & _).
  unfold dg_view_key, bind in E. pose proof (raw_get_key_eq h l k _ Hn) as G. simpl nd_dict in G.
  rewrite G in E |- *.
  destruct (olookup k m) as [p|] eqn:L.
  - assert (exists c0, p = Some c0) as [c0 ->].
    { apply olookup_in in L. apply (in_map snd) in L. simpl in L. clear - L HOs. revert F' HOs.
      generalize (map snd (kids_dict t)). induction (map snd m) as [|q qs IH]; [destruct L|].
      intros us F' HOs. inversion HOs; subst. destruct L as [<-|L]; eauto. }
    simpl in E. injection E as <- <-. reflexivity.
  - simpl in E. injection E as <- <-. reflexivity.
Qed.

Lemma put_own h l t F k c u Fc :
  own h l t F -> NoDup F -> own h c u Fc -> NoDup Fc -> (forall x, In x Fc -> ~ In x F) ->
  exists h' F', raw_put_key l k (Some c) h = (h', Ok tt) /\
    own h' l (Dct (oinsert k u (kids_dict t))) F' /\ NoDup F' /\
    length h <= length h' /\
    (forall x, x < length h -> ~ In x F -> nth_error h' x = nth_error h x) /\
    (forall x, In x F' -> In x F \/ In x Fc \/ length h <= x).
Proof.
  intros HO HN HOc HNc HD.
  destruct (view_key_own h l t F k HO HN) as (h1 & c0 & m1 & m2 & n1 & n2 & Fa & F0 & Fb & E & Hn & Hs & K1 & K2 & I & Oa & _ & Ob & ND & SO).
  pose proof (get_key_view _ _ _ _ _ _ _ HO E) as G.
  unfold raw_put_key. rewrite (bind_ok _ _ _ _ _ G). rewrite (bind_ok _ _ _ _ _ (load_ok _ _ _ Hn)).
  cbn [nd_dict nd_list nd_val nd_type]. rewrite (store_ok _ _ _ _ Hn). rewrite oinsert_mid by auto.
  assert (HOc1 : own h1 c u Fc).
  { eapply own_frame; eauto. intros x Hx. apply (so_frame _ _ _ _ SO); auto.
    pose proof (own_valid _ _ _ _ HOc) as V. rewrite Forall_forall in V. auto. }
  inversion ND as [|? ? Hl ND']; subst. rewrite in_mid in Hl.
  pose proof (own_in_head _ _ _ _ HO) as HlF.
  assert (Hlc : ~ In l Fc) by (intros Hi; apply (HD l Hi); auto).
  set (h2 := list_set l (mkNode (m1 ++ (k, Some c) :: m2) [] None TDict) h1).
  assert (Fr : forall x, x <> l -> nth_error h2 x = nth_error h1 x) by (intros x Hx; apply list_set_ne; auto).
  assert (G' : forall x, In x Fa \/ In x Fb -> In x F \/ length h <= x).
  { intros x Hx. apply (so_foot _ _ _ _ SO). right. rewrite in_mid. tauto. }
  exists h2, (l :: Fa ++ Fc ++ Fb). split; [reflexivity|]. split; [|split; [|split; [|split]]].
  - rewrite I. econstructor.
    + unfold h2. eapply nth_set_eq; eauto.
    + unfold osorted, okeys in Hs |- *. rewrite map_app in Hs |- *. exact Hs.
    + unfold okeys in *. rewrite !map_app. simpl. congruence.
    + rewrite !map_app. simpl. apply owns_app.
      * eapply owns_frame; eauto. intros x Hx. apply Fr. intros ->. tauto.
      * constructor.
        -- eapply own_frame; eauto. intros x Hx. apply Fr. intros ->. tauto.
        -- eapply owns_frame; eauto. intros x Hx. apply Fr. intros ->. tauto.
  - destruct (NoDup_app_inv _ _ ND') as (Na & Nb & Dab). destruct (NoDup_app_inv _ _ Nb) as (_ & Nb' & _).
    pose proof (own_valid _ _ _ _ HOc) as V. rewrite Forall_forall in V.
    constructor; [rewrite in_mid; tauto|]. apply NoDup_app_intro; auto.
    + apply NoDup_app_intro; auto. intros x Hx Hx'. destruct (G' x (or_intror Hx')) as [HF|HF]; [apply (HD x Hx); auto|].
      apply V in Hx. lia.
    + intros x Hx Hx'. apply in_app_iff in Hx'. destruct Hx' as [Hx'|Hx'].
      * destruct (G' x (or_introl Hx)) as [HF|HF]; [apply (HD x Hx'); auto|]. apply V in Hx'. lia.
      * apply (Dab x Hx). apply in_app_iff. auto.
  - unfold h2. rewrite list_set_length. apply (so_len _ _ _ _ SO).
  - intros x Hx HxF. rewrite Fr by (intros ->; auto). apply (so_frame _ _ _ _ SO); auto.
  - intros x [<-|Hx]; auto. rewrite in_mid in Hx. destruct Hx as [Hx|[Hx|Hx]]; auto.
    + destruct (G' x (or_introl Hx)); auto.
    + destruct (G' x (or_intror Hx)); auto.
Qed.

(** ** Creating nodes *)

(** [m] creates a fresh unshared tree [t] and leaves all existing nodes alone. *)
Definition makes (m : M loc) (t : dg) : Prop :=
  forall h, exists h' l F, m h = (h', Ok l) /\ extends h h' /\ own h' l t F /\ NoDup F /\
    Forall (fun x => length h <= x) F.

Definition ubs {A} (m : M A) : Prop := forall h, snd (m h) = UB.

Definition list_result (t : dg) (us : list dg) : dg :=
  match us with [] => t | _ => Lst (kids_list t ++ us) end.
Definition dict_result (t : dg) (us : list (string * dg)) : dg :=
  match us with [] => t | _ => Dct (oinsert_all us (kids_dict t)) end.

Lemma list_result_cons t u us : list_result (Lst (kids_list t ++ [u])) us = list_result t (u :: us).
Proof. destruct us; simpl; auto. now rewrite <- app_assoc. Qed.
Lemma dict_result_cons t k u us : dict_result (Dct (oinsert k u (kids_dict t))) us = dict_result t ((k, u) :: us).
Proof. destruct us; reflexivity. Qed.

Lemma add_all_ok r ms us : Forall2 makes ms us -> forall h t F,
  own h r t F -> NoDup F ->
  exists h' F', add_all r ms h = (h', Ok tt) /\ own h' r (list_result t us) F' /\ NoDup F' /\ step_ok h h' F F'.
Proof.
  induction 1 as [|m u ms us Hm Hms IH]; intros h t F HO HN.
  - exists h, F. repeat split; auto.
  - destruct (Hm h) as (h1 & c & Fc & E1 & X1 & O1 & N1 & G1). rewrite Forall_forall in G1.
    pose proof (own_valid _ _ _ _ HO) as V. rewrite Forall_forall in V.
    simpl. rewrite (bind_ok _ _ _ _ _ E1).
    destruct (add_own h1 r t F c u Fc) as (h2 & F2 & E2 & O2 & N2 & L2 & Fr2 & Ft2); auto.
    { eapply own_extends; eauto. }
    { intros x Hx Hi. apply G1 in Hx. apply V in Hi. lia. }
    rewrite (bind_ok _ _ _ _ _ E2).
    destruct (IH h2 _ F2 O2 N2) as (h3 & F3 & E3 & O3 & N3 & S3).
    rewrite list_result_cons in O3. exists h3, F3. split; [auto|]. split; [auto|]. split; [auto|].
    eapply step_ok_trans; [|exact S3]. destruct X1 as [L1 X1]. constructor.
    + lia.
    + intros x Hx HxF. rewrite Fr2; auto.
    + intros x Hx. apply Ft2 in Hx. destruct Hx; auto.
Qed.

Lemma put_all_ok r ms us : Forall2 (fun x y => fst x = fst y /\ makes (snd x) (snd y)) ms us -> forall h t F,
  own h r t F -> NoDup F ->
  exists h' F', put_all r ms h = (h', Ok tt) /\ own h' r (dict_result t us) F' /\ NoDup F' /\ step_ok h h' F F'.
Proof.
  induction 1 as [|[k m] [k' u] ms us [Hk Hm] Hms IH]; intros h t F HO HN.
  - exists h, F. repeat split; auto.
  - simpl in Hk, Hm. subst k'. destruct (Hm h) as (h1 & c & Fc & E1 & X1 & O1 & N1 & G1). rewrite Forall_forall in G1.
    pose proof (own_valid _ _ _ _ HO) as V. rewrite Forall_forall in V.
    simpl. rewrite (bind_ok _ _ _ _ _ E1).
    destruct (put_own h1 r t F k c u Fc) as (h2 & F2 & E2 & O2 & N2 & L2 & Fr2 & Ft2); auto.
    { eapply own_extends; eauto. }
    { intros x Hx Hi. apply G1 in Hx. apply V in Hi. lia. }
    rewrite (bind_ok _ _ _ _ _ E2).
    destruct (IH h2 _ F2 O2 N2) as (h3 & F3 & E3 & O3 & N3 & S3).
    rewrite dict_result_cons in O3. exists h3, F3. split; [auto|]. split; [auto|]. split; [auto|].
    eapply step_ok_trans; [|exact S3]. destruct X1 as [L1 X1]. constructor.
    + lia.
    + intros x Hx HxF. rewrite Fr2; auto. lia.
    + intros x Hx. apply Ft2 in Hx. destruct Hx as [Hx|[Hx|Hx]]; auto. right. lia.
Qed.

(** A new node filled by [f]. *)
Lemma makes_fill (f : loc -> M unit) t :
  (forall h r, own h r Emp [r] -> exists h' F', f r h = (h', Ok tt) /\ own h' r t F' /\ NoDup F' /\ step_ok h h' [r] F') ->
  makes (r <- raw_new ;; f r ;;; ret r) t.
Proof.
  intros Hf h. rewrite (bind_ok _ _ _ _ _ (raw_new_eq h)).
  set (h0 := h ++ [empty_node]).
  assert (HO : own h0 (length h) Emp [length h]) by (constructor; apply nth_error_app_new).
  destruct (Hf h0 (length h) HO) as (h' & F' & E & O & N & [L Fr Ft]).
  exists h', (length h), F'. rewrite (bind_ok _ _ _ _ _ E). split; [reflexivity|].
  unfold h0 in *. rewrite app_length in L. simpl in L. split; [|split; [auto|split; [auto|]]].
  - split; [lia|]. intros x Hx. rewrite Fr; [now apply nth_error_app1|rewrite app_length; simpl; lia|].
    intros [<-|[]]. lia.
  - apply Forall_forall. intros x Hx. apply Ft in Hx. destruct Hx as [[<-|[]]|Hx]; auto.
    rewrite app_length in Hx. lia.
Qed.

Lemma fill_val h r d : own h r Emp [r] ->
  exists h' F', raw_set_value r d h = (h', Ok tt) /\ own h' r (Val d) F' /\ NoDup F' /\ step_ok h h' [r] F'.
Proof.
  intros HO. inversion HO as [? Hn| | |]; subst. unfold raw_set_value. rewrite (raw_set_data_eq _ _ _ _ Hn).
  unfold value_node. simpl. eexists _, [r]. split; [reflexivity|]. split; [|split].
  - constructor. eapply nth_set_eq; eauto.
  - repeat constructor; auto.
  - apply step_ok_set. simpl; auto.
Qed.

Lemma fill_none h r : own h r Emp [r] ->
  exists h' F', ret tt h = (h', Ok tt) /\ own h' r Emp F' /\ NoDup F' /\ step_ok h h' [r] F'.
Proof.
  intros HO. exists h, [r]. split; [reflexivity|]. split; [auto|]. split; [repeat constructor; auto|apply step_ok_refl].
Qed.

Lemma fill_ub (f : loc -> M unit) : (forall r, ubs (f r)) -> ubs (r <- raw_new ;; f r ;;; ret r).
Proof.
  intros Hf h. rewrite (bind_ok _ _ _ _ _ (raw_new_eq h)). unfold bind.
  specialize (Hf (length h) (h ++ [empty_node])). destruct (f (length h) (h ++ [empty_node])) as [h' r'].
  simpl in Hf. subst r'. reflexivity.
Qed.

(** A loop reaches a failing element after succeeding ones. *)
Definition settled (m : M loc) : Prop := (exists t, makes m t) \/ ubs m.

Lemma add_all_ub r ms : Forall settled ms -> Exists ubs ms -> forall h t F, own h r t F -> NoDup F ->
  snd (add_all r ms h) = UB.
Proof.
  induction ms as [|m ms IH]; intros Hs He h t F HO HN; [inversion He|].
  inversion Hs as [|? ? H1 H2]; subst. simpl. destruct H1 as [[u Hm]|Hu].
  - assert (He' : Exists ubs ms).
    { inversion He as [? ? Hx|]; subst; auto. destruct (Hm []) as (h' & l & F' & E & _). specialize (Hx []).
      rewrite E in Hx. discriminate. }
    destruct (Hm h) as (h1 & c & Fc & E1 & X1 & O1 & N1 & G1). rewrite Forall_forall in G1.
    pose proof (own_valid _ _ _ _ HO) as V. rewrite Forall_forall in V.
    rewrite (bind_ok _ _ _ _ _ E1).
    destruct (add_own h1 r t F c u Fc) as (h2 & F2 & E2 & O2 & N2 & _); auto.
    { eapply own_extends; eauto. }
    { intros x Hx Hi. apply G1 in Hx. apply V in Hi. lia. }
    rewrite (bind_ok _ _ _ _ _ E2). eapply IH; eauto.
  - unfold bind. specialize (Hu h). destruct (m h) as [h' r']. simpl in Hu. subst r'. reflexivity.
Qed.

Lemma put_all_ub r ms : Forall (fun p => settled (snd p)) ms -> Exists (fun p => ubs (snd p)) ms -> forall h t F, own h r t F -> NoDup F ->
  snd (put_all r ms h) = UB.
Proof.
  induction ms as [|[k m] ms IH]; intros Hs He h t F HO HN; [inversion He|].
  inversion Hs as [|? ? H1 H2]; subst. simpl in *. destruct H1 as [[u Hm]|Hu].
  - assert (He' : Exists (fun p => ubs (snd p)) ms).
    { inversion He as [? ? Hx|]; subst; auto. destruct (Hm []) as (h' & l & F' & E & _). specialize (Hx []).
      simpl in Hx. rewrite E in Hx. discriminate. }
    destruct (Hm h) as (h1 & c & Fc & E1 & X1 & O1 & N1 & G1). rewrite Forall_forall in G1.
    pose proof (own_valid _ _ _ _ HO) as V. rewrite Forall_forall in V.
    rewrite (bind_ok _ _ _ _ _ E1).
    destruct (put_own h1 r t F k c u Fc) as (h2 & F2 & E2 & O2 & N2 & _); auto.
    { eapply own_extends; eauto. }
    { intros x Hx Hi. apply G1 in Hx. apply V in Hi. lia. }
    rewrite (bind_ok _ _ _ _ _ E2). eapply IH; eauto.
  - unfold bind. specialize (Hu h). destruct (m h) as [h' r']. simpl in Hu. subst r'. reflexivity.
Qed.

(** ** Entries *)

Lemma last_entry_app {A} k (l1 l2 : list (string * A)) :
  last_entry k (l1 ++ l2) = match last_entry k l2 with Some x => Some x | None => last_entry k l1 end.
Proof.
  induction l1 as [|[k' a] l1 IH]; simpl.
  - now destruct (last_entry k l2).
  - rewrite IH. destruct (last_entry k l2); auto.
Qed.

Lemma insert_all_lookup {A} (l : list (string * A)) : forall m, osorted m ->
  forall k, olookup k (oinsert_all l m) = match last_entry k l with Some x => Some x | None => olookup k m end.
Proof.
  induction l as [|[k0 a] l IH]; intros m Hs k; [reflexivity|].
  unfold oinsert_all in *. simpl. rewrite IH by now apply osorted_insert.
  destruct (last_entry k l); auto. destruct (String.eqb_spec k k0) as [->|Hne].
  - now rewrite olookup_insert_eq.
  - rewrite olookup_insert_ne; auto.
Qed.

Lemma dict_of_insert_all {A} (l : list (string * A)) : dict_of l (oinsert_all l []).
Proof.
  split; [apply osorted_insert_all; constructor|]. intros k. rewrite insert_all_lookup by constructor.
  destruct (last_entry k l); reflexivity.
Qed.

Lemma dict_of_unique {A} (l : list (string * A)) m m' : dict_of l m -> dict_of l m' -> m = m'.
Proof. intros [S1 L1] [S2 L2]. apply osorted_ext; auto. intros k. now rewrite L1, L2. Qed.

(** ** Deserialisation *)

Section FbInd.
  Variable P : fbd -> Prop.
  Hypothesis H : forall dt vt s i d b l ks vs,
    (forall ts, l = Some ts -> Forall P ts) -> (forall ts, vs = Some ts -> Forall P ts) -> P (Fb dt vt s i d b l ks vs).

  Fixpoint fb_ind' (x : fbd) : P x :=
    let all := fix all ts : Forall P ts :=
                 match ts with
                 | [] => Forall_nil _
                 | t :: ts' => Forall_cons _ (fb_ind' t) (all ts')
                 end in
    match x with
    | Fb dt vt s i d b l ks vs =>
      H dt vt s i d b l ks vs
        (match l with
         | Some ts => fun ts' E => match E in _ = o return match o with Some u => Forall P u | None => True end with eq_refl => all ts end
         | None => fun ts' E => match E in _ = o return match o with Some u => Forall P u | None => True end with eq_refl => I end
         end)
        (match vs with
         | Some ts => fun ts' E => match E in _ = o return match o with Some u => Forall P u | None => True end with eq_refl => all ts end
         | None => fun ts' E => match E in _ = o return match o with Some u => Forall P u | None => True end with eq_refl => I end
         end)
    end.
End FbInd.

Definition deser_ok (s : fbd) : Prop :=
  (exists t, reads s t /\ makes (raw_deser s) t) \/ (broken s /\ ubs (raw_deser s)).

Lemma deser_ok_settled s : deser_ok s -> settled (raw_deser s).
Proof. intros [(t & _ & M)|(_ & U)]; [left; eauto|right; auto]. Qed.

Lemma deser_split (ts : list fbd) : Forall deser_ok ts ->
  (exists us, Forall2 reads ts us /\ Forall2 makes (map raw_deser ts) us) \/
  (Exists broken ts /\ Exists ubs (map raw_deser ts)).
Proof.
  induction 1 as [|s ts Hs Hts IH]; simpl.
  - left. exists []. split; constructor.
  - destruct Hs as [(t & R & Mk)|(B & U)].
    + destruct IH as [(us & Rs & Ms)|(Bs & Us)].
      * left. exists (t :: us). split; constructor; auto.
      * right. split; apply Exists_cons_tl; auto.
    + right. split; apply Exists_cons_hd; auto.
Qed.

Lemma combine_map_snd {A B C} (f : B -> C) (ks : list A) (vs : list B) :
  combine ks (map f vs) = map (fun p => (fst p, f (snd p))) (combine ks vs).
Proof. revert vs; induction ks as [|k ks IH]; intros [|v vs]; simpl; auto. now rewrite IH. Qed.

Lemma deser_split_pairs (ps : list (string * fbd)) : Forall (fun p => deser_ok (snd p)) ps ->
  (exists us, Forall2 (fun p q => fst p = fst q /\ reads (snd p) (snd q)) ps us /\
     Forall2 (fun x y => fst x = fst y /\ makes (snd x) (snd y)) (map (fun p => (fst p, raw_deser (snd p))) ps) us) \/
  (Exists (fun p => broken (snd p)) ps /\ Exists (fun p => ubs (snd p)) (map (fun p => (fst p, raw_deser (snd p))) ps)).
Proof.
  induction 1 as [|[k s] ts Hs Hts IH]; simpl.
  - left. exists []. split; constructor.
  - destruct Hs as [(t & R & Mk)|(B & U)].
    + destruct IH as [(us & Rs & Ms)|(Bs & Us)].
      * left. exists ((k, t) :: us). split; constructor; simpl; auto.
      * right. split; apply Exists_cons_tl; auto.
    + right. split; apply Exists_cons_hd; auto.
Qed.

Lemma combine_in_snd {A B} (ks : list A) (vs : list B) p : In p (combine ks vs) -> In (snd p) vs.
Proof. destruct p. apply in_combine_r. Qed.

Lemma raw_deser_ok s : deser_ok s.
Proof.
  induction s as [dt vt s i d b l ks vs IHl IHv] using fb_ind'.
  cbn [raw_deser].
  destruct (Z.eqb_spec dt dt_value) as [->|N1].
  { destruct (Z.eqb_spec vt vt_string) as [->|V0].
    { destruct s as [x|].
      - left. exists (Val (DStr x)). split; [constructor|]. unfold deser_ok. cbn [raw_deser].
        apply (makes_fill (fun r => raw_set_value r (DStr x))). intros. now apply fill_val.
      - right. split; [constructor|]. apply (fill_ub (fun r => ub)). intros r h. reflexivity. }
    destruct (Z.eqb_spec vt vt_double) as [->|V2].
    { left. exists (Val (DDouble d)). split; [constructor|].
      apply (makes_fill (fun r => raw_set_value r (DDouble d))). intros. now apply fill_val. }
    destruct (Z.eqb_spec vt vt_integer) as [->|V1].
    { left. exists (Val (DInt i)). split; [constructor|].
      apply (makes_fill (fun r => raw_set_value r (DInt i))). intros. now apply fill_val. }
    destruct (Z.eqb_spec vt vt_boolean) as [->|V3].
    { left. exists (Val (DBool b)). split; [constructor|].
      apply (makes_fill (fun r => raw_set_value r (DBool b))). intros. now apply fill_val. }
    left. exists Emp. split.
    - constructor. unfold vt_string, vt_integer, vt_double, vt_boolean in *. lia.
    - unfold deser_ok. cbn [raw_deser]. rewrite Z.eqb_refl.
      destruct (Z.eqb_spec vt vt_string); [congruence|]. destruct (Z.eqb_spec vt vt_double); [congruence|].
      destruct (Z.eqb_spec vt vt_integer); [congruence|]. destruct (Z.eqb_spec vt vt_boolean); [congruence|].
      apply (makes_fill (fun r => ret tt)). intros. now apply fill_none. }
  destruct (Z.eqb_spec dt dt_list) as [->|N2].
  { destruct l as [ts|].
    2:{ right. split; [constructor|]. apply (fill_ub (fun r => ub)). intros r h. reflexivity. }
    destruct (deser_split ts (IHl ts eq_refl)) as [(us & Rs & Ms)|(Bs & Us)].
    - left. exists (list_result Emp us). split.
      + inversion Rs; subst; simpl; constructor. constructor; auto.
      + unfold deser_ok. cbn [raw_deser]. apply (makes_fill (fun r => add_all r (map raw_deser ts))).
        intros h r HO. apply add_all_ok; auto. repeat constructor; auto.
    - right. split.
      + apply Exists_exists in Bs. destruct Bs as (x & Hx & Bx). econstructor; eauto.
      + cbn [raw_deser]. intros h. change (Z.eqb dt_list dt_value) with false. change (Z.eqb dt_list dt_list) with true.
        cbn iota. rewrite (bind_ok _ _ _ _ _ (raw_new_eq h)). unfold bind.
        assert (K : snd (add_all (length h) (map raw_deser ts) (h ++ [empty_node])) = UB).
        { eapply add_all_ub; eauto.
          - apply Forall_map. eapply Forall_impl; [|exact (IHl ts eq_refl)]. apply deser_ok_settled.
          - apply own_emp. apply nth_error_app_new.
          - repeat constructor; auto. }
        destruct (add_all (length h) (map raw_deser ts) (h ++ [empty_node])) as [h' r']. simpl in K. subst r'. reflexivity. }
  destruct (Z.eqb_spec dt dt_dict) as [->|N3].
  { destruct ks as [ks|].
    2:{ right. split; [constructor|]. apply (fill_ub (fun r => ub)). intros r h. reflexivity. }
    destruct vs as [ts|].
    2:{ right. split; [constructor|]. apply (fill_ub (fun r => ub)). intros r h. reflexivity. }
    assert (IH : Forall (fun p => deser_ok (snd p)) (combine ks ts)).
    { apply Forall_forall. intros p Hp. specialize (IHv ts eq_refl). rewrite Forall_forall in IHv.
      apply IHv. eapply combine_in_snd; eauto. }
    destruct (deser_split_pairs _ IH) as [(us & Rs & Ms)|(Bs & Us)].
    - left. exists (dict_result Emp us). split.
      + destruct us as [|u us].
        * simpl. constructor. inversion Rs; auto.
        * apply (reads_dict _ _ _ _ _ _ _ _ (u :: us) _); auto; [|apply dict_of_insert_all]. inversion Rs; subst. congruence.
      + unfold deser_ok. cbn [raw_deser]. apply (makes_fill (fun r => put_all r (combine ks (map raw_deser ts)))).
        intros h r HO. apply put_all_ok; auto. 2:{ repeat constructor; auto. } now rewrite combine_map_snd.
    - right. split.
      + apply Exists_exists in Bs. destruct Bs as (x & Hx & Bx). econstructor; eauto.
      + cbn [raw_deser]. intros h. change (Z.eqb dt_dict dt_value) with false. change (Z.eqb dt_dict dt_list) with false.
        change (Z.eqb dt_dict dt_dict) with true.
        cbn iota. rewrite (bind_ok _ _ _ _ _ (raw_new_eq h)). unfold bind. rewrite combine_map_snd.
        match goal with |- context [put_all ?a ?b ?c] => assert (K : snd (put_all a b c) = UB) end.
        { eapply put_all_ub; eauto.
          - apply Forall_map. simpl. eapply Forall_impl; [|exact IH]. intros p. apply deser_ok_settled.
          - apply own_emp. apply nth_error_app_new.
          - repeat constructor; auto. }
        match goal with |- context [put_all ?a ?b ?c] => destruct (put_all a b c) as [h' r'] end.
        simpl in K. subst r'. reflexivity. }
  left. exists Emp. split.
  - constructor. unfold dt_value, dt_list, dt_dict in *. lia.
  - unfold deser_ok. cbn [raw_deser].
    destruct (Z.eqb_spec dt dt_value); [congruence|]. destruct (Z.eqb_spec dt dt_list); [congruence|].
    destruct (Z.eqb_spec dt dt_dict); [congruence|].
    apply (makes_fill (fun r => ret tt)). intros. now apply fill_none.
Qed.

Lemma makes_ubs m t : makes m t -> ubs m -> False.
Proof. intros Hm Hu. destruct (Hm []) as (h & l & F & E & _). specialize (Hu []). rewrite E in Hu. discriminate. Qed.

Lemma Forall2_fun {A B} (R : A -> B -> Prop) l : Forall (fun a => forall b c, R a b -> R a c -> b = c) l ->
  forall us vs, Forall2 R l us -> Forall2 R l vs -> us = vs.
Proof.
  induction 1; intros us vs H1 H2; inversion H1; subst; inversion H2; subst; auto. f_equal; auto.
Qed.

Lemma Forall2_in_l {A B} (R : A -> B -> Prop) l us : Forall2 R l us -> forall x, In x l -> exists y, In y us /\ R x y.
Proof.
  induction 1 as [|a b l us H HF IH]; intros x Hx; [destruct Hx|]. destruct Hx as [<-|Hx].
  - exists b. simpl; auto.
  - destruct (IH x Hx) as (y & Hy & Ry). exists y. simpl; auto.
Qed.

Lemma reads_fun s : forall t u, reads s t -> reads s u -> t = u.
Proof.
  induction s as [dt vt s i d b l ks vs IHl IHv] using fb_ind'. intros t u H1 H2.
  inversion H1; subst; inversion H2; subst; auto; try (exfalso; lia); try congruence.
  - f_equal. specialize (IHl _ eq_refl). eapply Forall2_fun; eauto.
  - f_equal.
    match goal with A : Forall2 _ _ ?a, B : Forall2 _ _ ?b, C : dict_of ?a _, D : dict_of ?b _ |- _ =>
      first [constr_eq a b; fail 1 | replace b with a in D; [eapply dict_of_unique; eauto|];
        eapply Forall2_fun; [|exact A|exact B]] end.
    apply Forall_forall. intros [k x] Hx [k1 x1] [k2 x2] [E1 R1] [E2 R2]. simpl in *. subst. f_equal.
    specialize (IHv _ eq_refl). rewrite Forall_forall in IHv. eapply IHv; eauto. eapply in_combine_r; eauto.
Qed.

Lemma reads_broken s : forall t, reads s t -> broken s -> False.
Proof.
  induction s as [dt vt s i d b l ks vs IHl IHv] using fb_ind'. intros t H1 H2.
  inversion H1; subst; inversion H2; subst; auto; try lia; try congruence.
  - specialize (IHl _ eq_refl). rewrite Forall_forall in IHl.
    match goal with A : Forall2 reads _ _, B : In ?x _ |- _ => destruct (Forall2_in_l _ _ _ A x B) as (y & _ & R) end.
    eapply IHl; eauto.
  - match goal with A : combine _ _ = [], B : In _ (combine _ _) |- _ => rewrite A in B; destruct B end.
  - specialize (IHv _ eq_refl). rewrite Forall_forall in IHv.
    match goal with A : Forall2 _ (combine _ _) _, B : In ?x (combine _ _) |- _ => destruct (Forall2_in_l _ _ _ A x B) as (y & _ & _ & R) end.
    eapply IHv; eauto. destruct p. eapply in_combine_r; eauto.
Qed.

Lemma makes_own m t : makes m t -> exists h l F, own h l t F.
Proof. intros Hm. destruct (Hm []) as (h & l & F & _ & _ & O & _). eauto. Qed.

Lemma reads_wf s t : reads s t -> dg_wf t.
Proof.
  intros R. destruct (raw_deser_ok s) as [(u & R' & Mk)|(B & _)].
  - rewrite (reads_fun _ _ _ R R'). destruct (makes_own _ _ Mk) as (h & l & F & O). eapply own_wf; eauto.
  - exfalso. eapply reads_broken; eauto.
Qed.

(** ** Serialisation *)

(** The table written for a tree. *)
Fixpoint ser (t : dg) : fbd :=
  match t with
  | Emp => fb_table dt_empty vt_string None 0 0 false [] [] []
  | Val (DStr s) => fb_table dt_value vt_string (Some s) 0 0 false [] [] []
  | Val (DInt z) => fb_table dt_value vt_integer None z 0 false [] [] []
  | Val (DDouble d) => fb_table dt_value vt_double None 0 d false [] [] []
  | Val (DBool b) => fb_table dt_value vt_boolean None 0 0 b [] [] []
  | Val (DOther _ _) => fb_table dt_empty vt_string None 0 0 false [] [] []
  | Lst ts => fb_table dt_list vt_string None 0 0 false (map ser ts) [] []
  | Dct kvs => fb_table dt_dict vt_string None 0 0 false [] (map fst kvs) (map (fun p => ser (snd p)) kvs)
  end.

Lemma raw_ser_ok t : forall f h l F, dg_depth t < f -> own h l t F -> raw_ser f h l = Ok (ser t).
Proof.
  induction t as [|d|ts IH|kvs IH] using dg_ind'; intros f h l F Hf HO; destruct f as [|f]; try lia;
    inversion HO as [? Hn|? ? Hn|? ps ? F' Hn Hos|? m ? F' Hn Hs Hk Hos]; subst; cbn [raw_ser]; rewrite Hn; cbn [nd_type nd_val nd_list nd_dict].
  - reflexivity.
  - destruct d; reflexivity.
  - cbn [ser].
    match goal with |- ?fx ps [] = _ =>
      enough (G : forall acc, fx ps acc = Ok (fb_table dt_list vt_string None 0 0 false (acc ++ map ser ts) [] [])) by exact (G []) end.
    assert (Hd : forall t, In t ts -> dg_depth t < f) by (intros t Ht; apply depth_lst_child in Ht; simpl in Hf, Ht; lia).
    clear Hn HO Hf. revert ps F' Hos. induction ts as [|t ts IHts]; intros ps F' Hos acc; inversion Hos; subst.
    + now rewrite app_nil_r.
    + inversion IH; subst. cbn [map]. match goal with A : own h _ t _ |- _ => rewrite (H1 f h _ _ (Hd t (or_introl eq_refl)) A) end.
      cbn [res_bind]. rewrite (IHts H3 (fun u Hu => Hd u (or_intror Hu)) _ _ H4). now rewrite <- app_assoc.
  - cbn [ser].
    match goal with |- ?fx m [] [] = _ =>
      enough (G : forall va ka, fx m ka va = Ok (fb_table dt_dict vt_string None 0 0 false [] (ka ++ map fst kvs) (va ++ map (fun p => ser (snd p)) kvs))) by exact (G [] []) end.
    assert (Hd : forall p, In p kvs -> dg_depth (snd p) < f) by (intros t Ht; apply depth_dct_child in Ht; simpl in Hf, Ht; lia).
    clear Hn HO Hf Hs. revert m F' Hk Hos. induction kvs as [|[k t] kvs IHts]; intros m F' Hk Hos va ka;
      destruct m as [|[k' q] m]; try discriminate Hk.
    + now rewrite !app_nil_r.
    + injection Hk as -> Hk. cbn [map snd fst] in *. inversion Hos; subst. inversion IH; subst.
      match goal with A : own h _ t _, B : forall f h l F, _ |- _ => rewrite (B f h _ _ (Hd (k, t) (or_introl eq_refl)) A) end.
      cbn [res_bind]. match goal with A : Forall _ kvs, B : owns h _ _ _ |- _ =>
        rewrite (IHts A (fun u Hu => Hd u (or_intror Hu)) m _ Hk B) end. now rewrite <- !app_assoc.
Qed.

Lemma combine_fst_map {A B C} (f : A * B -> C) (l : list (A * B)) :
  combine (map fst l) (map f l) = map (fun p => (fst p, f p)) l.
Proof. induction l as [|p l IH]; simpl; auto. now rewrite IH. Qed.

Lemma dict_of_sorted {A} (l : list (string * A)) : osorted l -> dict_of l l.
Proof.
  intros Hs. split; auto. intros k. pose proof (insert_all_lookup l [] ltac:(constructor) k) as H.
  rewrite oinsert_all_sorted in H by auto. simpl in H. rewrite H. destruct (last_entry k l); auto.
Qed.

Lemma dbl_eqb_zero b : dbl_eqb b 0 = dbl_is_zero b.
Proof.
  unfold dbl_eqb. change (dbl_is_nan 0) with false. change (dbl_is_zero 0) with true.
  destruct (dbl_is_zero b) eqn:Z.
  - rewrite (zero_not_nan _ Z). simpl. apply orb_true_r.
  - simpl. destruct (N.eqb_spec b 0) as [->|]; [discriminate|]. apply andb_false_r.
Qed.

Lemma ser_reads t : dg_wf t -> reads (ser t) (wire t).
Proof.
  induction t as [|d|ts IH|kvs IH] using dg_ind'; intros Hw.
  - apply reads_other. unfold dt_empty. lia.
  - destruct d as [z|bl|bits|s|ty r].
    + apply reads_integer.
    + apply reads_boolean.
    + cbn [wire ser]. unfold fb_table. replace (if dbl_is_zero bits then 0%N else bits) with (fb_double bits).
      * apply reads_double.
      * unfold fb_double. now rewrite dbl_eqb_zero.
    + apply reads_string.
    + apply reads_other. unfold dt_empty. lia.
  - inversion Hw; subst. destruct ts as [|t ts]; [constructor|]. cbn [ser wire map].
    constructor. change (ser t :: map ser ts) with (map ser (t :: ts)). change (wire t :: map wire ts) with (map wire (t :: ts)).
    revert H0 IH. generalize (t :: ts) as l. clear. intros l Hw IH.
    induction l as [|t l IHl]; simpl; constructor; inversion Hw; inversion IH; subst; auto.
  - inversion Hw as [| | |? Hs Hw']; subst. destruct kvs as [|p kvs]; [constructor; reflexivity|].
    change (wire (Dct (p :: kvs))) with (Dct (map (fun p => (fst p, wire (snd p))) (p :: kvs))). cbn [ser].
    unfold fb_table. apply reads_dict with (us := map (fun p => (fst p, wire (snd p))) (p :: kvs)).
    + simpl. discriminate.
    + rewrite combine_fst_map. clear Hs Hw. revert Hw' IH. generalize (p :: kvs) as l. intros l Hw IH.
      induction l as [|q l IHl]; simpl; constructor; inversion Hw; inversion IH; subst; simpl; auto.
    + apply dict_of_sorted. unfold osorted in *. unfold okeys in *. rewrite map_map. simpl. exact Hs.
Qed.

(** ** The wire normal form *)

Lemma wire_lst t ts : wire (Lst (t :: ts)) = Lst (map wire (t :: ts)).
Proof. reflexivity. Qed.
Lemma wire_dct p kvs : wire (Dct (p :: kvs)) = Dct (map (fun p => (fst p, wire (snd p))) (p :: kvs)).
Proof. reflexivity. Qed.

Lemma map_id_all {A} (f : A -> A) l : map f l = l <-> forall x, In x l -> f x = x.
Proof.
  induction l as [|a l IH]; simpl; split; intros H; auto.
  - intros x [].
  - injection H as H1 H2. intros x [<-|Hx]; auto. apply IH; auto.
  - f_equal; [apply H; auto|]. apply IH. intros; apply H; auto.
Qed.

Lemma wire_id t : wire t = t <-> ~ lossy true t.
Proof.
  induction t as [|d|ts IH|kvs IH] using dg_ind'.
  - split; auto. intros _ H. inversion H.
  - destruct d as [z|bl|bits|s|ty r]; simpl; (split; [intros E H|intros E]); try (inversion H; fail); auto.
    + inversion H as [| | |? _ Hz Hne| |]; subst. rewrite Hz in E. injection E as <-. auto.
    + destruct (dbl_is_zero bits) eqn:Z; auto. destruct (N.eq_dec bits 0) as [->|Hne]; auto.
      exfalso. apply E. now apply lossy_zero.
    + discriminate.
    + exfalso. apply E. constructor.
  - rewrite Forall_forall in IH. destruct ts as [|t ts].
    + split; [discriminate|]. intros H. exfalso. apply H. constructor.
    + rewrite wire_lst. split.
      * intros E. assert (E' : map wire (t :: ts) = t :: ts) by congruence.
        rewrite map_id_all in E'. intros H. inversion H; subst. apply (IH t0); auto.
      * intros H. f_equal. apply map_id_all. intros x Hx. apply IH; auto. intros Hl. apply H. econstructor; eauto.
  - rewrite Forall_forall in IH. destruct kvs as [|p kvs].
    + split; [discriminate|]. intros H. exfalso. apply H. constructor.
    + rewrite wire_dct. split.
      * intros E. assert (E' : map (fun p => (fst p, wire (snd p))) (p :: kvs) = p :: kvs) by congruence.
        rewrite map_id_all in E'. intros H. inversion H; subst. apply (IH p0); auto.
        specialize (E' p0). destruct p0. simpl in *. assert (K : (s, wire d) = (s, d)) by auto. now injection K.
      * intros H. f_equal. apply map_id_all. intros [k x] Hx. simpl. f_equal. apply (IH (k, x)); auto.
        intros Hl. apply H. econstructor; eauto.
Qed.

Lemma wire_ok t : ~ lossy true (wire t).
Proof.
  induction t as [|d|ts IH|kvs IH] using dg_ind'.
  - intros H. inversion H.
  - destruct d as [z|bl|bits|s|ty r]; simpl; intros H; inversion H; subst.
    destruct (dbl_is_zero bits) eqn:Z; congruence.
  - rewrite Forall_forall in IH. destruct ts as [|t ts]; [intros H; inversion H|].
    rewrite wire_lst. intros H. inversion H as [| | | |? u Hu Hl|]; subst.
    apply (in_map_iff wire (t :: ts)) in Hu. destruct Hu as (v & <- & Hv). eapply IH; eauto.
  - rewrite Forall_forall in IH. destruct kvs as [|p kvs]; [intros H; inversion H|].
    rewrite wire_dct. intros H. inversion H as [| | | | |? u Hu Hl]; subst.
    apply (in_map_iff (fun p => (fst p, wire (snd p))) (p :: kvs)) in Hu. destruct Hu as (v & <- & Hv).
    cbn [snd] in Hl. eapply IH; eauto.
Qed.

Lemma wire_same t : dg_same t (wire t) <-> ~ has_nan t /\ ~ lossy false t.
Proof.
  induction t as [|d|ts IH|kvs IH] using dg_ind'.
  - split; [|constructor]. intros _. split; intros H; inversion H.
  - destruct d as [z|bl|bits|s|ty r]; simpl.
    + split; [|repeat constructor]. intros _. split; intros H; inversion H.
    + split; [|repeat constructor]. intros _. split; intros H; inversion H.
    + split.
      * intros H. inversion H as [|? ? H'| |]; subst. split; intros Hx; inversion Hx; subst; try discriminate.
        inversion H'; subst; try congruence. unfold dbl_is_nan, dbl_is_zero in *.
        match goal with A : N.eqb _ 0 = true |- _ => apply N.eqb_eq in A; rewrite A in * end. discriminate.
      * intros [Hn _]. constructor. destruct (dbl_is_zero bits) eqn:Z.
        -- now apply same_zero.
        -- apply same_dbl. destruct (dbl_is_nan bits) eqn:N; auto. exfalso. apply Hn. now constructor.
    + split; [|repeat constructor]. intros _. split; intros H; inversion H.
    + split; [intros H; inversion H|]. intros [_ H]. exfalso. apply H. constructor.
  - rewrite Forall_forall in IH. destruct ts as [|t ts].
    + split; [intros H; inversion H|]. intros [_ H]. exfalso. apply H. constructor.
    + rewrite wire_lst. split.
      * intros H. inversion H; subst. assert (A : forall x, In x (t :: ts) -> dg_same x (wire x)).
        { assert (HW : Forall2 dg_same (t :: ts) (map wire (t :: ts))) by assumption.
          revert HW. generalize (t :: ts). clear. intros l. induction l as [|a l IHl]; intros H x Hx; destruct Hx; subst; simpl in H; inversion H; subst; auto. }
        split; intros Hx; inversion Hx; subst;
          match goal with Hi : In ?y _ |- _ => destruct (proj1 (IH y Hi) (A y Hi)) as [A1 A2] end; auto.
      * intros [Hn Hl]. constructor. assert (A : forall x, In x (t :: ts) -> dg_same x (wire x)).
        { intros x Hx. apply IH; auto. split; intros K; [apply Hn|apply Hl]; econstructor; eauto. }
        revert A. generalize (t :: ts). clear. intros l. induction l; simpl; intros; constructor; auto.
  - rewrite Forall_forall in IH. destruct kvs as [|p kvs].
    + split; [intros H; inversion H|]. intros [_ H]. exfalso. apply H. constructor.
    + rewrite wire_dct. split.
      * intros H. inversion H; subst. assert (A : forall x, In x (p :: kvs) -> dg_same (snd x) (wire (snd x))).
        { match goal with A : Forall2 ?R (p :: kvs) _ |- _ => assert (HW : Forall2 R (p :: kvs) (map (fun p => (fst p, wire (snd p))) (p :: kvs))) by exact A end.
          revert HW. generalize (p :: kvs). clear. intros l.
          induction l as [|a l IHl]; intros H x Hx; destruct Hx; subst; simpl in H; inversion H; subst; auto. simpl in *. tauto. }
        split; intros Hx; inversion Hx; subst;
          match goal with Hi : In ?y _ |- _ => destruct (proj1 (IH y Hi) (A y Hi)) as [A1 A2] end; auto.
      * intros [Hn Hl]. constructor. assert (A : forall x, In x (p :: kvs) -> dg_same (snd x) (wire (snd x))).
        { intros x Hx. apply IH; auto. split; intros K; [apply Hn|apply Hl]; econstructor; eauto. }
        revert A. generalize (p :: kvs). clear. intros l. induction l; simpl; intros; constructor; simpl; auto.
Qed.

(** std::map<std::string, V>: association lists sorted strictly by key.
    The order is that of std::string::compare (bytes as unsigned char). *)
From Coq Require Import String Ascii List Arith Lia NArith Bool Sorting.
From Verif Require Import Prelude.
Import ListNotations.
Open Scope list_scope.

Definition omap (V : Type) : Type := list (string * V).

(** std::map::find. *)
Fixpoint olookup {V} (k : string) (m : omap V) : option V :=
  match m with
  | [] => None
  | (k', v) :: m' => if String.eqb k k' then Some v else olookup k m'
  end.

(** std::map::operator[](k) = v. *)
Fixpoint oinsert {V} (k : string) (v : V) (m : omap V) : omap V :=
  match m with
  | [] => [(k, v)]
  | (k', v') :: m' =>
    match String.compare k k' with
    | Lt => (k, v) :: m
    | Eq => (k, v) :: m'
    | Gt => (k', v') :: oinsert k v m'
    end
  end.

(** std::map::erase. *)
Fixpoint oremove {V} (k : string) (m : omap V) : omap V :=
  match m with
  | [] => []
  | (k', v) :: m' => if String.eqb k k' then m' else (k', v) :: oremove k m'
  end.

Definition okeys {V} (m : omap V) : list string := map fst m.

Definition slt (a b : string) : Prop := String.compare a b = Lt.

Definition osorted {V} (m : omap V) : Prop := StronglySorted slt (okeys m).

(** ** Facts about the order *)

Lemma scompare_refl s : String.compare s s = Eq.
Proof.
  induction s as [|a s IH]; simpl; auto.
  replace (Ascii.compare a a) with Eq; auto.
  unfold Ascii.compare. now rewrite N.compare_refl.
Qed.

Lemma scompare_eq a b : String.compare a b = Eq <-> a = b.
Proof. split; [apply String.compare_eq_iff|intros ->; apply scompare_refl]. Qed.

Lemma scompare_gt a b : String.compare a b = Gt <-> slt b a.
Proof.
  unfold slt. rewrite (String.compare_antisym a b).
  destruct (String.compare b a); simpl; split; congruence.
Qed.

Lemma slt_irrefl a : ~ slt a a.
Proof. unfold slt. rewrite scompare_refl. congruence. Qed.

Lemma slt_trans a b c : slt a b -> slt b c -> slt a c.
Proof.
  unfold slt. revert b c.
  induction a as [|x a IH]; intros [|y b] [|z c]; simpl; try congruence; auto.
  unfold Ascii.compare.
  destruct (N.compare_spec (N_of_ascii x) (N_of_ascii y)) as [E|L|G];
  destruct (N.compare_spec (N_of_ascii y) (N_of_ascii z)) as [E'|L'|G'];
  destruct (N.compare_spec (N_of_ascii x) (N_of_ascii z)) as [E''|L''|G''];
  intros; try congruence; try lia; eauto.
Qed.

Lemma slt_ne a b : slt a b -> a <> b.
Proof. intros H ->. now apply slt_irrefl in H. Qed.

Lemma slt_total a b : slt a b \/ a = b \/ slt b a.
Proof.
  destruct (String.compare a b) eqn:E.
  - right; left. now apply scompare_eq.
  - now left.
  - right; right. now apply scompare_gt.
Qed.

(** ** Lookup / insert / remove *)
Section OMapFacts.
  Context {V : Type}.
  Implicit Types m : omap V.

  Lemma olookup_insert_eq' k v m : olookup k (oinsert k v m) = Some v.
  Proof.
    induction m as [|[k' v'] m IH]; simpl.
    - now rewrite String.eqb_refl.
    - destruct (String.compare k k') eqn:E; simpl; try now rewrite String.eqb_refl.
      destruct (String.eqb_spec k k') as [->|]; auto.
      rewrite scompare_refl in E; discriminate.
  Qed.

  Lemma olookup_insert_eq k v m : osorted m -> olookup k (oinsert k v m) = Some v.
  Proof. intros _. apply olookup_insert_eq'. Qed.

  Lemma olookup_insert_ne k k' v m : k <> k' -> olookup k' (oinsert k v m) = olookup k' m.
  Proof.
    intros Hne. induction m as [|[k0 v0] m IH]; simpl.
    - destruct (String.eqb_spec k' k); congruence.
    - destruct (String.compare k k0) eqn:E; simpl.
      + apply scompare_eq in E; subst k0.
        destruct (String.eqb_spec k' k); congruence.
      + destruct (String.eqb_spec k' k); congruence.
      + now rewrite IH.
  Qed.

  Lemma okeys_insert_in k v m x : In x (okeys (oinsert k v m)) <-> x = k \/ In x (okeys m).
  Proof.
    unfold okeys. induction m as [|[k0 v0] m IH]; simpl.
    - intuition.
    - destruct (String.compare k k0) eqn:E; simpl.
      + apply scompare_eq in E; subst k0. intuition.
      + intuition.
      + rewrite IH. intuition.
  Qed.

  Lemma osorted_nil : osorted (@nil (string * V)).
  Proof. constructor. Qed.

  Lemma osorted_insert k v m : osorted m -> osorted (oinsert k v m).
  Proof.
    unfold osorted. induction m as [|[k0 v0] m IH]; intros H.
    - simpl. repeat constructor.
    - simpl in H. apply StronglySorted_inv in H. destruct H as [Hs Hf].
      simpl. destruct (String.compare k k0) eqn:E; simpl.
      + apply scompare_eq in E; subst k0. now constructor.
      + constructor.
        * now constructor.
        * constructor; auto. eapply Forall_impl; [|exact Hf]. intros a Ha. eapply slt_trans; eauto.
      + constructor; auto.
        apply Forall_forall. intros x Hx. apply okeys_insert_in in Hx.
        destruct Hx as [->|Hx].
        * now apply scompare_gt.
        * rewrite Forall_forall in Hf; auto.
  Qed.

  Lemma okeys_remove_in k m x : In x (okeys (oremove k m)) -> In x (okeys m).
  Proof.
    unfold okeys. induction m as [|[k0 v0] m IH]; simpl; auto.
    destruct (String.eqb_spec k k0); simpl; intuition.
  Qed.

  Lemma osorted_remove k m : osorted m -> osorted (oremove k m).
  Proof.
    unfold osorted. induction m as [|[k0 v0] m IH]; intros H; auto.
    simpl in H. apply StronglySorted_inv in H. destruct H as [Hs Hf].
    simpl. destruct (String.eqb_spec k k0); auto.
    simpl. constructor; auto.
    apply Forall_forall. intros x Hx. apply okeys_remove_in in Hx.
    rewrite Forall_forall in Hf; auto.
  Qed.

  Lemma osorted_tail p m : osorted (p :: m) -> osorted m.
  Proof. unfold osorted. simpl. intros H. now apply StronglySorted_inv in H. Qed.

  Lemma olookup_not_in k m : ~ In k (okeys m) -> olookup k m = None.
  Proof.
    unfold okeys. induction m as [|[k0 v0] m IH]; simpl; auto.
    intros H. destruct (String.eqb_spec k k0); subst; intuition.
  Qed.

  Lemma osorted_head_notin k v m : osorted ((k, v) :: m) -> ~ In k (okeys m).
  Proof.
    unfold osorted. simpl. intros H Hin. apply StronglySorted_inv in H. destruct H as [_ Hf].
    rewrite Forall_forall in Hf. apply (slt_irrefl k). now apply Hf.
  Qed.

  Lemma olookup_remove_eq k m : osorted m -> olookup k (oremove k m) = None.
  Proof.
    induction m as [|[k0 v0] m IH]; intros H; simpl; auto.
    destruct (String.eqb_spec k k0) as [->|Hne].
    - apply olookup_not_in. now apply osorted_head_notin in H.
    - simpl. destruct (String.eqb_spec k k0); try congruence.
      apply IH. now apply osorted_tail in H.
  Qed.

  Lemma olookup_remove_ne k k' m : k <> k' -> olookup k' (oremove k m) = olookup k' m.
  Proof.
    intros Hne. induction m as [|[k0 v0] m IH]; simpl; auto.
    destruct (String.eqb_spec k k0) as [->|Hk].
    - destruct (String.eqb_spec k' k0); congruence.
    - simpl. destruct (String.eqb_spec k' k0); auto.
  Qed.

  Lemma olookup_in k v m : olookup k m = Some v -> In (k, v) m.
  Proof.
    induction m as [|[k0 v0] m IH]; simpl; try discriminate.
    destruct (String.eqb_spec k k0) as [->|]; intros H; auto.
    injection H as ->; auto.
  Qed.

  Lemma in_olookup k v m : osorted m -> In (k, v) m -> olookup k m = Some v.
  Proof.
    induction m as [|[k0 v0] m IH]; simpl; intros Hs Hin; try tauto.
    destruct Hin as [E|Hin].
    - injection E as -> ->. now rewrite String.eqb_refl.
    - destruct (String.eqb_spec k k0) as [->|].
      + exfalso. apply (osorted_head_notin _ _ _ Hs). apply in_map_iff. exists (k0, v); auto.
      + apply IH; auto. now apply osorted_tail in Hs.
  Qed.

  Lemma olookup_some_iff_key k m : In k (okeys m) <-> olookup k m <> None.
  Proof.
    unfold okeys. induction m as [|[k0 v0] m IH]; simpl; [intuition|].
    destruct (String.eqb_spec k k0) as [->|].
    - split; [congruence|auto].
    - rewrite <- IH. intuition congruence.
  Qed.

  Lemma osorted_ext m1 m2 :
    osorted m1 -> osorted m2 -> (forall k, olookup k m1 = olookup k m2) -> m1 = m2.
  Proof.
    revert m2. induction m1 as [|[k1 v1] m1 IH]; intros [|[k2 v2] m2] H1 H2 E.
    - reflexivity.
    - specialize (E k2). simpl in E. rewrite String.eqb_refl in E. discriminate.
    - specialize (E k1). simpl in E. rewrite String.eqb_refl in E. discriminate.
    - assert (k1 = k2) as ->.
      { destruct (slt_total k1 k2) as [L|[->|L]]; auto; exfalso.
        - specialize (E k1). simpl in E. rewrite String.eqb_refl in E.
          destruct (String.eqb_spec k1 k2) as [->|]; [now apply slt_irrefl in L|].
          assert (In k1 (okeys m2)) as Hin by (apply olookup_some_iff_key; congruence).
          unfold osorted in H2; simpl in H2. apply StronglySorted_inv in H2. destruct H2 as [_ Hf].
          rewrite Forall_forall in Hf. specialize (Hf _ Hin).
          apply (slt_irrefl k1). eapply slt_trans; eauto.
        - specialize (E k2). simpl in E. rewrite String.eqb_refl in E.
          destruct (String.eqb_spec k2 k1) as [->|]; [now apply slt_irrefl in L|].
          assert (In k2 (okeys m1)) as Hin by (apply olookup_some_iff_key; congruence).
          unfold osorted in H1; simpl in H1. apply StronglySorted_inv in H1. destruct H1 as [_ Hf].
          rewrite Forall_forall in Hf. specialize (Hf _ Hin).
          apply (slt_irrefl k2). eapply slt_trans; eauto. }
      pose proof (E k2) as E0. simpl in E0. rewrite String.eqb_refl in E0. injection E0 as ->.
      f_equal. apply IH; [eapply osorted_tail; eauto|eapply osorted_tail; eauto|].
      intros k. specialize (E k). simpl in E.
      destruct (String.eqb_spec k k2) as [Heq|]; [|exact E].
      rewrite Heq. rewrite !olookup_not_in; auto; eapply osorted_head_notin; eauto.
  Qed.

  Lemma oinsert_same_keys k v v0 m :
    osorted m -> olookup k m = Some v0 -> okeys (oinsert k v m) = okeys m.
  Proof.
    unfold okeys. induction m as [|[k0 w] m IH]; simpl; intros Hs H; try discriminate.
    destruct (String.eqb_spec k k0) as [->|].
    - rewrite scompare_refl. reflexivity.
    - assert (In k (okeys m)) as Hin by (apply olookup_some_iff_key; congruence).
      pose proof Hs as Hs'. unfold osorted in Hs'. simpl in Hs'.
      apply StronglySorted_inv in Hs'. destruct Hs' as [Hs1 Hf].
      rewrite Forall_forall in Hf. specialize (Hf _ Hin).
      apply scompare_gt in Hf. rewrite Hf. simpl. f_equal. apply IH; auto.
  Qed.

  Lemma oinsert_insert k v v' m : osorted m -> oinsert k v (oinsert k v' m) = oinsert k v m.
  Proof.
    intros Hs. apply osorted_ext; auto using osorted_insert.
    intros k0. destruct (String.eqb_spec k k0) as [->|].
    - rewrite !olookup_insert_eq; auto using osorted_insert.
    - rewrite !olookup_insert_ne; auto.
  Qed.

  Lemma oinsert_lookup_id k v m : osorted m -> olookup k m = Some v -> oinsert k v m = m.
  Proof.
    intros Hs H. apply osorted_ext; auto using osorted_insert.
    intros k0. destruct (String.eqb_spec k k0) as [->|].
    - now rewrite olookup_insert_eq, H.
    - rewrite olookup_insert_ne; auto.
  Qed.

  Lemma osorted_NoDup m : osorted m -> NoDup (okeys m).
  Proof.
    induction m as [|[k v] m IH]; intros H; constructor.
    - now apply osorted_head_notin in H.
    - apply IH. now apply osorted_tail in H.
  Qed.
End OMapFacts.

(** Values of an ordered map may be changed pointwise. *)
Definition omap_map {V W} (f : V -> W) (m : omap V) : omap W := map (fun p => (fst p, f (snd p))) m.

Lemma okeys_omap_map {V W} (f : V -> W) (m : omap V) : okeys (omap_map f m) = okeys m.
Proof. unfold okeys, omap_map. rewrite map_map. now apply map_ext. Qed.

Lemma olookup_omap_map {V W} (f : V -> W) k (m : omap V) :
  olookup k (omap_map f m) = option_map f (olookup k m).
Proof. induction m as [|[k' v] m IH]; simpl; auto. destruct (String.eqb k k'); auto. Qed.

Lemma osorted_omap_map {V W} (f : V -> W) (m : omap V) : osorted m -> osorted (omap_map f m).
Proof. unfold osorted. now rewrite okeys_omap_map. Qed.

(** Building a map by successive insertion. *)
Definition oinsert_all {V} (l : list (string * V)) (m : omap V) : omap V :=
  fold_left (fun m p => oinsert (fst p) (snd p) m) l m.

Lemma osorted_insert_all {V} (l : list (string * V)) m : osorted m -> osorted (oinsert_all l m).
Proof. revert m; induction l as [|p l IH]; intros m H; simpl; auto using osorted_insert. Qed.

Lemma oinsert_last {V} (m : omap V) k v : Forall (fun k' => slt k' k) (okeys m) -> oinsert k v m = m ++ [(k, v)].
Proof.
  induction m as [|[k0 v0] m IH]; simpl; intros H; auto.
  inversion H as [|? ? Hk Hf]; subst. apply scompare_gt in Hk. rewrite Hk. f_equal; auto.
Qed.

Lemma StronglySorted_app_inv {A} (R : A -> A -> Prop) l1 l2 :
  StronglySorted R (l1 ++ l2) ->
  StronglySorted R l1 /\ StronglySorted R l2 /\ Forall (fun x => Forall (R x) l2) l1.
Proof.
  induction l1 as [|x l1 IH]; simpl; intros H.
  - repeat split; auto; constructor.
  - apply StronglySorted_inv in H. destruct H as [Hs Hf].
    apply IH in Hs. destruct Hs as (H1 & H2 & H3). apply Forall_app in Hf. destruct Hf.
    repeat split; auto; constructor; auto.
Qed.

(** Re-inserting the bindings of a sorted map rebuilds it. *)
Lemma oinsert_all_sorted_app {V} (l m : omap V) : osorted (m ++ l) -> oinsert_all l m = m ++ l.
Proof.
  revert m; induction l as [|[k v] l IH]; intros m H; simpl.
  - now rewrite app_nil_r.
  - rewrite oinsert_last.
    + rewrite IH; rewrite <- app_assoc; auto.
    + unfold osorted, okeys in H. rewrite map_app in H. simpl in H.
      apply StronglySorted_app_inv in H. destruct H as (_ & _ & H).
      eapply Forall_impl; [|exact H]. intros a Ha. now inversion Ha.
Qed.

Lemma oinsert_all_sorted {V} (l : omap V) : osorted l -> oinsert_all l [] = l.
Proof. intros H. now rewrite oinsert_all_sorted_app. Qed.

Lemma olookup_insert_all_notin {V} (l : list (string * V)) m k :
  ~ In k (map fst l) -> olookup k (oinsert_all l m) = olookup k m.
Proof.
  revert m; induction l as [|[k0 v0] l IH]; intros m H; simpl in *; auto.
  rewrite IH by tauto. apply olookup_insert_ne. intuition.
Qed.

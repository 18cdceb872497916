(** Invariants of arbitrary client programs, including the raw commands: node
    shape, absence of dangling pointers, and confinement to a set of nodes. *)
From Coq Require Import String Ascii List Arith ZArith NArith Bool Lia Sorting.
From Verif Require Import Prelude OMap DatagramModel DatagramSpec DatagramHeap DatagramProofs.
Import ListNotations.
Open Scope list_scope.

(** The non-null child pointers of a node. *)
Definition somes (ps : list (option loc)) : list loc :=
  flat_map (fun p => match p with Some l => [l] | None => [] end) ps.
Definition kids (n : node) : list loc := somes (map snd (nd_dict n)) ++ somes (nd_list n).

Lemma in_somes c ps : In c (somes ps) <-> In (Some c) ps.
Proof.
  unfold somes. rewrite in_flat_map. split.
  - intros (p & Hp & Hc). destruct p; simpl in Hc; [destruct Hc as [->|[]]; auto|tauto].
  - intros H. exists (Some c). simpl. auto.
Qed.

Lemma in_kids c n : In c (kids n) <-> (exists k, In (k, Some c) (nd_dict n)) \/ In (Some c) (nd_list n).
Proof.
  unfold kids. rewrite in_app_iff, !in_somes, in_map_iff. split; (intros [H|H]; [left|right; auto]).
  - destruct H as ([k p] & E & H). simpl in E. subst. eauto.
  - destruct H as (k & H). exists (k, Some c). auto.
Qed.

(** Exactly one kind of content. *)
Definition shape (n : node) : Prop :=
  osorted (nd_dict n) /\
  match nd_type n with
  | TEmpty => nd_dict n = [] /\ nd_list n = [] /\ nd_val n = None
  | TList => nd_dict n = [] /\ nd_val n = None
  | TDict => nd_list n = [] /\ nd_val n = None
  | TValue => nd_dict n = [] /\ nd_list n = []
  end.

Section Confined.
Variables (N : nat) (P : loc -> Prop).
Hypothesis Pnew : forall x, N <= x -> P x.

Definition inv (h : heap) : Prop :=
  N <= length h /\
  forall l n, nth_error h l = Some n ->
    shape n /\ forall c, In c (kids n) -> c < length h /\ (P l -> P c).

Definition rel (h h' : heap) : Prop :=
  length h <= length h' /\ forall x, ~ P x -> nth_error h' x = nth_error h x.

Definition good (h : heap) (l : loc) : Prop := l < length h /\ P l.

Definition tri {A} (m : M A) (h : heap) (Q : A -> heap -> Prop) : Prop :=
  inv h -> let (h', r) := m h in inv h' /\ rel h h' /\ match r with Ok a => Q a h' | _ => True end.

Lemma rel_refl h : rel h h.
Proof. split; auto. Qed.
Lemma rel_trans h1 h2 h3 : rel h1 h2 -> rel h2 h3 -> rel h1 h3.
Proof. intros [A B] [C D]. split; [lia|]. intros x Hx. rewrite D, B; auto. Qed.
Lemma good_rel h h' l : rel h h' -> good h l -> good h' l.
Proof. intros [A _] [B C]. split; [lia|auto]. Qed.

Lemma tri_bind {A B} (m : M A) (k : A -> M B) h Q R :
  tri m h Q -> (forall a h', rel h h' -> Q a h' -> tri (k a) h' R) -> tri (bind m k) h R.
Proof.
  intros Hm Hk Hi. unfold bind. specialize (Hm Hi). destruct (m h) as [h' [a| | |]]; try tauto.
  destruct Hm as (I' & R' & Q'). specialize (Hk a h' R' Q' I').
  destruct (k a h') as [h'' r]. destruct Hk as (I2 & R2 & Q2). split; [auto|]. split; [eapply rel_trans; eauto|auto].
Qed.

Lemma tri_mono {A} (m : M A) h (Q R : A -> heap -> Prop) :
  tri m h Q -> (forall a h', Q a h' -> R a h') -> tri m h R.
Proof.
  intros Hm HQ Hi. specialize (Hm Hi). destruct (m h) as [h' r]. destruct Hm as (A1 & A2 & A3).
  split; [exact A1|]. split; [exact A2|]. destruct r; auto.
Qed.

Lemma tri_ret {A} (a : A) h (Q : A -> heap -> Prop) : Q a h -> tri (ret a) h Q.
Proof. intros H Hi. simpl. auto using rel_refl. Qed.
Lemma tri_stop {A} h (r : res A) Q : (forall a, r <> Ok a) -> tri (fun h => (h, r)) h Q.
Proof. intros H Hi. split; auto using rel_refl. split; [apply rel_refl|]. destruct r; auto. now destruct (H a). Qed.

Lemma tri_load l h : tri (load l) h (fun n h' => h' = h /\ nth_error h l = Some n).
Proof. intros Hi. unfold load. destruct (nth_error h l) eqn:E; auto using rel_refl. Qed.

Lemma inv_set h l n :
  inv h -> good h l -> shape n -> (forall c, In c (kids n) -> good h c) ->
  inv (list_set l n h) /\ rel h (list_set l n h).
Proof.
  intros [HN Hi] [Hl HP] Hs Hk. split.
  - split; [now rewrite list_set_length|]. intros x m Hx. rewrite list_set_length.
    destruct (Nat.eq_dec x l) as [->|Hne].
    + destruct (nth_error h l) as [n0|] eqn:En; [|apply nth_error_None in En; lia].
      rewrite (nth_set_eq _ _ _ n0 En) in Hx. injection Hx as <-. split; auto.
      intros c Hc. destruct (Hk c Hc). auto.
    + rewrite list_set_ne in Hx by auto. auto.
  - split; [now rewrite list_set_length|]. intros x Hx. apply list_set_ne. congruence.
Qed.

Lemma inv_app h n :
  inv h -> shape n -> kids n = [] -> inv (h ++ [n]) /\ rel h (h ++ [n]).
Proof.
  intros [HN Hi] Hs Hk. split.
  - split; [rewrite app_length; lia|]. intros x m Hx. rewrite app_length. simpl.
    destruct (Nat.lt_ge_cases x (length h)) as [Hlt|Hge].
    + rewrite nth_error_app1 in Hx by auto. destruct (Hi _ _ Hx) as (A & B). split; auto.
      intros c Hc. destruct (B c Hc). split; [lia|auto].
    + rewrite nth_error_snoc in Hx. destruct (Nat.eqb_spec x (length h)).
      2:{ apply nth_lt in Hx. lia. }
      injection Hx as <-. split; auto.
      rewrite Hk. intros c [].
  - split; [rewrite app_length; lia|]. intros x Hx.
    destruct (Nat.lt_ge_cases x (length h)) as [Hlt|Hge].
    + now apply nth_error_app1.
    + exfalso. apply Hx. apply Pnew. lia.
Qed.

Lemma tri_alloc n h :
  shape n -> kids n = [] -> tri (alloc n) h (fun c h' => good h' c).
Proof.
  intros Hs Hk Hi. unfold alloc. destruct (inv_app h n Hi Hs Hk) as [A B]. split; [auto|]. split; [auto|].
  split; [rewrite app_length; simpl; lia|]. apply Pnew. destruct Hi. lia.
Qed.

Lemma tri_store l n h :
  good h l -> shape n -> (forall c, In c (kids n) -> good h c) ->
  tri (store l n) h (fun _ h' => True).
Proof.
  intros Hl Hs Hk Hi. unfold store.
  destruct (nth_error h l); [|auto using rel_refl].
  destruct (inv_set h l n Hi Hl Hs Hk). auto.
Qed.

Lemma shape_empty : shape empty_node.
Proof. split; simpl; auto. constructor. Qed.

Lemma tri_new h : tri raw_new h (fun c h' => good h' c).
Proof. apply tri_alloc; [apply shape_empty|reflexivity]. Qed.
Lemma tri_new_type ty h : tri (raw_new_type ty) h (fun c h' => good h' c).
Proof. apply tri_alloc; [|reflexivity]. split; [constructor|]. destruct ty; simpl; auto. Qed.
Lemma tri_new_data od h : tri (raw_new_data od) h (fun c h' => good h' c).
Proof. apply tri_alloc; [|reflexivity]. split; [constructor|]. simpl; auto. Qed.
Lemma tri_new_val v h : tri (raw_new_val v) h (fun c h' => good h' c).
Proof. apply tri_alloc; [|reflexivity]. split; [constructor|]. simpl; auto. Qed.

(** Shapes of the nodes written. *)
Lemma shape_as_dict n : shape n -> shape (as_dict n).
Proof. intros [S H]. unfold as_dict. destruct (nd_type n) eqn:E; (split; [auto|]); simpl; rewrite ?E; auto. Qed.
Lemma shape_as_list n : shape n -> shape (as_list n).
Proof.
  intros [S H]. unfold as_list. destruct (nd_type n) eqn:E; (split; [auto|]); simpl; rewrite ?E; auto.
  all: constructor.
Qed.
Lemma as_dict_ty n : nd_type (as_dict n) = TDict.
Proof. unfold as_dict. destruct (nd_type n) eqn:E; auto. Qed.
Lemma as_list_ty n : nd_type (as_list n) = TList.
Proof. unfold as_list. destruct (nd_type n) eqn:E; auto. Qed.
Lemma shape_set_dict m n : shape n -> nd_type n = TDict -> osorted m -> shape (set_dict m n).
Proof. intros [S H] E Hm. rewrite E in H. split; simpl; auto. rewrite E. auto. Qed.
Lemma shape_set_list m n : shape n -> nd_type n = TList -> shape (set_list m n).
Proof. intros [S H] E. rewrite E in H. split; simpl; auto. rewrite E. tauto. Qed.
Lemma shape_value n od : shape n -> shape (value_node n od).
Proof.
  intros [S H]. unfold value_node. destruct (nd_type n) eqn:E; (split; [|simpl; auto]); simpl; auto; constructor.
Qed.
Lemma kids_as_dict n c : shape n -> In c (kids (as_dict n)) -> In c (kids n).
Proof. intros [S H]. rewrite !in_kids, as_dict_dict. unfold as_dict. destruct (nd_type n); simpl; tauto. Qed.
Lemma kids_as_list n c : shape n -> In c (kids (as_list n)) -> In c (kids n).
Proof.
  intros [S H]. rewrite !in_kids, as_list_list. unfold as_list. destruct (nd_type n); simpl; firstorder.
Qed.
Lemma kids_value n od c : In c (kids (value_node n od)) -> In c (kids n).
Proof. rewrite !in_kids. unfold value_node. destruct (nd_type n); simpl; firstorder. Qed.

Lemma in_oinsert {V} k (v : V) (m : omap V) p : In p (oinsert k v m) -> p = (k, v) \/ In p m.
Proof.
  induction m as [|[k' v'] m IH]; simpl; [firstorder|].
  destruct (String.compare k k'); simpl; intuition congruence.
Qed.
Lemma in_oremove {V} k (m : omap V) p : In p (oremove k m) -> In p m.
Proof.
  induction m as [|[k' v'] m IH]; simpl; auto.
  destruct (String.eqb k k'); simpl; intuition.
Qed.

Lemma good_kids h l n : inv h -> nth_error h l = Some n -> P l -> forall c, In c (kids n) -> good h c.
Proof. intros [_ Hi] Hn Hl c Hc. destruct (Hi _ _ Hn) as [_ Hk]. destruct (Hk c Hc). split; auto. Qed.

Lemma good_node h l : good h l -> exists n, nth_error h l = Some n.
Proof. intros [Hl _]. destruct (nth_error h l) eqn:E; eauto. apply nth_error_None in E. lia. Qed.

Definition good_opt (h : heap) (p : option loc) : Prop := match p with Some c => good h c | None => True end.

Lemma good_set h l n x : good h x -> good (list_set l n h) x.
Proof. intros [A B]. split; auto. now rewrite list_set_length. Qed.
Lemma good_app h n x : good h x -> good (h ++ [n]) x.
Proof. intros [A B]. split; auto. rewrite app_length. lia. Qed.
Lemma good_opt_rel h h' p : rel h h' -> good_opt h p -> good_opt h' p.
Proof. destruct p; simpl; auto. apply good_rel. Qed.

Lemma olookup_kid k n c : olookup k (nd_dict n) = Some (Some c) -> In c (kids n).
Proof. intros H. apply in_kids. left. exists k. now apply olookup_in. Qed.

Lemma tri_get_key l k h : good h l -> tri (raw_get_key l k) h (fun p h' => good_opt h' p).
Proof.
  intros Hl Hi. destruct (good_node _ _ Hl) as (n & Hn). rewrite (raw_get_key_eq _ _ _ _ Hn).
  pose proof (proj2 Hi _ _ Hn) as [Hs _]. pose proof (good_kids _ _ _ Hi Hn (proj2 Hl)) as Hk.
  destruct (olookup k (nd_dict n)) as [p|] eqn:El.
  - destruct (inv_set h l (as_dict n) Hi Hl (shape_as_dict _ Hs)) as [A B].
    { intros c Hc. apply Hk. now apply kids_as_dict. }
    split; [auto|]. split; [auto|]. destruct p as [c|]; simpl; auto. apply good_set, Hk. eapply olookup_kid; eauto.
  - destruct (inv_app h empty_node Hi shape_empty eq_refl) as [A B].
    destruct (inv_set (h ++ [empty_node]) l (set_dict (oinsert k (Some (length h)) (nd_dict n)) (as_dict n)) A) as [C D].
    + now apply good_app.
    + apply shape_set_dict; [now apply shape_as_dict|apply as_dict_ty|apply osorted_insert; apply Hs].
    + intros c Hc. apply in_kids in Hc. simpl in Hc.
      destruct Hc as [(k' & Hc)|Hc].
      * apply in_oinsert in Hc. destruct Hc as [Hc|Hc].
        -- injection Hc as -> ->. split; [rewrite app_length; simpl; lia|]. apply Pnew. destruct Hi; lia.
        -- apply good_app, Hk, in_kids. eauto.
      * apply good_app, Hk. apply kids_as_dict; auto. apply in_kids. auto.
    + split; [auto|]. split; [eapply rel_trans; eauto|]. simpl. apply good_set.
      split; [rewrite app_length; simpl; lia|]. apply Pnew. destruct Hi; lia.
Qed.

Lemma tri_put_key l k p h : good h l -> good_opt h p -> tri (raw_put_key l k p) h (fun _ _ => True).
Proof.
  intros Hl Hp Hi. destruct (good_node _ _ Hl) as (n & Hn). rewrite (raw_put_key_eq _ _ _ _ _ Hn).
  pose proof (proj2 Hi _ _ Hn) as [Hs _]. pose proof (good_kids _ _ _ Hi Hn (proj2 Hl)) as Hk.
  set (n' := set_dict (oinsert k p (nd_dict n)) (as_dict n)).
  assert (Hs' : shape n').
  { apply shape_set_dict; [now apply shape_as_dict|apply as_dict_ty|apply osorted_insert; apply Hs]. }
  assert (Hk' : forall c, In c (kids n') -> good h c).
  { intros c Hc. apply in_kids in Hc. simpl in Hc. destruct Hc as [(k' & Hc)|Hc].
    - apply in_oinsert in Hc. destruct Hc as [Hc|Hc].
      + injection Hc as -> <-. exact Hp.
      + apply Hk, in_kids. eauto.
    - apply Hk. apply kids_as_dict; auto. apply in_kids. auto. }
  destruct (olookup k (nd_dict n)).
  - destruct (inv_set h l n' Hi Hl Hs' Hk') as [A B]. auto.
  - destruct (inv_app h empty_node Hi shape_empty eq_refl) as [A B].
    destruct (inv_set (h ++ [empty_node]) l n' A) as [C D]; auto using good_app.
    split; [auto|]. split; [eapply rel_trans; eauto|auto].
Qed.

Lemma nth_kid n i c : nth_error (nd_list n) i = Some (Some c) -> In c (kids n).
Proof. intros H. apply in_kids. right. eapply nth_error_In; eauto. Qed.

Lemma tri_get_idx l i h : good h l -> tri (raw_get_idx l i) h (fun p h' => good_opt h' p).
Proof.
  intros Hl Hi. destruct (good_node _ _ Hl) as (n & Hn). rewrite (raw_get_idx_eq _ _ _ _ Hn).
  pose proof (proj2 Hi _ _ Hn) as [Hs _]. pose proof (good_kids _ _ _ Hi Hn (proj2 Hl)) as Hk.
  destruct (inv_set h l (as_list n) Hi Hl (shape_as_list _ Hs)) as [A B].
  { intros c Hc. apply Hk. now apply kids_as_list. }
  destruct (nth_error (nd_list n) i) as [p|] eqn:E; auto.
  split; [auto|]. split; [auto|]. destruct p as [c|]; simpl; auto. apply good_set, Hk. eapply nth_kid; eauto.
Qed.

Lemma kids_set_list ps n c : shape n -> nd_type n = TList -> In c (kids (set_list ps n)) -> In (Some c) ps.
Proof.
  intros [S H] E Hc. rewrite E in H. apply in_kids in Hc. simpl in Hc. destruct H as [H _]. rewrite H in Hc.
  destruct Hc as [(k & [])|Hc]; auto.
Qed.

Lemma tri_put_idx l i p h : good h l -> good_opt h p -> tri (raw_put_idx l i p) h (fun _ _ => True).
Proof.
  intros Hl Hp Hi. destruct (good_node _ _ Hl) as (n & Hn). rewrite (raw_put_idx_eq _ _ _ _ _ Hn).
  pose proof (proj2 Hi _ _ Hn) as [Hs _]. pose proof (good_kids _ _ _ Hi Hn (proj2 Hl)) as Hk.
  destruct (nth_error (nd_list n) i).
  - destruct (inv_set h l (set_list (list_set i p (nd_list n)) (as_list n)) Hi Hl) as [A B]; auto.
    + apply shape_set_list; [now apply shape_as_list|apply as_list_ty].
    + intros c Hc. apply kids_set_list in Hc; [|now apply shape_as_list|apply as_list_ty].
      apply in_list_set in Hc. destruct Hc as [Hc|Hc].
      * subst p. exact Hp.
      * apply Hk, in_kids. auto.
  - destruct (inv_set h l (as_list n) Hi Hl (shape_as_list _ Hs)) as [A B]; auto.
    intros c Hc. apply Hk. now apply kids_as_list.
Qed.

Lemma tri_add l p h : good h l -> good_opt h p -> tri (raw_add l p) h (fun _ _ => True).
Proof.
  intros Hl Hp Hi. destruct (good_node _ _ Hl) as (n & Hn). rewrite (raw_add_eq _ _ _ _ Hn).
  pose proof (proj2 Hi _ _ Hn) as [Hs _]. pose proof (good_kids _ _ _ Hi Hn (proj2 Hl)) as Hk.
  destruct (inv_set h l (set_list (nd_list n ++ [p]) (as_list n)) Hi Hl) as [A B]; auto.
  - apply shape_set_list; [now apply shape_as_list|apply as_list_ty].
  - intros c Hc. apply kids_set_list in Hc; [|now apply shape_as_list|apply as_list_ty].
    apply in_app_iff in Hc. destruct Hc as [Hc|[->|[]]]; auto. apply Hk, in_kids. auto.
Qed.

Lemma tri_set_data l od h : good h l -> tri (raw_set_data l od) h (fun _ _ => True).
Proof.
  intros Hl Hi. destruct (good_node _ _ Hl) as (n & Hn). rewrite (raw_set_data_eq _ _ _ _ Hn).
  pose proof (proj2 Hi _ _ Hn) as [Hs _]. pose proof (good_kids _ _ _ Hi Hn (proj2 Hl)) as Hk.
  destruct (inv_set h l (value_node n od) Hi Hl (shape_value _ _ Hs)) as [A B]; auto.
  intros c Hc. apply Hk. eapply kids_value; eauto.
Qed.

Lemma tri_remove_key l k h : good h l -> tri (raw_remove_key l k) h (fun _ _ => True).
Proof.
  intros Hl Hi. destruct (good_node _ _ Hl) as (n & Hn). rewrite (raw_remove_key_eq _ _ _ _ Hn).
  pose proof (proj2 Hi _ _ Hn) as [Hs _]. pose proof (good_kids _ _ _ Hi Hn (proj2 Hl)) as Hk.
  destruct (nd_type n) eqn:E; auto using rel_refl.
  destruct (olookup k (nd_dict n)); auto using rel_refl.
  destruct (inv_set h l (set_dict (oremove k (nd_dict n)) n) Hi Hl) as [A B]; auto.
  - apply shape_set_dict; auto. apply osorted_remove, Hs.
  - intros c Hc. apply Hk, in_kids. apply in_kids in Hc. simpl in Hc.
    destruct Hc as [(k' & Hc)|Hc]; auto. apply in_oremove in Hc. eauto.
Qed.

Lemma tri_remove_idx l i h : good h l -> tri (raw_remove_idx l i) h (fun _ _ => True).
Proof.
  intros Hl Hi. destruct (good_node _ _ Hl) as (n & Hn). rewrite (raw_remove_idx_eq _ _ _ _ Hn).
  pose proof (proj2 Hi _ _ Hn) as [Hs _]. pose proof (good_kids _ _ _ Hi Hn (proj2 Hl)) as Hk.
  destruct (nd_type n) eqn:E; auto using rel_refl.
  destruct (nth_error (nd_list n) i); auto using rel_refl.
  destruct (inv_set h l (set_list (list_del i (nd_list n)) n) Hi Hl) as [A B]; auto.
  - now apply shape_set_list.
  - intros c Hc. apply kids_set_list in Hc; auto. apply Hk, in_kids. right. eapply in_list_del; eauto.
Qed.

Lemma tri_clear l h : good h l -> tri (raw_clear l) h (fun _ _ => True).
Proof.
  intros Hl Hi. destruct (good_node _ _ Hl) as (n & Hn). rewrite (raw_clear_eq _ _ _ Hn).
  pose proof (proj2 Hi _ _ Hn) as [Hs _]. pose proof (good_kids _ _ _ Hi Hn (proj2 Hl)) as Hk.
  destruct (nd_type n) eqn:E; auto using rel_refl.
  - destruct (inv_set h l (set_list [] n) Hi Hl) as [A B]; auto.
    + now apply shape_set_list.
    + intros c Hc. apply kids_set_list in Hc; auto. destruct Hc.
  - destruct (inv_set h l (set_dict [] n) Hi Hl) as [A B]; auto.
    + apply shape_set_dict; auto. constructor.
    + intros c Hc. apply Hk, in_kids. apply in_kids in Hc. simpl in Hc. destruct Hc as [(k & [])|Hc]; auto.
Qed.

(** Memberwise assignment: the children of the source must be on the same side. *)
Lemma tri_assign d s h : good h d -> good h s -> tri (raw_assign d s) h (fun _ _ => True).
Proof.
  intros Hd Hs Hi. destruct (good_node _ _ Hd) as (nd & Hnd). destruct (good_node _ _ Hs) as (ns & Hns).
  rewrite (raw_assign_eq _ _ _ _ _ Hnd Hns).
  pose proof (proj2 Hi _ _ Hns) as [Hsh _]. pose proof (good_kids _ _ _ Hi Hns (proj2 Hs)) as Hk.
  destruct (inv_set h d ns Hi Hd Hsh Hk). auto.
Qed.

(** Copying: the source may be any node. *)
Lemma tri_copy f : forall l h, tri (raw_copy f l) h (fun c h' => good h' c).
Proof.
  induction f as [|f IH]; intros l h.
  - simpl. apply (tri_stop h NoFuel). discriminate.
  - rewrite raw_copy_S.
    apply (tri_bind _ _ _ _ _ (tri_load l h)). intros n h0 R0 [-> Hn].
    apply (tri_bind _ _ _ _ _ (tri_new h)). intros c h1 R1 Hc.
    assert (Hs : shape (mkNode [] [] None (nd_type n))).
    { split; [constructor|]. destruct (nd_type n); simpl; auto. }
    refine (tri_bind _ _ _ _ _ (tri_store c _ h1 Hc Hs _) _); [intros x []|].
    intros _ h2 R2 _. pose proof (good_rel _ _ _ R2 Hc) as Hc2.
    destruct (nd_type n).
    + now apply tri_ret.
    + generalize (nd_list n). intros ps. clear -IH Hc2 Pnew. revert h2 Hc2.
      induction ps as [|[p|] ps IHp]; intros h2 Hc2; simpl.
      * now apply tri_ret.
      * apply (tri_bind _ _ _ _ _ (IH p h2)). intros c' h3 R3 Hc'.
        pose proof (good_rel _ _ _ R3 Hc2) as Hc3.
        apply (tri_bind _ _ _ _ _ (tri_add c (Some c') h3 Hc3 Hc')). intros _ h4 R4 _.
        apply IHp. eapply good_rel; eauto.
      * apply (tri_stop h2 UB). discriminate.
    + generalize (nd_dict n). intros ps. clear -IH Hc2 Pnew. revert h2 Hc2.
      induction ps as [|[k [p|]] ps IHp]; intros h2 Hc2; simpl.
      * now apply tri_ret.
      * apply (tri_bind _ _ _ _ _ (IH p h2)). intros c' h3 R3 Hc'.
        pose proof (good_rel _ _ _ R3 Hc2) as Hc3.
        apply (tri_bind _ _ _ _ _ (tri_put_key c k (Some c') h3 Hc3 Hc')). intros _ h4 R4 _.
        apply IHp. eapply good_rel; eauto.
      * apply (tri_stop h2 UB). discriminate.
    + destruct (nd_val n).
      * apply (tri_bind _ _ _ _ _ (tri_set_data c _ h2 Hc2)). intros _ h3 R3 _.
        apply tri_ret. eapply good_rel; eauto.
      * apply (tri_stop h2 UB). discriminate.
Qed.

Lemma tri_copy_ctor f l h : tri (dg_copy_ctor f l) h (fun c h' => good h' c).
Proof.
  apply (tri_bind _ _ _ _ _ (tri_new h)). intros d h1 R1 Hd.
  apply (tri_bind _ _ _ _ _ (tri_copy f l h1)). intros c h2 R2 Hc.
  apply (tri_bind _ _ _ _ _ (tri_assign d c h2 (good_rel _ _ _ R2 Hd) Hc)). intros _ h3 R3 _.
  apply tri_ret. eauto using good_rel.
Qed.

Lemma tri_dg_assign f d s h : good h d -> tri (dg_assign f d s) h (fun _ _ => True).
Proof.
  intros Hd. apply (tri_bind _ _ _ _ _ (tri_copy f s h)). intros c h2 R2 Hc.
  apply tri_assign; auto. eapply good_rel; eauto.
Qed.

Lemma tri_view_key l k h : good h l -> tri (dg_view_key l k) h (fun c h' => good h' c).
Proof.
  intros Hl. apply (tri_bind _ _ _ _ _ (tri_get_key l k h Hl)). intros [p|] h1 R1 Hp.
  - now apply tri_ret.
  - apply (tri_bind _ _ _ _ _ (tri_new h1)). intros c h2 R2 Hc.
    assert (Hl2 : good h2 l) by eauto using good_rel.
    apply (tri_bind _ _ _ _ _ (tri_put_key l k (Some c) h2 Hl2 Hc)). intros _ h3 R3 _.
    apply (tri_bind _ _ _ _ _ (tri_get_key l k h3 (good_rel _ _ _ R3 Hl2))). intros [p|] h4 R4 Hp4.
    + now apply tri_ret.
    + apply tri_new.
Qed.

Lemma tri_view_idx l i h : good h l -> tri (dg_view_idx l i) h (fun c h' => good h' c).
Proof.
  intros Hl. apply (tri_bind _ _ _ _ _ (tri_get_idx l i h Hl)). intros [p|] h1 R1 Hp.
  - now apply tri_ret.
  - apply tri_new.
Qed.

(** ** Commands *)

Definition good_env (h : heap) (env : list loc) : Prop := Forall (good h) env.

Definition cok (h : heap) (env : list loc) (out : cstate * res rv) : Prop :=
  let '((h', env'), r) := out in inv h' /\ rel h h' /\ good_env h' env' /\ exists new, env' = env ++ new.

Lemma good_env_rel h h' env : rel h h' -> good_env h env -> good_env h' env.
Proof. intros HR H. eapply Forall_impl; [|exact H]. intros x. now apply good_rel. Qed.

Lemma cok_same h env r : inv h -> good_env h env -> cok h env ((h, env), r).
Proof. intros Hi He. split; auto. split; [apply rel_refl|]. split; auto. exists []. now rewrite app_nil_r. Qed.

Lemma with_new_ok env m h :
  inv h -> good_env h env -> tri m h (fun c h' => good h' c) -> cok h env (with_new env m h).
Proof.
  intros Hi He Hm. unfold with_new. specialize (Hm Hi).
  destruct (m h) as [h' [l|e| |]]; destruct Hm as (A & B & C); split; auto; split; auto.
  - split; [|now exists [l]]. apply Forall_app. split; [eapply good_env_rel; eauto|]. constructor; auto.
  - split; [eapply good_env_rel; eauto|]. exists []. now rewrite app_nil_r.
  - split; [eapply good_env_rel; eauto|]. exists []. now rewrite app_nil_r.
  - split; [eapply good_env_rel; eauto|]. exists []. now rewrite app_nil_r.
Qed.

Lemma with_res_ok {A} env (f : A -> rv) m h Q :
  inv h -> good_env h env -> tri m h Q -> cok h env (with_res env f m h).
Proof.
  intros Hi He Hm. unfold with_res. specialize (Hm Hi). destruct (m h) as [h' r]. destruct Hm as (A1 & B & C).
  split; [auto|]. split; [auto|]. split; [eapply good_env_rel; eauto|]. exists []. now rewrite app_nil_r.
Qed.

Lemma with_handle_ok env s h k :
  inv h -> good_env h env -> (forall l, In l env -> good h l -> cok h env (k l)) -> cok h env (with_handle env s h k).
Proof.
  intros Hi He Hk. unfold with_handle. destruct (nth_error env s) as [l|] eqn:E; [|now apply cok_same].
  apply nth_error_In in E. apply Hk; auto. unfold good_env in He. rewrite Forall_forall in He. auto.
Qed.

Lemma with_opt_ok env s h k :
  inv h -> good_env h env -> (forall p, good_opt h p -> cok h env (k p)) -> cok h env (with_opt env s h k).
Proof.
  intros Hi He Hk. unfold with_opt. destruct s; [|apply Hk; exact I].
  apply with_handle_ok; auto.
Qed.

Lemma tri_pure {A} (f : node -> A) (g : A -> res rv) l h :
  tri (n <- load l ;; ret (f n)) h (fun _ _ => True).
Proof. apply (tri_bind _ _ _ _ _ (tri_load l h)). intros n h1 _ _. now apply tri_ret. Qed.

Lemma exec_ok fuel c h env : inv h -> good_env h env -> cok h env (exec fuel c (h, env)).
Proof.
  intros Hi He. destruct c; simpl exec;
    try (apply with_new_ok; auto using tri_new, tri_new_type, tri_new_val; fail);
    try (apply with_handle_ok; auto; intros l Hin Hl).
  all: try (apply with_new_ok; auto using tri_copy_ctor, tri_copy, tri_view_key, tri_view_idx; fail).
  all: try (eapply with_res_ok; eauto using tri_set_data, tri_remove_key, tri_remove_idx, tri_clear; fail).
  all: try (apply with_opt_ok; auto; intros p Hp; eapply with_res_ok; eauto using tri_add, tri_put_key, tri_put_idx; fail).
  all: try (eapply with_res_ok; eauto; apply (tri_bind _ _ _ _ _ (tri_load l h)); intros n h1 _ [-> _];
            apply (tri_ret _ _ (fun _ _ => True)); exact I; fail).
  - apply with_handle_ok; auto. intros ls Hins Hls. eapply with_res_ok; eauto using tri_dg_assign.
  - eapply with_res_ok; eauto. refine (tri_bind _ _ _ (fun c h' => good h' c) (fun _ _ => True) _ _).
    + destruct v; auto using tri_new, tri_new_val.
    + intros c h1 R1 Hc. apply tri_add; auto. eapply good_rel; eauto.
  - eapply with_res_ok; eauto. apply (tri_bind _ _ _ _ (fun _ _ => True) (tri_load l h)). intros n h1 _ [-> _].
    destruct (nd_type n); try (apply (tri_ret _ _ (fun _ _ => True)); exact I);
      apply (tri_stop h (Throw InvalidOperation)); discriminate.
  - eapply with_res_ok; eauto. apply (tri_bind _ _ _ _ (fun _ _ => True) (tri_load l h)). intros n h1 _ [-> _].
    destruct (nd_val n) as [d|]; [destruct (vty_eqb (data_ty d) ty)|];
      try (apply (tri_ret _ _ (fun _ _ => True)); exact I); apply (tri_stop h (Throw InvalidOperation)); discriminate.
  - now apply cok_same.
  - apply with_handle_ok; auto. intros ls Hins Hls. now apply cok_same.
  - apply with_handle_ok; auto. intros ls Hins Hls. eapply with_res_ok; eauto using tri_assign.
Qed.

Lemma run_ok fuel cs : forall h env h' env',
  inv h -> good_env h env -> run fuel cs (h, env) = Some (h', env') ->
  inv h' /\ rel h h' /\ good_env h' env' /\ exists new, env' = env ++ new.
Proof.
  induction cs as [|c cs IH]; intros h env h' env' Hi He Hr.
  - simpl in Hr. injection Hr as <- <-. split; [auto|]. split; [apply rel_refl|]. split; [auto|].
    exists []. now rewrite app_nil_r.
  - cbn [run] in Hr. pose proof (exec_ok fuel c h env Hi He) as Hc.
    destruct (exec fuel c (h, env)) as [[h1 env1] r]. destruct Hc as (I1 & R1 & E1 & (new & ->)).
    assert (Hr' : run fuel cs (h1, env ++ new) = Some (h', env')) by (destruct r; first [exact Hr|discriminate Hr]).
    destruct (IH _ _ _ _ I1 E1 Hr') as (I2 & R2 & E2 & (new2 & ->)).
    split; [auto|]. split; [eapply rel_trans; eauto|]. split; [auto|].
    exists (new ++ new2). now rewrite app_assoc.
Qed.

End Confined.

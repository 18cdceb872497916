(** Closed forms of the heap operations of [DatagramModel]. *)
From Coq Require Import String Ascii List Arith ZArith NArith Bool Lia.
From Verif Require Import Prelude OMap DatagramModel.
Import ListNotations.
Open Scope list_scope.

Definition as_dict (n : node) : node :=
  match nd_type n with TDict => n | _ => mkNode (nd_dict n) [] None TDict end.
Definition as_list (n : node) : node :=
  match nd_type n with TList => n | _ => mkNode [] (nd_list n) None TList end.
Definition set_dict (m : omap (option loc)) (n : node) : node :=
  mkNode m (nd_list n) (nd_val n) (nd_type n).
Definition set_list (ps : list (option loc)) (n : node) : node :=
  mkNode (nd_dict n) ps (nd_val n) (nd_type n).

Lemma as_dict_dict n : nd_dict (as_dict n) = nd_dict n.
Proof. unfold as_dict. now destruct (nd_type n). Qed.
Lemma as_list_list n : nd_list (as_list n) = nd_list n.
Proof. unfold as_list. now destruct (nd_type n). Qed.

Lemma nth_lt {A} (l : list A) i x : nth_error l i = Some x -> i < length l.
Proof. intros H. apply nth_error_Some. congruence. Qed.

Lemma nth_set_eq {A} (l : list A) i x y : nth_error l i = Some y -> nth_error (list_set i x l) i = Some x.
Proof. intros H. apply list_set_eq. eapply nth_lt; eauto. Qed.

Lemma bind_ok {A B} (m : M A) (k : A -> M B) h h' a : m h = (h', Ok a) -> bind m k h = k a h'.
Proof. intros E. unfold bind. now rewrite E. Qed.

Lemma load_ok h l n : nth_error h l = Some n -> load l h = (h, Ok n).
Proof. intros E. unfold load. now rewrite E. Qed.

Lemma store_ok h l n0 n : nth_error h l = Some n0 -> store l n h = (list_set l n h, Ok tt).
Proof. intros E. unfold store. now rewrite E. Qed.

Lemma raw_new_eq h : raw_new h = (h ++ [empty_node], Ok (length h)).
Proof. reflexivity. Qed.

Lemma raw_get_key_eq h l k n :
  nth_error h l = Some n ->
  raw_get_key l k h =
  match olookup k (nd_dict n) with
  | Some p => (list_set l (as_dict n) h, Ok p)
  | None => (list_set l (set_dict (oinsert k (Some (length h)) (nd_dict n)) (as_dict n)) (h ++ [empty_node]),
             Ok (Some (length h)))
  end.
Proof.
  intros Hn.
  unfold raw_get_key. rewrite (bind_ok _ _ _ _ _ (load_ok _ _ _ Hn)).
  assert (E : (match nd_type n with TDict => ret tt | _ => store l (mkNode (nd_dict n) [] None TDict) end) h
              = (list_set l (as_dict n) h, Ok tt)).
  { unfold as_dict. destruct (nd_type n) eqn:T; try now apply store_ok with n.
    unfold ret. now rewrite list_set_same. }
  rewrite (bind_ok _ _ _ _ _ E).
  assert (Hn1 : nth_error (list_set l (as_dict n) h) l = Some (as_dict n)) by (eapply nth_set_eq; eauto).
  rewrite (bind_ok _ _ _ _ _ (load_ok _ _ _ Hn1)).
  rewrite as_dict_dict.
  destruct (olookup k (nd_dict n)) as [p|] eqn:L.
  - rewrite (bind_ok _ _ _ (list_set l (as_dict n) h) tt) by reflexivity.
    rewrite (bind_ok _ _ _ _ _ (load_ok _ _ _ Hn1)).
    rewrite as_dict_dict, L. reflexivity.
  - set (h1 := list_set l (as_dict n) h) in *.
    assert (Hlen : length h1 = length h) by apply list_set_length.
    assert (E1 : (c <- raw_new;;
       store l (mkNode (oinsert k (Some c) (nd_dict n)) (nd_list (as_dict n)) (nd_val (as_dict n)) (nd_type (as_dict n)))) h1
       = (list_set l (set_dict (oinsert k (Some (length h)) (nd_dict n)) (as_dict n)) (h ++ [empty_node]), Ok tt)).
    { rewrite (bind_ok _ _ _ _ _ (raw_new_eq h1)). rewrite Hlen.
      erewrite store_ok.
      2:{ rewrite nth_error_app1; [exact Hn1|]. rewrite Hlen. eapply nth_lt; eauto. }
      f_equal. unfold h1.
      rewrite <- (list_set_app_l l (as_dict n) h [empty_node]) by (eapply nth_lt; eauto).
      now rewrite list_set_set. }
    rewrite (bind_ok _ _ _ _ _ E1).
    assert (Hn2 : nth_error (list_set l (set_dict (oinsert k (Some (length h)) (nd_dict n)) (as_dict n)) (h ++ [empty_node])) l
                  = Some (set_dict (oinsert k (Some (length h)) (nd_dict n)) (as_dict n))).
    { apply list_set_eq. rewrite app_length. apply nth_lt in Hn. simpl. lia. }
    rewrite (bind_ok _ _ _ _ _ (load_ok _ _ _ Hn2)).
    unfold set_dict at 1; cbn [nd_dict]. rewrite olookup_insert_eq'. reflexivity.
Qed.

Lemma oinsert_insert' {V} k (v v' : V) m : oinsert k v (oinsert k v' m) = oinsert k v m.
Proof.
  induction m as [|[k0 v0] m IH]; simpl.
  - now rewrite scompare_refl.
  - destruct (String.compare k k0) eqn:E; simpl; rewrite ?scompare_refl, ?E; auto. now rewrite IH.
Qed.

Definition put_node (h : heap) (k : string) (n : node) (p : option loc) : node :=
  set_dict (oinsert k p (nd_dict n)) (as_dict n).

Lemma raw_put_key_eq h l k n p :
  nth_error h l = Some n ->
  raw_put_key l k p h =
  (list_set l (set_dict (oinsert k p (nd_dict n)) (as_dict n))
     (match olookup k (nd_dict n) with Some _ => h | None => h ++ [empty_node] end), Ok tt).
Proof.
  intros Hn. unfold raw_put_key.
  pose proof (raw_get_key_eq h l k n Hn) as E.
  pose proof (nth_lt _ _ _ Hn) as Hlt.
  destruct (olookup k (nd_dict n)) as [q|] eqn:L.
  - rewrite (bind_ok _ _ _ _ _ E).
    assert (Hn1 : nth_error (list_set l (as_dict n) h) l = Some (as_dict n)) by (eapply nth_set_eq; eauto).
    rewrite (bind_ok _ _ _ _ _ (load_ok _ _ _ Hn1)).
    erewrite store_ok by exact Hn1. rewrite list_set_set, as_dict_dict. reflexivity.
  - rewrite (bind_ok _ _ _ _ _ E).
    assert (Hn1 : nth_error (list_set l (set_dict (oinsert k (Some (length h)) (nd_dict n)) (as_dict n)) (h ++ [empty_node])) l
                  = Some (set_dict (oinsert k (Some (length h)) (nd_dict n)) (as_dict n))).
    { apply list_set_eq. rewrite app_length. simpl. lia. }
    rewrite (bind_ok _ _ _ _ _ (load_ok _ _ _ Hn1)).
    erewrite store_ok by exact Hn1. rewrite list_set_set. simpl.
    rewrite oinsert_insert'. reflexivity.
Qed.

Lemma raw_get_idx_eq h l i n :
  nth_error h l = Some n ->
  raw_get_idx l i h =
  (list_set l (as_list n) h,
   match nth_error (nd_list n) i with Some p => Ok p | None => Throw (IndexOutOfBounds i) end).
Proof.
  intros Hn. unfold raw_get_idx.
  rewrite (bind_ok _ _ _ _ _ (load_ok _ _ _ Hn)).
  assert (E : (match nd_type n with TList => ret tt | _ => store l (mkNode [] (nd_list n) None TList) end) h
              = (list_set l (as_list n) h, Ok tt)).
  { unfold as_list. destruct (nd_type n) eqn:T; try now apply store_ok with n.
    unfold ret. now rewrite list_set_same. }
  rewrite (bind_ok _ _ _ _ _ E).
  assert (Hn1 : nth_error (list_set l (as_list n) h) l = Some (as_list n)) by (eapply nth_set_eq; eauto).
  rewrite (bind_ok _ _ _ _ _ (load_ok _ _ _ Hn1)).
  rewrite as_list_list. destruct (nth_error (nd_list n) i); reflexivity.
Qed.

Lemma raw_put_idx_eq h l i n p :
  nth_error h l = Some n ->
  raw_put_idx l i p h =
  match nth_error (nd_list n) i with
  | Some _ => (list_set l (set_list (list_set i p (nd_list n)) (as_list n)) h, Ok tt)
  | None => (list_set l (as_list n) h, Throw (IndexOutOfBounds i))
  end.
Proof.
  intros Hn. unfold raw_put_idx, bind at 1. rewrite (raw_get_idx_eq _ _ _ _ Hn).
  destruct (nth_error (nd_list n) i); auto.
  assert (Hn1 : nth_error (list_set l (as_list n) h) l = Some (as_list n)) by (eapply nth_set_eq; eauto).
  rewrite (bind_ok _ _ _ _ _ (load_ok _ _ _ Hn1)).
  erewrite store_ok by exact Hn1. rewrite list_set_set, as_list_list. reflexivity.
Qed.

Lemma raw_add_eq h l p n :
  nth_error h l = Some n ->
  raw_add l p h = (list_set l (set_list (nd_list n ++ [p]) (as_list n)) h, Ok tt).
Proof.
  intros Hn. unfold raw_add.
  rewrite (bind_ok _ _ _ _ _ (load_ok _ _ _ Hn)).
  assert (E : (match nd_type n with TList => ret tt | _ => store l (mkNode [] (nd_list n) None TList) end) h
              = (list_set l (as_list n) h, Ok tt)).
  { unfold as_list. destruct (nd_type n) eqn:T; try now apply store_ok with n.
    unfold ret. now rewrite list_set_same. }
  rewrite (bind_ok _ _ _ _ _ E).
  assert (Hn1 : nth_error (list_set l (as_list n) h) l = Some (as_list n)) by (eapply nth_set_eq; eauto).
  rewrite (bind_ok _ _ _ _ _ (load_ok _ _ _ Hn1)).
  erewrite store_ok by exact Hn1. rewrite list_set_set, as_list_list. reflexivity.
Qed.

Definition value_node (n : node) (od : option data) : node :=
  match nd_type n with
  | TValue => mkNode (nd_dict n) (nd_list n) od TValue
  | _ => mkNode [] [] od TValue
  end.

Lemma raw_set_data_eq h l od n :
  nth_error h l = Some n ->
  raw_set_data l od h = (list_set l (value_node n od) h, Ok tt).
Proof.
  intros Hn. unfold raw_set_data, value_node.
  rewrite (bind_ok _ _ _ _ _ (load_ok _ _ _ Hn)).
  destruct (nd_type n); now apply store_ok with n.
Qed.

Lemma raw_remove_key_eq h l k n :
  nth_error h l = Some n ->
  raw_remove_key l k h =
  match nd_type n with
  | TDict => match olookup k (nd_dict n) with
             | None => (h, Throw (KeyNotFound k))
             | Some _ => (list_set l (set_dict (oremove k (nd_dict n)) n) h, Ok tt)
             end
  | _ => (h, Throw InvalidOperation)
  end.
Proof.
  intros Hn. unfold raw_remove_key. rewrite (bind_ok _ _ _ _ _ (load_ok _ _ _ Hn)).
  destruct (nd_type n) eqn:T; auto. destruct (olookup k (nd_dict n)); auto.
  erewrite store_ok by exact Hn. unfold set_dict. now rewrite T.
Qed.

Lemma raw_remove_idx_eq h l i n :
  nth_error h l = Some n ->
  raw_remove_idx l i h =
  match nd_type n with
  | TList => match nth_error (nd_list n) i with
             | None => (h, Throw (IndexOutOfBounds i))
             | Some _ => (list_set l (set_list (list_del i (nd_list n)) n) h, Ok tt)
             end
  | _ => (h, Throw InvalidOperation)
  end.
Proof.
  intros Hn. unfold raw_remove_idx. rewrite (bind_ok _ _ _ _ _ (load_ok _ _ _ Hn)).
  destruct (nd_type n) eqn:T; auto. destruct (nth_error (nd_list n) i); auto.
  erewrite store_ok by exact Hn. unfold set_list. now rewrite T.
Qed.

Lemma raw_clear_eq h l n :
  nth_error h l = Some n ->
  raw_clear l h =
  match nd_type n with
  | TList => (list_set l (set_list [] n) h, Ok tt)
  | TDict => (list_set l (set_dict [] n) h, Ok tt)
  | _ => (h, Throw InvalidOperation)
  end.
Proof.
  intros Hn. unfold raw_clear. rewrite (bind_ok _ _ _ _ _ (load_ok _ _ _ Hn)).
  destruct (nd_type n) eqn:T; auto; erewrite store_ok by exact Hn; unfold set_list, set_dict; now rewrite T.
Qed.

Lemma raw_assign_eq h d s n0 n :
  nth_error h d = Some n0 -> nth_error h s = Some n ->
  raw_assign d s h = (list_set d n h, Ok tt).
Proof.
  intros Hd Hs. unfold raw_assign. rewrite (bind_ok _ _ _ _ _ (load_ok _ _ _ Hs)).
  now apply store_ok with n0.
Qed.

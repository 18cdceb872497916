(** Finite trees: preserved by every command that cannot close a loop, and
    needed for copying and comparing to return. *)
From Coq Require Import String Ascii List Arith ZArith NArith Bool Lia Sorting.
From Verif Require Import Prelude OMap DatagramModel DatagramSpec DatagramHeap DatagramProofs DatagramEq
  DatagramRefine DatagramInv DatagramIso.
Import ListNotations.
Open Scope list_scope.

Definition finite_at (h : heap) (l : loc) : Prop := exists t, denotes h l t.

Definition finite_state (st : cstate) : Prop := Forall (finite_at (fst st)) (snd st).

(** Commands that insert raw pointers: no null, and the node receiving the
    pointer is not reachable from the inserted node. *)
Definition loop_free (c : cmd) (st : cstate) : Prop :=
  let (h, env) := st in
  match c with
  | CAdd d s | CPutKey d _ s | CPutIdx d _ s =>
    match s with
    | None => False
    | Some j => forall ld ls, nth_error env d = Some ld -> nth_error env j = Some ls -> ~ reach h [ls] ld
    end
  | CRawAssign d s =>
    forall ld ls n c, nth_error env d = Some ld -> nth_error env s = Some ls ->
      nth_error h ls = Some n -> In c (kids n) -> ~ reach h [c] ld
  | CAssignData _ None => False
  | _ => True
  end.

Definition returns {A} (r : res A) : Prop := match r with Ok _ | Throw _ => True | _ => False end.

(** ** Acyclicity of represented nodes *)

Lemma own_sub_both h :
  (forall x t F, own h x t F -> forall l, In l F -> exists t' F', own h l t' F' /\ dg_depth t' <= dg_depth t) /\
  (forall ps ts F, owns h ps ts F -> forall l, In l F ->
     exists t0 t' F', In t0 ts /\ own h l t' F' /\ dg_depth t' <= dg_depth t0).
Proof.
  apply own_owns_ind.
  - intros l H x [<-|[]]. exists Emp, [l]. split; auto. now constructor.
  - intros l d H x [<-|[]]. exists (Val d), [l]. split; auto. now constructor.
  - intros l ps ts F H HO IH x [<-|Hx].
    + exists (Lst ts), (l :: F). split; auto. econstructor; eauto.
    + destruct (IH x Hx) as (t0 & t' & F' & Hin & HO' & Hd). exists t', F'. split; auto.
      pose proof (depth_lst_child _ _ Hin). lia.
  - intros l m kvs F H Hs Hk HO IH x [<-|Hx].
    + exists (Dct kvs), (l :: F). split; auto. econstructor; eauto.
    + destruct (IH x Hx) as (t0 & t' & F' & Hin & HO' & Hd). exists t', F'. split; auto.
      apply in_map_iff in Hin. destruct Hin as (p & <- & Hin).
      pose proof (depth_dct_child _ _ Hin). lia.
  - intros l [].
  - intros p ps t ts F1 F2 H1 IH1 H2 IH2 l Hl. apply in_app_iff in Hl. destruct Hl as [Hl|Hl].
    + destruct (IH1 l Hl) as (t' & F' & A & B). exists t, t', F'. simpl. auto.
    + destruct (IH2 l Hl) as (t0 & t' & F' & A & B & C). exists t0, t', F'. simpl. auto.
Qed.

Lemma own_acyclic h l t F0 : own h l t (l :: F0) -> ~ In l F0.
Proof.
  intros HO Hin. pose proof HO as HO2.
  inversion HO as [| |? ps ts F Hn HOs|? m kvs F Hn Hs Hk HOs]; subst; try (destruct Hin; fail).
  - destruct (proj2 (own_sub_both h) _ _ _ HOs _ Hin) as (t0 & t' & F' & Hi & HO' & Hd).
    destruct (own_det _ _ _ _ _ _ HO2 HO') as [<- _]. pose proof (depth_lst_child _ _ Hi). lia.
  - destruct (proj2 (own_sub_both h) _ _ _ HOs _ Hin) as (t0 & t' & F' & Hi & HO' & Hd).
    destruct (own_det _ _ _ _ _ _ HO2 HO') as [<- _].
    apply in_map_iff in Hi. destruct Hi as (p & <- & Hi). pose proof (depth_dct_child _ _ Hi). lia.
Qed.

(** ** Nodes whose children are finite *)

Definition slots (n : node) : list (option loc) := map snd (nd_dict n) ++ nd_list n.

Definition solid (l : loc) (h : heap) (n : node) : Prop :=
  shape n /\
  (forall p, In p (slots n) -> exists c t F, p = Some c /\ own h c t F /\ ~ In l F) /\
  (nd_type n = TValue -> nd_val n <> None).

Lemma owns_in h ps ts F p : owns h ps ts F -> In p ps ->
  exists c t F', p = Some c /\ own h c t F' /\ forall x, In x F' -> In x F.
Proof.
  induction 1 as [|q qs t ts F1 F2 H1 H2 IH]; intros Hin; [destruct Hin|].
  destruct Hin as [<-|Hin].
  - exists q, t, F1. split; auto. split; auto. intros. apply in_app_iff; auto.
  - destruct (IH Hin) as (c & t' & F' & A & B & C). exists c, t', F'. split; auto. split; auto.
    intros. apply in_app_iff; auto.
Qed.

Lemma solid_own h l t F n : own h l t F -> nth_error h l = Some n -> solid l h n.
Proof.
  intros HO Hn. pose proof HO as HO2.
  inversion HO as [? Hn'|? v Hn'|? ps ts F0 Hn' HOs|? m kvs F0 Hn' Hs Hk HOs]; subst;
    rewrite Hn in Hn'; injection Hn' as ->.
  - split; [apply shape_empty|]. split; [intros p []|discriminate].
  - split; [split; [constructor|simpl; auto]|]. split; [intros p []|discriminate].
  - split; [split; [constructor|simpl; auto]|]. split; [|discriminate].
    intros p Hp. unfold slots in Hp. simpl in Hp.
    destruct (owns_in _ _ _ _ _ HOs Hp) as (c & t & F' & -> & A & B). exists c, t, F'. split; auto. split; auto.
    intros Hl. apply (own_acyclic _ _ _ _ HO2). auto.
  - split; [split; [auto|simpl; auto]|]. split; [|discriminate].
    intros p Hp. unfold slots in Hp. simpl in Hp. rewrite app_nil_r in Hp.
    destruct (owns_in _ _ _ _ _ HOs Hp) as (c & t & F' & -> & A & B). exists c, t, F'. split; auto. split; auto.
    intros Hl. apply (own_acyclic _ _ _ _ HO2). auto.
Qed.

Lemma solid_ext l h h' n : solid l h n -> extends h h' -> solid l h' n.
Proof.
  intros (A & B & C) X. split; auto. split; auto.
  intros p Hp. destruct (B p Hp) as (c & t & F & -> & D & E). exists c, t, F. split; auto. split; auto.
  eapply own_extends; eauto.
Qed.

Lemma slots_owns l h ps :
  (forall p, In p ps -> exists c t F, p = Some c /\ own h c t F /\ ~ In l F) ->
  exists ts F, owns h ps ts F /\ ~ In l F.
Proof.
  induction ps as [|p ps IH]; intros H.
  - exists [], []. split; [constructor|auto].
  - destruct (H p (or_introl eq_refl)) as (c & t & F1 & -> & A & B).
    destruct IH as (ts & F2 & C & D); [intros; apply H; simpl; auto|].
    exists (t :: ts), (F1 ++ F2). split; [now constructor|]. rewrite in_app_iff. tauto.
Qed.

Lemma map_fst_combine {A B} (l : list A) (l' : list B) : length l = length l' -> map fst (combine l l') = l.
Proof. revert l'; induction l; intros [|b l'] H; simpl in *; try discriminate; auto. f_equal. auto. Qed.
Lemma map_snd_combine {A B} (l : list A) (l' : list B) : length l = length l' -> map snd (combine l l') = l'.
Proof. revert l'; induction l; intros [|b l'] H; simpl in *; try discriminate; auto. f_equal. auto. Qed.

Lemma solid_build l h h' n :
  solid l h n -> nth_error h' l = Some n -> (forall x, x <> l -> x < length h -> nth_error h' x = nth_error h x) ->
  finite_at h' l.
Proof.
  intros ([Ss Sh] & B & C) Hn Hf.
  assert (Fr : forall ps ts F, owns h ps ts F -> ~ In l F -> owns h' ps ts F).
  { intros ps ts F HO Hl. eapply owns_frame; eauto. intros x Hx. apply Hf.
    - intros ->. auto.
    - pose proof (owns_valid _ _ _ _ HO) as V. rewrite Forall_forall in V. auto. }
  destruct n as [d ls v ty]. simpl in *. destruct ty; simpl in *.
  - destruct Sh as (-> & -> & ->). exists Emp, [l]. now constructor.
  - destruct Sh as (-> & ->). unfold slots in B. simpl in B.
    destruct (slots_owns l h ls B) as (ts & F & HO & HF). exists (Lst ts), (l :: F). econstructor; eauto.
  - destruct Sh as (-> & ->). unfold slots in B. simpl in B. rewrite app_nil_r in B.
    destruct (slots_owns l h _ B) as (ts & F & HO & HF).
    assert (L : length (okeys d) = length ts).
    { pose proof (owns_length _ _ _ _ HO). unfold okeys. rewrite map_length in *. auto. }
    exists (Dct (combine (okeys d) ts)), (l :: F). econstructor; eauto.
    + unfold okeys at 2. now rewrite map_fst_combine.
    + rewrite map_snd_combine by auto. auto.
  - destruct Sh as (-> & ->). destruct v as [v|]; [|destruct C; auto].
    exists (Val v), [l]. now constructor.
Qed.

Lemma own_patch_both h h' l :
  finite_at h' l -> (forall x, x <> l -> x < length h -> nth_error h' x = nth_error h x) ->
  (forall x t F, own h x t F -> finite_at h' x) /\
  (forall ps ts F, owns h ps ts F -> exists ts' F', owns h' ps ts' F').
Proof.
  intros Hl Hf.
  assert (Hn : forall x n, x <> l -> nth_error h x = Some n -> nth_error h' x = Some n).
  { intros x n Hx Hn. rewrite Hf; auto. eapply nth_lt; eauto. }
  apply own_owns_ind.
  - intros x H. destruct (Nat.eq_dec x l) as [->|Hx]; auto. exists Emp, [x]. constructor. auto.
  - intros x d H. destruct (Nat.eq_dec x l) as [->|Hx]; auto. exists (Val d), [x]. constructor. auto.
  - intros x ps ts F H HO (ts' & F' & IH). destruct (Nat.eq_dec x l) as [->|Hx]; auto.
    exists (Lst ts'), (x :: F'). econstructor; eauto.
  - intros x m kvs F H Hs Hk HO (ts' & F' & IH). destruct (Nat.eq_dec x l) as [->|Hx]; auto.
    assert (L : length (okeys m) = length ts').
    { pose proof (owns_length _ _ _ _ IH). unfold okeys. rewrite map_length in *. auto. }
    exists (Dct (combine (okeys m) ts')), (x :: F'). econstructor; eauto.
    + unfold okeys at 2. now rewrite map_fst_combine.
    + rewrite map_snd_combine by auto. auto.
  - exists [], []. constructor.
  - intros p ps t ts F1 F2 H1 (t' & F1' & IH1) H2 (ts' & F2' & IH2).
    exists (t' :: ts'), (F1' ++ F2'). now constructor.
Qed.

Lemma fin_set h l n0 n :
  nth_error h l = Some n0 -> solid l h n ->
  finite_at (list_set l n h) l /\ forall x, finite_at h x -> finite_at (list_set l n h) x.
Proof.
  intros Hn Hs.
  assert (Hf : forall x, x <> l -> x < length h -> nth_error (list_set l n h) x = nth_error h x)
    by (intros; apply list_set_ne; auto).
  assert (Hl : finite_at (list_set l n h) l).
  { eapply solid_build; eauto. eapply nth_set_eq; eauto. }
  split; auto. intros x (t & F & HO). eapply (proj1 (own_patch_both h _ l Hl Hf)); eauto.
Qed.

Lemma fin_ext h h' x : extends h h' -> finite_at h x -> finite_at h' x.
Proof. intros X (t & F & HO). exists t, F. eapply own_extends; eauto. Qed.

Lemma fin_app_new h n : solid (length h) h n -> finite_at (h ++ [n]) (length h).
Proof.
  intros Hs. eapply solid_build; eauto.
  - apply nth_error_app_new.
  - intros x _ Hx. now apply nth_error_app1.
Qed.

(** Solidity of the nodes written by each operation. *)
Definition slot_ok (l : loc) (h : heap) (p : option loc) : Prop :=
  exists c t F, p = Some c /\ own h c t F /\ ~ In l F.

Lemma slots_in p n : In p (slots n) <-> (exists k, In (k, p) (nd_dict n)) \/ In p (nd_list n).
Proof.
  unfold slots. rewrite in_app_iff, in_map_iff. split; (intros [H|H]; [left|right; auto]).
  - destruct H as ([k q] & E & H). simpl in E. subst. eauto.
  - destruct H as (k & H). exists (k, p). auto.
Qed.

Lemma solid_as_dict l h n : solid l h n -> solid l h (as_dict n).
Proof.
  intros (A & B & C). split; [now apply shape_as_dict|]. split.
  - intros p Hp. apply B. rewrite slots_in in *. rewrite as_dict_dict in Hp.
    unfold as_dict in Hp. destruct (nd_type n); simpl in Hp; tauto.
  - rewrite as_dict_ty. discriminate.
Qed.

Lemma solid_as_list l h n : solid l h n -> solid l h (as_list n).
Proof.
  intros (A & B & C). split; [now apply shape_as_list|]. split.
  - intros p Hp. apply B. rewrite slots_in in *. rewrite as_list_list in Hp.
    unfold as_list in Hp. destruct (nd_type n); simpl in Hp; firstorder.
  - rewrite as_list_ty. discriminate.
Qed.

Lemma solid_set_dict l h n k p :
  solid l h n -> slot_ok l h p -> solid l h (set_dict (oinsert k p (nd_dict n)) (as_dict n)).
Proof.
  intros Hs Hp. pose proof (solid_as_dict _ _ _ Hs) as (A & B & C). split.
  - apply shape_set_dict; auto; [apply as_dict_ty|]. apply osorted_insert. apply Hs.
  - split; [|simpl; rewrite as_dict_ty; discriminate].
    intros q Hq. apply slots_in in Hq. simpl in Hq. destruct Hq as [(k' & Hq)|Hq].
    + apply in_oinsert in Hq. destruct Hq as [Hq|Hq]; [injection Hq as -> ->; auto|].
      apply (proj1 (proj2 Hs)). apply slots_in. eauto.
    + apply B, slots_in. auto.
Qed.

Lemma solid_set_list l h n ps :
  solid l h n -> (forall p, In p ps -> slot_ok l h p) -> solid l h (set_list ps (as_list n)).
Proof.
  intros Hs Hp. pose proof (solid_as_list _ _ _ Hs) as (A & B & C). split.
  - apply shape_set_list; auto. apply as_list_ty.
  - split; [|simpl; rewrite as_list_ty; discriminate].
    intros q Hq. apply slots_in in Hq. simpl in Hq. destruct Hq as [(k' & Hq)|Hq].
    + apply B, slots_in. eauto.
    + exact (Hp q Hq).
Qed.

Lemma solid_list_slots l h n p : solid l h n -> In p (nd_list n) -> slot_ok l h p.
Proof. intros (_ & B & _) Hp. apply B, slots_in. auto. Qed.

Lemma solid_value l h n d : solid l h n -> solid l h (value_node n (Some d)).
Proof.
  intros (A & B & C). split; [now apply shape_value|]. split.
  - intros p Hp. apply B. rewrite slots_in in *. unfold value_node in Hp. destruct (nd_type n); simpl in *; firstorder.
  - unfold value_node. destruct (nd_type n); simpl; discriminate.
Qed.

Lemma solid_leaf l h n : shape n -> slots n = [] -> (nd_type n = TValue -> nd_val n <> None) -> solid l h n.
Proof. intros A B C. split; auto. split; auto. rewrite B. intros p []. Qed.

(** ** Copying does not depend on the bound once it suffices *)

Lemma copy_mono f : forall l h h' c, raw_copy f l h = (h', Ok c) ->
  forall f', f <= f' -> raw_copy f' l h = (h', Ok c).
Proof.
  induction f as [|f IH]; intros l h h' c E f' Hf; [discriminate|].
  destruct f' as [|f']; [lia|]. rewrite raw_copy_S in *.
  unfold bind in *. destruct (load l h) as [h1 [n| | |]]; try discriminate.
  destruct (raw_new h1) as [h2 [c0| | |]]; try discriminate.
  destruct (store c0 {| nd_dict := []; nd_list := []; nd_val := None; nd_type := nd_type n |} h2) as [h3 [u| | |]]; try discriminate.
  destruct (nd_type n); auto.
  - clear -IH E Hf. revert h3 E. generalize (nd_list n). intros ps. induction ps as [|[p|] ps IHp]; intros h3 E; auto.
    simpl in E |- *. unfold bind in *.
    destruct (raw_copy f p h3) as [h4 [c'| | |]] eqn:E1; try discriminate.
    rewrite (IH _ _ _ _ E1 f') by lia.
    destruct (raw_add c0 (Some c') h4) as [h5 [u| | |]]; try discriminate. auto.
  - clear -IH E Hf. revert h3 E. generalize (nd_dict n). intros ps. induction ps as [|[k [p|]] ps IHp]; intros h3 E; auto.
    simpl in E |- *. unfold bind in *.
    destruct (raw_copy f p h3) as [h4 [c'| | |]] eqn:E1; try discriminate.
    rewrite (IH _ _ _ _ E1 f') by lia.
    destruct (raw_put_key c0 k (Some c') h4) as [h5 [u| | |]]; try discriminate. auto.
Qed.

(** One copy of a finite node. *)
Lemma copy_finite h l :
  finite_at h l ->
  exists N h' c, (forall f, N <= f -> raw_copy f l h = (h', Ok c)) /\ extends h h' /\ finite_at h' c /\
    length h <= c /\ c < length h'.
Proof.
  intros (t & F & HO).
  destruct (raw_copy_ok t (S (dg_depth t)) h l F HO) as (h1 & c & F1 & E1 & X1 & O1 & N1 & G1); [lia|].
  exists (S (dg_depth t)), h1, c. split; [intros f Hf; eapply copy_mono; eauto|]. split; auto.
  split; [exists t, F1; auto|]. pose proof (own_in_head _ _ _ _ O1) as Hc. split.
  - rewrite Forall_forall in G1. auto.
  - pose proof (own_valid _ _ _ _ O1) as V. rewrite Forall_forall in V. auto.
Qed.

Lemma finite_node h l : finite_at h l -> exists n, nth_error h l = Some n /\ solid l h n.
Proof.
  intros (t & F & HO). destruct (own_node _ _ _ _ HO) as (n & Hn & _). exists n. split; auto.
  eapply solid_own; eauto.
Qed.

Lemma assign_finite h d s :
  finite_at h d -> finite_at h s ->
  exists N h', (forall f, N <= f -> dg_assign f d s h = (h', Ok tt)) /\ finite_at h' d /\
    length h <= length h' /\ forall x, finite_at h x -> finite_at h' x.
Proof.
  intros Hd Hs. destruct (copy_finite h s Hs) as (N & h1 & c & E & X & Hc & Hc1 & Hc2).
  destruct (finite_node _ _ Hd) as (nd & Hnd & Sd).
  assert (Hnd1 : nth_error h1 d = Some nd) by (destruct X as [_ X]; rewrite X; auto; eapply nth_lt; eauto).
  destruct (finite_node _ _ Hc) as (nc & Hnc & Sc).
  exists N, (list_set d nc h1).
  assert (Hdl : d < length h) by (eapply nth_lt; eauto).
  assert (Sdc : solid d h1 nc).
  { destruct Hs as (t & F & HO). destruct Sc as (A & B & C). split; auto. split; auto.
    (* children of the fresh copy do not contain [d] *)
    destruct (raw_copy_ok t (S (Nat.max N (dg_depth t))) h s F HO) as (h1' & c' & F1 & E1 & X1 & O1 & N1 & G1); [lia|].
    rewrite E in E1 by lia. injection E1 as <- <-.
    intros p Hp. destruct (B p Hp) as (x & tx & Fx & -> & Ox & _). exists x, tx, Fx. split; auto. split; auto.
    assert (Hsub : forall y, In y Fx -> In y F1).
    { intros y Hy. rewrite Forall_forall in G1.
      inversion O1 as [? Hn'|? v Hn'|? ps ts F0 Hn' HOs|? m kvs F0 Hn' Hs' Hk HOs]; subst;
        rewrite Hnc in Hn'; injection Hn' as ->; unfold slots in Hp; simpl in Hp; try (destruct Hp; fail).
      - destruct (owns_in _ _ _ _ _ HOs Hp) as (x' & t' & F' & Ex & O' & Hi). injection Ex as <-.
        destruct (own_det _ _ _ _ _ _ O' Ox) as [_ <-]. right. auto.
      - rewrite app_nil_r in Hp.
        destruct (owns_in _ _ _ _ _ HOs Hp) as (x' & t' & F' & Ex & O' & Hi). injection Ex as <-.
        destruct (own_det _ _ _ _ _ _ O' Ox) as [_ <-]. right. auto. }
    intros Hdx. apply Hsub in Hdx. rewrite Forall_forall in G1. apply G1 in Hdx. lia. }
  destruct (fin_set h1 d nd nc Hnd1 Sdc) as [Fd Fx].
  split; [|split; [exact Fd|]].
  - intros f Hf. unfold dg_assign. rewrite (bind_ok _ _ _ _ _ (E f Hf)). now apply raw_assign_eq with nd.
  - split; [rewrite list_set_length; apply X|]. intros x Hx. apply Fx. eapply fin_ext; eauto.
Qed.

(** ** Every loop-free command returns and keeps all handles finite *)

Definition settles (c : cmd) (st : cstate) : Prop :=
  exists N st' r, (forall fuel, N <= fuel -> exec fuel c st = (st', r)) /\ returns r /\ finite_state st'.

Lemma settle0 c st st' r :
  (forall fuel, exec fuel c st = (st', r)) -> returns r -> finite_state st' -> settles c st.
Proof. intros A B C. exists 0, st', r. auto. Qed.

Lemma settle_ok c st st' a :
  (forall fuel, exec fuel c st = (st', Ok a)) -> finite_state st' -> settles c st.
Proof. intros A C. exists 0, st', (Ok a). simpl. auto. Qed.
Lemma settle_throw c st st' e :
  (forall fuel, exec fuel c st = (st', Throw e)) -> finite_state st' -> settles c st.
Proof. intros A C. exists 0, st', (Throw e). simpl. auto. Qed.

Lemma fin_env h h' env : Forall (finite_at h) env -> (forall x, finite_at h x -> finite_at h' x) -> Forall (finite_at h') env.
Proof. intros A B. eapply Forall_impl; eauto. Qed.

Lemma fin_snoc h env l : Forall (finite_at h) env -> finite_at h l -> finite_state (h, env ++ [l]).
Proof. intros A B. apply Forall_app. split; auto. Qed.

Lemma settles_new c h env n :
  (forall fuel, exec fuel c (h, env) = with_new env (alloc n) h) ->
  solid (length h) h n -> finite_state (h, env) -> settles c (h, env).
Proof.
  intros E Hs Hf. eapply settle0; [intros fuel; rewrite E; reflexivity|exact I|].
  apply fin_snoc; [|now apply fin_app_new]. eapply fin_env; eauto. intros x. apply fin_ext, extends_app.
Qed.

Lemma handle_finite h env s l : finite_state (h, env) -> nth_error env s = Some l -> finite_at h l.
Proof. intros Hf Hs. apply nth_error_In in Hs. unfold finite_state in Hf. rewrite Forall_forall in Hf. auto. Qed.

Lemma avoid_reach h l x : finite_at h x -> ~ reach h [x] l -> slot_ok l h (Some x).
Proof.
  intros (t & F & HO) Hr. exists x, t, F. split; auto. split; auto. intros Hl. apply Hr.
  eapply (proj1 (own_reach_both h)); eauto. apply reach_env. simpl. auto.
Qed.


Ltac handle env s l E Hf :=
  destruct (nth_error env s) as [l|] eqn:E;
  [|eapply settle0; [intros fuel; simpl; unfold with_handle; rewrite E; reflexivity|exact I|exact Hf]].

Lemma list_del_in {A} i (l : list A) x : In x (list_del i l) -> In x l.
Proof. apply in_list_del. Qed.

Lemma finite_settles c st : finite_state st -> loop_free c st -> settles c st.
Proof.
  destruct st as [h env]. intros Hf Hlf.
  assert (HS : forall l n0 n, nth_error h l = Some n0 -> solid l h n -> finite_state (list_set l n h, env)).
  { intros l n0 n Hn Hs. destruct (fin_set h l n0 n Hn Hs) as [_ Hx]. eapply fin_env; eauto. }
  destruct c; cbn [loop_free] in Hlf.
  - (* CNew *) eapply settles_new; [reflexivity| |auto]. apply solid_leaf; [apply shape_empty|reflexivity|discriminate].
  - (* CNewType *) eapply settles_new; [reflexivity| |auto]. apply solid_leaf; [|reflexivity|].
    + split; [constructor|]. destruct ty; simpl; auto.
    + destruct ty; simpl; try discriminate.
  - (* CNewVal *) eapply settles_new; [reflexivity| |auto]. apply solid_leaf; [|reflexivity|simpl; discriminate].
    split; [constructor|]. simpl; auto.
  - (* CCopy *)
    handle env s l El Hf. pose proof (handle_finite _ _ _ _ Hf El) as Hl.
    set (h0 := h ++ [empty_node]).
    assert (Hl0 : finite_at h0 l) by (eapply fin_ext; eauto using extends_app).
    assert (Hd0 : finite_at h0 (length h)).
    { apply fin_app_new. apply solid_leaf; [apply shape_empty|reflexivity|discriminate]. }
    destruct (assign_finite h0 (length h) l Hd0 Hl0) as (N & h' & E & Hd & HL & Hx).
    exists N, (h', env ++ [length h]), (Ok RHandle). split; [|split; [exact I|]].
    + intros fuel Hfu. simpl. unfold with_handle. rewrite El. unfold with_new, dg_copy_ctor.
      rewrite (bind_ok _ _ _ _ _ (raw_new_eq h)). fold h0. specialize (E fuel Hfu). unfold dg_assign in E.
      unfold bind in E |- *. destruct (raw_copy fuel l h0) as [hh [c| | |]]; try discriminate.
      now rewrite E.
    + apply fin_snoc; auto. eapply fin_env; eauto. intros x Hxx. apply Hx. eapply fin_ext; eauto using extends_app.
  - (* CViewKey *)
    handle env s l El Hf. pose proof (handle_finite _ _ _ _ Hf El) as Hl.
    destruct (finite_node _ _ Hl) as (n & Hn & Sn).
    pose proof (raw_get_key_eq _ _ k _ Hn) as E.
    destruct (olookup k (nd_dict n)) as [p|] eqn:Ek.
    + assert (Hp : slot_ok l h p).
      { apply (proj1 (proj2 Sn)). apply slots_in. left. exists k. now apply olookup_in. }
      destruct Hp as (c & t & F & -> & Oc & _).
      destruct (fin_set h l n (as_dict n) Hn (solid_as_dict _ _ _ Sn)) as [Fl Fx].
      eapply settle_ok.
      * intros fuel. simpl. unfold with_handle. rewrite El. unfold with_new, dg_view_key.
        rewrite (bind_ok _ _ _ _ _ E). reflexivity.
      * apply fin_snoc; [eapply fin_env; eauto|]. apply Fx. exists t, F. auto.
    + set (h0 := h ++ [empty_node]) in *.
      assert (Sn0 : solid l h0 n) by (eapply solid_ext; eauto using extends_app).
      assert (Hn0 : nth_error h0 l = Some n) by (unfold h0; rewrite nth_error_app1; auto; eapply nth_lt; eauto).
      assert (Oc : own h0 (length h) Emp [length h]) by (constructor; apply nth_error_app_new).
      assert (Hp : slot_ok l h0 (Some (length h))).
      { exists (length h), Emp, [length h]. split; auto. split; auto. intros [Hq|[]]. apply nth_lt in Hn. lia. }
      destruct (fin_set h0 l n _ Hn0 (solid_set_dict _ _ _ k _ Sn0 Hp)) as [Fl Fx].
      eapply settle_ok.
      * intros fuel. simpl. unfold with_handle. rewrite El. unfold with_new, dg_view_key.
        rewrite (bind_ok _ _ _ _ _ E). reflexivity.
      * apply fin_snoc; [eapply fin_env; eauto|].
        -- intros x Hxx. apply Fx. eapply fin_ext; eauto using extends_app.
        -- apply Fx. exists Emp, [length h]. auto.
  - (* CViewIdx *)
    handle env s l El Hf. pose proof (handle_finite _ _ _ _ Hf El) as Hl.
    destruct (finite_node _ _ Hl) as (n & Hn & Sn).
    pose proof (raw_get_idx_eq _ _ i _ Hn) as E.
    destruct (fin_set h l n (as_list n) Hn (solid_as_list _ _ _ Sn)) as [Fl Fx].
    destruct (nth_error (nd_list n) i) as [p|] eqn:Ek.
    + assert (Hp : slot_ok l h p) by (eapply solid_list_slots; eauto; eapply nth_error_In; eauto).
      destruct Hp as (c & t & F & -> & Oc & _).
      eapply settle_ok.
      * intros fuel. simpl. unfold with_handle. rewrite El. unfold with_new, dg_view_idx.
        rewrite (bind_ok _ _ _ _ _ E). reflexivity.
      * apply fin_snoc; [eapply fin_env; eauto|]. apply Fx. exists t, F. auto.
    + eapply settle_throw.
      * intros fuel. simpl. unfold with_handle. rewrite El. unfold with_new, dg_view_idx, bind.
        rewrite E. reflexivity.
      * eapply HS; eauto using solid_as_list.
  - (* CAssign *)
    handle env d ld Ed Hf. pose proof (handle_finite _ _ _ _ Hf Ed) as Hd.
    destruct (nth_error env s) as [ls|] eqn:Es.
    2:{ eapply settle0; [intros fuel; simpl; unfold with_handle; rewrite Ed, Es; reflexivity|exact I|exact Hf]. }
    pose proof (handle_finite _ _ _ _ Hf Es) as Hs.
    destruct (assign_finite h ld ls Hd Hs) as (N & h' & E & Hd' & HL & Hx).
    exists N, (h', env), (Ok RUnit). split; [|split; [exact I|]].
    + intros fuel Hfu. simpl. unfold with_handle. rewrite Ed, Es. unfold with_res. now rewrite (E fuel Hfu).
    + eapply fin_env; eauto.
  - (* CAssignVal *)
    handle env d l El Hf. pose proof (handle_finite _ _ _ _ Hf El) as Hl.
    destruct (finite_node _ _ Hl) as (n & Hn & Sn).
    eapply settle_ok.
    + intros fuel. simpl. unfold with_handle. rewrite El. unfold with_res, dg_assign_val, raw_set_value.
      rewrite (raw_set_data_eq _ _ _ _ Hn). reflexivity.
    + eapply HS; eauto using solid_value.
  - (* CAddNew *)
    handle env d l El Hf. pose proof (handle_finite _ _ _ _ Hf El) as Hl.
    destruct (finite_node _ _ Hl) as (n & Hn & Sn).
    set (nn := match v with None => empty_node | Some x => mkNode [] [] (Some x) TValue end).
    set (h0 := h ++ [nn]).
    assert (Sn0 : solid l h0 n) by (eapply solid_ext; eauto using extends_app).
    assert (Hn0 : nth_error h0 l = Some n) by (unfold h0; rewrite nth_error_app1; auto; eapply nth_lt; eauto).
    assert (Hp : slot_ok l h0 (Some (length h))).
    { exists (length h), (match v with None => Emp | Some x => Val x end), [length h]. split; auto. split.
      - unfold h0, nn. destruct v; constructor; apply nth_error_app_new.
      - intros [Hq|[]]. apply nth_lt in Hn. lia. }
    assert (Sl : solid l h0 (set_list (nd_list n ++ [Some (length h)]) (as_list n))).
    { apply solid_set_list; auto. intros p Hpp. apply in_app_iff in Hpp. destruct Hpp as [Hpp|[<-|[]]]; auto.
      eapply solid_list_slots; eauto. }
    destruct (fin_set h0 l n _ Hn0 Sl) as [Fl Fx].
    eapply settle_ok.
    + intros fuel. simpl. unfold with_handle. rewrite El. unfold with_res.
      assert (E : (match v with None => raw_new | Some x => raw_new_val x end) h = (h0, Ok (length h)))
        by (destruct v; reflexivity).
      rewrite (bind_ok _ _ _ _ _ E). rewrite (raw_add_eq _ _ _ _ Hn0). reflexivity.
    + eapply fin_env; eauto. intros x Hxx. apply Fx. eapply fin_ext; eauto using extends_app.
  - (* CRemoveKey *)
    handle env d l El Hf. pose proof (handle_finite _ _ _ _ Hf El) as Hl.
    destruct (finite_node _ _ Hl) as (n & Hn & Sn).
    pose proof (raw_remove_key_eq _ _ k _ Hn) as E.
    destruct (nd_type n) eqn:Ty;
      try (eapply settle0; [intros fuel; simpl; unfold with_handle; rewrite El; unfold with_res; rewrite E; reflexivity|exact I|exact Hf]).
    destruct (olookup k (nd_dict n)) eqn:Ek;
      try (eapply settle0; [intros fuel; simpl; unfold with_handle; rewrite El; unfold with_res; rewrite E; reflexivity|exact I|exact Hf]).
    eapply settle0; [intros fuel; simpl; unfold with_handle; rewrite El; unfold with_res; rewrite E; reflexivity|exact I|].
    eapply HS; eauto. destruct Sn as (A & B & C). split; [|split].
    + apply shape_set_dict; auto. apply osorted_remove, A.
    + intros p Hp. apply B. apply slots_in in Hp. apply slots_in. simpl in Hp. destruct Hp as [(k' & Hp)|Hp]; auto.
      apply in_oremove in Hp. eauto.
    + simpl. rewrite Ty. discriminate.
  - (* CRemoveIdx *)
    handle env d l El Hf. pose proof (handle_finite _ _ _ _ Hf El) as Hl.
    destruct (finite_node _ _ Hl) as (n & Hn & Sn).
    pose proof (raw_remove_idx_eq _ _ i _ Hn) as E.
    destruct (nd_type n) eqn:Ty;
      try (eapply settle0; [intros fuel; simpl; unfold with_handle; rewrite El; unfold with_res; rewrite E; reflexivity|exact I|exact Hf]).
    destruct (nth_error (nd_list n) i) eqn:Ek;
      try (eapply settle0; [intros fuel; simpl; unfold with_handle; rewrite El; unfold with_res; rewrite E; reflexivity|exact I|exact Hf]).
    eapply settle0; [intros fuel; simpl; unfold with_handle; rewrite El; unfold with_res; rewrite E; reflexivity|exact I|].
    eapply HS; eauto. destruct Sn as (A & B & C). split; [|split].
    + now apply shape_set_list.
    + intros p Hp. apply B. apply slots_in in Hp. apply slots_in. simpl in Hp. destruct Hp as [(k' & Hp)|Hp]; eauto.
      right. eapply in_list_del; eauto.
    + simpl. rewrite Ty. discriminate.
  - (* CClear *)
    handle env d l El Hf. pose proof (handle_finite _ _ _ _ Hf El) as Hl.
    destruct (finite_node _ _ Hl) as (n & Hn & Sn).
    pose proof (raw_clear_eq _ _ _ Hn) as E.
    destruct (nd_type n) eqn:Ty;
      (eapply settle0; [intros fuel; simpl; unfold with_handle; rewrite El; unfold with_res; rewrite E; reflexivity|exact I|]);
      auto.
    + eapply HS; eauto. destruct Sn as (A & B & C). split; [|split].
      * now apply shape_set_list.
      * intros p Hp. apply B. apply slots_in in Hp. apply slots_in. simpl in Hp. destruct Hp as [(k' & Hp)|[]]; eauto.
      * simpl. rewrite Ty. discriminate.
    + eapply HS; eauto. destruct Sn as (A & B & C). split; [|split].
      * apply shape_set_dict; auto. constructor.
      * intros p Hp. apply B. apply slots_in in Hp. apply slots_in. simpl in Hp. destruct Hp as [(k' & [])|Hp]; eauto.
      * simpl. rewrite Ty. discriminate.
  - (* CGetType *)
    handle env s l El Hf. pose proof (handle_finite _ _ _ _ Hf El) as Hl.
    destruct (finite_node _ _ Hl) as (n & Hn & Sn).
    eapply settle0; [intros fuel; simpl; unfold with_handle; rewrite El; unfold with_res, raw_get_type, bind, load; rewrite Hn; reflexivity|exact I|exact Hf].
  - (* CGetCount *)
    handle env s l El Hf. pose proof (handle_finite _ _ _ _ Hf El) as Hl.
    destruct (finite_node _ _ Hl) as (n & Hn & Sn).
    destruct (nd_type n) eqn:Ty;
      (eapply settle0; [intros fuel; simpl; unfold with_handle; rewrite El; unfold with_res, raw_get_count, bind, load; rewrite Hn, Ty; reflexivity|exact I|exact Hf]).
  - (* CKeyExists *)
    handle env s l El Hf. pose proof (handle_finite _ _ _ _ Hf El) as Hl.
    destruct (finite_node _ _ Hl) as (n & Hn & Sn).
    eapply settle0; [intros fuel; simpl; unfold with_handle; rewrite El; unfold with_res, raw_key_exists, bind, load; rewrite Hn; reflexivity|exact I|exact Hf].
  - (* CRead *)
    handle env s l El Hf. pose proof (handle_finite _ _ _ _ Hf El) as Hl.
    destruct (finite_node _ _ Hl) as (n & Hn & Sn).
    destruct (nd_val n) as [d|] eqn:Ev; [destruct (vty_eqb (data_ty d) ty) eqn:Et|];
      (eapply settle0; [intros fuel; simpl; unfold with_handle; rewrite El; unfold with_res, raw_read, bind, load; rewrite Hn, Ev, ?Et; reflexivity|exact I|exact Hf]).
  - (* CPath *)
    handle env s l El Hf. pose proof (handle_finite _ _ _ _ Hf El) as Hl.
    destruct Hl as (t & Hl).
    eapply settle0; [intros fuel; simpl; unfold with_handle; rewrite El; rewrite (dg_path_spec _ _ _ _ _ _ Hl); reflexivity|exact I|exact Hf].
  - (* CEq *)
    handle env a la Ea Hf. destruct (handle_finite _ _ _ _ Hf Ea) as (ta & Hta).
    destruct (nth_error env b) as [lb|] eqn:Eb.
    2:{ eapply settle0; [intros fuel; simpl; unfold with_handle; rewrite Ea, Eb; reflexivity|exact I|exact Hf]. }
    destruct (handle_finite _ _ _ _ Hf Eb) as (tb & Htb).
    exists (S (dg_depth ta)), (h, env), (Ok (RBool (spec_eqb ta tb))). split; [|split; [exact I|exact Hf]].
    intros fuel Hfu. simpl. unfold with_handle. rewrite Ea, Eb.
    rewrite (dg_eq_spec fuel h la lb ta tb); auto.
  - (* CRawCopy *)
    handle env s l El Hf. pose proof (handle_finite _ _ _ _ Hf El) as Hl.
    destruct (copy_finite h l Hl) as (N & h1 & c & E & X & Hc & _).
    exists N, (h1, env ++ [c]), (Ok RHandle). split; [|split; [exact I|]].
    + intros fuel Hfu. simpl. unfold with_handle. rewrite El. unfold with_new. now rewrite (E fuel Hfu).
    + apply fin_snoc; auto. eapply fin_env; eauto. intros x. now apply fin_ext.
  - (* CAdd *)
    destruct s as [j|]; [|destruct Hlf].
    handle env d l El Hf. pose proof (handle_finite _ _ _ _ Hf El) as Hl.
    destruct (nth_error env j) as [lj|] eqn:Ej.
    2:{ eapply settle0; [intros fuel; simpl; unfold with_handle; rewrite El, Ej; reflexivity|exact I|exact Hf]. }
    pose proof (handle_finite _ _ _ _ Hf Ej) as Hj.
    pose proof (avoid_reach _ _ _ Hj (Hlf l lj eq_refl eq_refl)) as Hp.
    destruct (finite_node _ _ Hl) as (n & Hn & Sn).
    eapply settle_ok.
    + intros fuel. simpl. unfold with_handle. rewrite El, Ej. unfold with_res. rewrite (raw_add_eq _ _ _ _ Hn). reflexivity.
    + eapply HS; eauto. apply solid_set_list; auto. intros p Hpp. apply in_app_iff in Hpp.
      destruct Hpp as [Hpp|[<-|[]]]; auto. eapply solid_list_slots; eauto.
  - (* CPutKey *)
    destruct s as [j|]; [|destruct Hlf].
    handle env d l El Hf. pose proof (handle_finite _ _ _ _ Hf El) as Hl.
    destruct (nth_error env j) as [lj|] eqn:Ej.
    2:{ eapply settle0; [intros fuel; simpl; unfold with_handle; rewrite El, Ej; reflexivity|exact I|exact Hf]. }
    pose proof (handle_finite _ _ _ _ Hf Ej) as Hj.
    pose proof (avoid_reach _ _ _ Hj (Hlf l lj eq_refl eq_refl)) as Hp.
    destruct (finite_node _ _ Hl) as (n & Hn & Sn).
    pose proof (raw_put_key_eq _ _ k _ (Some lj) Hn) as E.
    destruct (olookup k (nd_dict n)).
    + eapply settle_ok.
      * intros fuel. simpl. unfold with_handle. rewrite El, Ej. unfold with_res. rewrite E. reflexivity.
      * eapply HS; eauto using solid_set_dict.
    + set (h0 := h ++ [empty_node]) in *.
      assert (Sn0 : solid l h0 n) by (eapply solid_ext; eauto using extends_app).
      assert (Hn0 : nth_error h0 l = Some n) by (unfold h0; rewrite nth_error_app1; auto; eapply nth_lt; eauto).
      assert (Hp0 : slot_ok l h0 (Some lj)).
      { destruct Hp as (c & t & F & A & B & C). exists c, t, F. split; auto. split; auto.
        eapply own_extends; eauto using extends_app. }
      destruct (fin_set h0 l n _ Hn0 (solid_set_dict _ _ _ k _ Sn0 Hp0)) as [Fl Fx].
      eapply settle_ok.
      * intros fuel. simpl. unfold with_handle. rewrite El, Ej. unfold with_res. rewrite E. reflexivity.
      * eapply fin_env; eauto. intros x Hxx. apply Fx. eapply fin_ext; eauto using extends_app.
  - (* CPutIdx *)
    destruct s as [j|]; [|destruct Hlf].
    handle env d l El Hf. pose proof (handle_finite _ _ _ _ Hf El) as Hl.
    destruct (nth_error env j) as [lj|] eqn:Ej.
    2:{ eapply settle0; [intros fuel; simpl; unfold with_handle; rewrite El, Ej; reflexivity|exact I|exact Hf]. }
    pose proof (handle_finite _ _ _ _ Hf Ej) as Hj.
    pose proof (avoid_reach _ _ _ Hj (Hlf l lj eq_refl eq_refl)) as Hp.
    destruct (finite_node _ _ Hl) as (n & Hn & Sn).
    pose proof (raw_put_idx_eq _ _ i _ (Some lj) Hn) as E.
    destruct (nth_error (nd_list n) i).
    + eapply settle_ok.
      * intros fuel. simpl. unfold with_handle. rewrite El, Ej. unfold with_res. rewrite E. reflexivity.
      * eapply HS; eauto. apply solid_set_list; auto. intros p Hpp. apply in_list_set in Hpp.
        destruct Hpp as [->|Hpp]; auto. eapply solid_list_slots; eauto.
    + eapply settle_throw.
      * intros fuel. simpl. unfold with_handle. rewrite El, Ej. unfold with_res. rewrite E. reflexivity.
      * eapply HS; eauto using solid_as_list.
  - (* CAssignData *)
    destruct v as [v|]; [|destruct Hlf].
    handle env d l El Hf. pose proof (handle_finite _ _ _ _ Hf El) as Hl.
    destruct (finite_node _ _ Hl) as (n & Hn & Sn).
    eapply settle_ok.
    + intros fuel. simpl. unfold with_handle. rewrite El. unfold with_res.
      rewrite (raw_set_data_eq _ _ _ _ Hn). reflexivity.
    + eapply HS; eauto using solid_value.
  - (* CRawAssign *)
    handle env d ld Ed Hf. pose proof (handle_finite _ _ _ _ Hf Ed) as Hd.
    destruct (nth_error env s) as [ls|] eqn:Es.
    2:{ eapply settle0; [intros fuel; simpl; unfold with_handle; rewrite Ed, Es; reflexivity|exact I|exact Hf]. }
    pose proof (handle_finite _ _ _ _ Hf Es) as Hs.
    destruct (finite_node _ _ Hd) as (nd & Hnd & Sd). destruct (finite_node _ _ Hs) as (ns & Hns & Ss).
    eapply settle_ok.
    + intros fuel. simpl. unfold with_handle. rewrite Ed, Es. unfold with_res.
      rewrite (raw_assign_eq _ _ _ _ _ Hnd Hns). reflexivity.
    + eapply HS; eauto. destruct Ss as (A & B & C). split; auto. split; auto.
      intros p Hp. destruct (B p Hp) as (c & t & F & -> & Oc & _).
      apply avoid_reach; [exists t, F; auto|]. eapply Hlf; eauto.
      apply in_kids. apply slots_in in Hp. auto.
Qed.

(** ** Whole histories *)

(** Each command is loop-free in the state in which it is executed. *)
Fixpoint loop_free_run (cs : list cmd) (st : cstate) : Prop :=
  match cs with
  | [] => True
  | c :: cs' =>
    loop_free c st /\
    forall N st' r, (forall fuel, N <= fuel -> exec fuel c st = (st', r)) -> loop_free_run cs' st'
  end.

Lemma finite_run cs : forall st, finite_state st -> loop_free_run cs st ->
  exists N st', (forall fuel, N <= fuel -> run fuel cs st = Some st') /\ finite_state st'.
Proof.
  induction cs as [|c cs IH]; intros st Hf Hl.
  - exists 0, st. auto.
  - destruct Hl as [Hl Hr]. destruct (finite_settles c st Hf Hl) as (N & st1 & r & E & Rr & F1).
    destruct (IH st1 F1 (Hr _ _ _ E)) as (N2 & st2 & E2 & F2).
    exists (Nat.max N N2), st2. split; auto. intros fuel Hfu. cbn [run].
    rewrite E by lia. destruct r; try (destruct Rr; fail); apply E2; lia.
Qed.

(** Proofs about whose code is run at shutdown. *)
From Coq Require Import List Arith Bool Lia Permutation.
From Verif Require Import Prelude OwnModel OwnProofs CodeModel CodeSpec.
Import ListNotations.
Open Scope list_scope.

(** ** What a call does to the heap, before objects without references are freed *)

Definition like (o o' : obj) : Prop := o' = o \/ exists f k ps, o = BusO f k ps /\ o' = BusO None k ps.
Definition member (x : nat) (h : list obj) : Prop := exists a s p, is_action (get a h) s p /\ (x = a \/ x = s \/ x = p).
Definition del (o : oop) (b x : nat) : Prop := o = DeleteSub b x \/ o = DeletePub b x.
Definition mkp (o : oop) (b : nat) : Prop := o = NewPub b \/ exists caps, o = NewSub b caps.
Definition makes (o : oop) (b : nat) : Prop := mkp o b \/ (exists caps, o = NewProv b caps) \/ o = NewCons b.
Definition partof (b x : nat) (h : list obj) : Prop := exists f k ps, get b h = BusO f k ps /\ In x ps.
Definition kidof (b x : nat) (h : list obj) : Prop := exists f k ps, get b h = BusO f k ps /\ In x k.
Definition isbus (b : nat) (h : list obj) : Prop := exists f k ps, get b h = BusO f k ps.

Record frame (o : oop) (h : list obj) (r : ores) (h1 : list obj) : Prop := mkFrame {
  fr_len : length h <= length h1;
  fr_like : forall x, x < length h -> ~ In x (uses o) -> like (get x h) (get x h1);
  fr_live : forall x, get x h <> Dead -> get x h1 <> Dead;
  fr_dead : forall x, x < length h -> get x h = Dead -> get x h1 = Dead;
  fr_refs : forall y x, In x (refs (get y h1)) -> In x (refs (get y h)) \/
    ((In y (uses o) \/ length h <= y) /\ (In x (uses o) \/ length h <= x < length h1) /\ (isbus y h1 \/ In x (caps_of o) \/ member x h1));
  fr_act : forall a s p, is_action (get a h1) s p -> is_action (get a h) s p \/ (length h <= a /\ length h <= s /\ length h <= p /\ forall b, ~ mkp o b);
  fr_act' : forall a s p, is_action (get a h) s p -> is_action (get a h1) s p;
  fr_part : forall b x, partof b x h1 -> partof b x h /\ ~ del o b x \/ makes o b /\ (r = New x /\ mkp o b \/ member x h1);
  fr_part' : forall b x, partof b x h -> ~ del o b x -> partof b x h1;
  fr_new : forall b x, r = New x -> mkp o b -> x = length h /\ partof b x h1;
  fr_kid : forall b x, kidof b x h -> kidof b x h1;
  fr_bus : forall b, isbus b h1 -> isbus b h \/ o = NewBus \/ exists p, o = NewChild p /\ kidof p b h1 /\ b = length h;
  fr_bus' : forall b, isbus b h -> isbus b h1;
  fr_child : forall c y x, o = NewChild c -> In x (refs (get y h1)) -> In x (refs (get y h)) \/ y = c
}.

Lemma like_refl o : like o o.
Proof. now left. Qed.
Lemma like_trans a b c : like a b -> like b c -> like a c.
Proof.
  intros [->|(f & k & ps & -> & ->)] [->|(f' & k' & ps' & E & ->)]; unfold like; auto.
  - right. rewrite E. eauto.
  - right. eauto.
  - injection E as <- <- <-. right. eauto.
Qed.
Lemma like_refs o o' : like o o' -> refs o' = refs o.
Proof. now intros [->|(f & k & ps & -> & ->)]. Qed.
Lemma like_dead o o' : like o o' -> (o' = Dead <-> o = Dead).
Proof. intros [->|(f & k & ps & -> & ->)]; [tauto|split; discriminate]. Qed.
Lemma like_action o o' s p : like o o' -> (is_action o' s p <-> is_action o s p).
Proof. intros [->|(f & k & ps & -> & ->)]; [tauto|]. split; intros [(c & X)|(c & X)]; discriminate. Qed.
Lemma member_lt x h : member x h -> exists a, a < length h.
Proof. intros (a & s & p & A & _). exists a. eapply action_lt; eauto. Qed.

(** Nothing changed but functions of buses. *)
Lemma frame_like o h r h1 : length h1 = length h -> (forall x, like (get x h) (get x h1)) -> (forall b x, ~ del o b x) -> (forall b, ~ mkp o b) ->
  frame o h r h1.
Proof.
  intros L K Nd Nm.
  assert (forall b x, partof b x h1 <-> partof b x h) as P.
  { intros b x. unfold partof. destruct (K b) as [->|(f & k & ps & -> & ->)]; [tauto|]. split; intros (g & k' & ps' & E & J); inversion E; subst; eauto. }
  assert (forall b x, kidof b x h1 <-> kidof b x h) as Q.
  { intros b x. unfold kidof. destruct (K b) as [->|(f & k & ps & -> & ->)]; [tauto|]. split; intros (g & k' & ps' & E & J); inversion E; subst; eauto. }
  assert (forall b, isbus b h1 <-> isbus b h) as B.
  { intros b. unfold isbus. destruct (K b) as [->|(f & k & ps & -> & ->)]; [tauto|]. split; intros (g & k' & ps' & E); inversion E; subst; eauto. }
  constructor.
  - lia.
  - auto.
  - intros x H D. apply H. now apply (like_dead _ _ (K x)).
  - intros x _ H. now apply (like_dead _ _ (K x)).
  - intros y x J. left. now rewrite <- (like_refs _ _ (K y)).
  - intros a s p J. left. now apply (like_action _ _ _ _ (K a)).
  - intros a s p J. now apply (like_action _ _ _ _ (K a)).
  - intros b x J. left. split; [now apply P|apply Nd].
  - intros b x J _. now apply P.
  - intros b x _ J. exfalso. eapply Nm; eauto.
  - intros b x J. now apply Q.
  - intros b J. left. now apply B.
  - intros b J. now apply B.
  - intros c y x _ J. left. now rewrite <- (like_refs _ _ (K y)).
Qed.

(** One object that is no bus is changed. *)
Lemma frame_set o h r x v : In x (uses o) -> get x h <> Dead -> v <> Dead -> ~ isbus x h -> (forall f k ps, v <> BusO f k ps) ->
  (forall y, In y (refs v) -> In y (refs (get x h)) \/ In y (uses o) /\ In y (caps_of o)) ->
  (forall s p, is_action v s p <-> is_action (get x h) s p) -> (forall b y, ~ del o b y) -> (forall b, ~ mkp o b) -> (forall c, o <> NewChild c) ->
  frame o h r (list_set x v h).
Proof.
  intros U Lx Nv NB NB' R A Nd Nm Nc. assert (x < length h) as L by now apply get_live.
  assert (forall y, get y (list_set x v h) = if Nat.eqb x y then v else get y h) as Gt.
  { intros y. rewrite get_list_set. destruct (Nat.eqb x y); auto. destruct (Nat.ltb_spec x (length h)); auto; lia. }
  assert (forall b, (forall f k ps, get b h = BusO f k ps <-> get b (list_set x v h) = BusO f k ps)) as B.
  { intros b f k ps. rewrite Gt. destruct (Nat.eqb_spec x b) as [->|]; [|tauto]. split; intros E; exfalso; [apply NB; unfold isbus; eauto|eapply NB'; eauto]. }
  constructor.
  - rewrite list_set_length. lia.
  - intros y Ly N. rewrite Gt. destruct (Nat.eqb_spec x y) as [->|]; [contradiction|]. apply like_refl.
  - intros y Ly. rewrite Gt. destruct (Nat.eqb x y); auto.
  - intros y Ly D. rewrite Gt. destruct (Nat.eqb_spec x y) as [->|]; auto. contradiction.
  - intros y z J. rewrite Gt in J. destruct (Nat.eqb_spec x y) as [<-|]; auto. destruct (R _ J) as [K|(K1 & K2)]; auto. right. auto.
  - intros a s p J. rewrite Gt in J. destruct (Nat.eqb_spec x a) as [->|]; auto. left. now apply A.
  - intros a s p J. rewrite Gt. destruct (Nat.eqb_spec x a) as [->|]; auto. now apply A.
  - intros b y (f & k & ps & E & J). left. split; [|apply Nd]. exists f, k, ps. split; auto. now apply B.
  - intros b y (f & k & ps & E & J) _. exists f, k, ps. split; auto. now apply B.
  - intros b y _ J. exfalso. eapply Nm; eauto.
  - intros b y (f & k & ps & E & J). exists f, k, ps. split; auto. now apply B.
  - intros b (f & k & ps & E). left. exists f, k, ps. now apply B.
  - intros b (f & k & ps & E). exists f, k, ps. now apply B.
  - intros c y z E. exfalso. eapply Nc; eauto.
Qed.

(** Deleting a subscriber or publisher. *)
Lemma frame_del o h r b x f k ps v : In b (uses o) -> In x (uses o) -> get b h = BusO f k ps -> get x h <> Dead -> ~ isbus x h ->
  v <> Dead -> refs v = [] -> (forall f k ps, v <> BusO f k ps) -> (forall s p, ~ is_action v s p) -> (forall s p, ~ is_action (get x h) s p) ->
  (forall b' y, del o b' y <-> b' = b /\ y = x) -> (forall b', ~ mkp o b') -> (forall c, o <> NewChild c) ->
  frame o h r (list_set x v (list_set b (BusO f k (remove_all x ps)) h)).
Proof.
  intros Ub Ux Eb Lx NB Nv R NB' A A' D Nm Nc. assert (x < length h) as L by now apply get_live. assert (b < length h) as Lb by (apply get_live; congruence).
  assert (x <> b) as Ne by (intros ->; apply NB; unfold isbus; eauto).
  set (h1 := list_set x v (list_set b (BusO f k (remove_all x ps)) h)).
  assert (forall y, get y h1 = if Nat.eqb x y then v else if Nat.eqb b y then BusO f k (remove_all x ps) else get y h) as Gt.
  { intros y. unfold h1. rewrite !get_list_set, list_set_length. destruct (Nat.eqb x y); [destruct (Nat.ltb_spec x (length h)); auto; lia|].
    destruct (Nat.eqb b y); auto. destruct (Nat.ltb_spec b (length h)); auto; lia. }
  assert (forall y z, z <> x \/ y <> b -> (partof y z h1 <-> partof y z h)) as P.
  { intros y z Hn. unfold partof. rewrite Gt. destruct (Nat.eqb_spec x y) as [->|].
    - split; intros (g & k' & ps' & E & J); exfalso; [eapply NB'; eauto|apply NB; unfold isbus; eauto].
    - destruct (Nat.eqb_spec b y) as [->|]; [|tauto]. rewrite Eb. split; intros (g & k' & ps' & E & J); inversion E; subst; do 3 eexists; split; eauto.
      + unfold remove_all in J. now apply filter_In in J.
      + unfold remove_all. apply filter_In. split; auto. apply negb_true_iff, Nat.eqb_neq. destruct Hn; congruence. }
  assert (forall y, (isbus y h1 <-> isbus y h) /\ forall z, kidof y z h1 <-> kidof y z h) as B.
  { intros y. unfold isbus, kidof. rewrite Gt. destruct (Nat.eqb_spec x y) as [->|].
    - split; [|intros z]; (split; [intros (g & k' & ps' & E); exfalso; try destruct E as (E & _); eapply NB'; eauto|]).
      + intros (g & k' & ps' & E). exfalso. apply NB. unfold isbus; eauto.
      + intros (g & k' & ps' & E & _). exfalso. apply NB. unfold isbus; eauto.
    - destruct (Nat.eqb_spec b y) as [->|]; [|tauto]. rewrite Eb. split; [split; eauto|].
      intros z. split; intros (g & k' & ps' & E & J); inversion E; subst; eauto. }
  constructor.
  - unfold h1. rewrite !list_set_length. lia.
  - intros y Ly N. rewrite Gt. destruct (Nat.eqb_spec x y) as [->|]; [contradiction|]. destruct (Nat.eqb_spec b y) as [->|]; [contradiction|]. apply like_refl.
  - intros y Ly. rewrite Gt. destruct (Nat.eqb x y); auto. destruct (Nat.eqb b y); auto. discriminate.
  - intros y Ly E. rewrite Gt. destruct (Nat.eqb_spec x y) as [->|]; [contradiction|]. destruct (Nat.eqb_spec b y) as [->|]; [congruence|auto].
  - intros y z J. left. rewrite Gt in J. destruct (Nat.eqb_spec x y) as [<-|]; [rewrite R in J; contradiction|]. destruct (Nat.eqb_spec b y) as [<-|]; auto.
    rewrite Eb. simpl in *. apply in_app_iff in J. apply in_app_iff. destruct J as [J|J]; auto. right. eapply remove_all_incl; eauto.
  - intros a s p J. rewrite Gt in J. destruct (Nat.eqb_spec x a) as [->|]; [exfalso; eapply A; eauto|]. destruct (Nat.eqb_spec b a); auto. destruct J as [(c & X)|(c & X)]; discriminate.
  - intros a s p J. rewrite Gt. destruct (Nat.eqb_spec x a) as [->|]; [exfalso; eapply A'; eauto|]. destruct (Nat.eqb_spec b a) as [->|]; auto. rewrite Eb in J. destruct J as [(c & X)|(c & X)]; discriminate.
  - intros y z J. left. destruct (Nat.eq_dec z x) as [->|Nz]; [destruct (Nat.eq_dec y b) as [->|Ny]|].
    + exfalso. destruct J as (g & k' & ps' & E & J). rewrite Gt in E. destruct (Nat.eqb_spec x b); [congruence|]. rewrite Nat.eqb_refl in E. injection E as <- <- <-.
      unfold remove_all in J. apply filter_In in J as (_ & J). rewrite Nat.eqb_refl in J. discriminate.
    + split; [apply P; auto|]. rewrite D. tauto.
    + split; [apply P; auto|]. rewrite D. tauto.
  - intros y z J N. apply P; auto. rewrite D in N. destruct (Nat.eq_dec z x), (Nat.eq_dec y b); auto.
  - intros y z _ J. exfalso. eapply Nm; eauto.
  - intros y z J. now apply B.
  - intros y J. left. now apply B.
  - intros y J. now apply B.
  - intros c y z E. exfalso. eapply Nc; eauto.
Qed.

(** New participants. *)
Lemma frame_new o h r b f k ps js l : In b (uses o) -> makes o b -> get b h = BusO f k ps -> l <> [] ->
  (forall i, get i l = Dead \/ forall f k ps, get i l <> BusO f k ps) -> (forall i, i < length l -> get i l <> Dead) ->
  (forall j, In j js -> length h <= j < length h + length l) ->
  let h1 := add_part b js h ++ l in
  (forall i y, In y (refs (get i l)) -> (In y (uses o) /\ In y (caps_of o)) \/ (length h <= y < length h + length l) /\ member y h1) ->
  (forall i s p, is_action (get i l) s p -> length h <= s /\ length h <= p /\ forall b, ~ mkp o b) ->
  (forall j, In j js -> r = New j /\ mkp o b \/ member j h1) ->
  (forall b' x, r = New x -> mkp o b' -> b' = b /\ x = length h /\ In x js) -> (forall b' y, ~ del o b' y) ->
  (forall p, o <> NewChild p) ->
  frame o h r h1.
Proof.
  intros U Mk Eb Nl NB Lv Js h1 R A Mj Nw Nd Nc. assert (b < length h) as Lb by (apply get_live; congruence).
  assert (forall y, y < length h -> get y h1 = if Nat.eqb b y then BusO f k (ps ++ js) else get y h) as Gt.
  { intros y Ly. unfold h1. rewrite get_app1. 2:{ unfold add_part. rewrite Eb, list_set_length. auto. }
    unfold add_part. rewrite Eb, get_list_set. destruct (Nat.eqb b y); auto. destruct (Nat.ltb_spec b (length h)); auto; lia. }
  assert (length (add_part b js h) = length h) as La by (unfold add_part; rewrite Eb; apply list_set_length).
  assert (forall y, length h <= y -> get y h1 = get (y - length h) l) as Gn.
  { intros y Ly. unfold h1. replace y with (length (add_part b js h) + (y - length h)) at 1 by lia. apply get_app2. }
  assert (forall y, length h <= y -> get y h = Dead) as Gd by (intros y Ly; unfold get; now apply nth_overflow).
  assert (length h1 = length h + length l) as L1 by (unfold h1; rewrite app_length; lia).
  assert (forall y g k' ps', length h <= y -> get y h1 <> BusO g k' ps') as NBn.
  { intros y g k' ps' Ly E. rewrite Gn in E by auto. destruct (NB (y - length h)) as [D|D]; [congruence|eapply D; eauto]. }
  constructor.
  - lia.
  - intros y Ly N. rewrite Gt by auto. destruct (Nat.eqb_spec b y) as [->|]; [contradiction|apply like_refl].
  - intros y Ly. rewrite Gt by now apply get_live. destruct (Nat.eqb b y); auto. discriminate.
  - intros y Ly E. rewrite Gt by auto. destruct (Nat.eqb_spec b y) as [->|]; congruence.
  - intros y z J. destruct (Nat.lt_ge_cases y (length h)) as [Ly|Ly].
    + rewrite Gt in J by auto. destruct (Nat.eqb_spec b y) as [<-|]; auto. rewrite Eb. simpl in *. rewrite app_assoc in J. apply in_app_iff in J as [J|J]; auto.
      right. split; auto. split; [right; rewrite L1; auto|]. left. unfold isbus. rewrite Gt by auto. rewrite Nat.eqb_refl. eauto.
    + right. split; auto. rewrite Gn in J by auto. rewrite L1. destruct (R _ _ J) as [(K1 & K2)|(K1 & K2)]; auto.
  - intros a s p J. destruct (Nat.lt_ge_cases a (length h)) as [Ly|Ly].
    + left. rewrite Gt in J by auto. destruct (Nat.eqb b a); auto. destruct J as [(c & X)|(c & X)]; discriminate.
    + right. rewrite Gn in J by auto. split; auto. eauto.
  - intros a s p J. assert (a < length h) as Ly by (eapply action_lt; eauto). rewrite Gt by auto. destruct (Nat.eqb_spec b a) as [->|]; auto. rewrite Eb in J. destruct J as [(c & X)|(c & X)]; discriminate.
  - intros y z (g & k' & ps' & E & J). destruct (Nat.lt_ge_cases y (length h)) as [Ly|Ly]; [|exfalso; eapply NBn; eauto].
    rewrite Gt in E by auto. destruct (Nat.eqb_spec b y) as [<-|]; [|left; split; [unfold partof; eauto|apply Nd]].
    injection E as <- <- <-. apply in_app_iff in J as [J|J]; [left; split; [unfold partof; eauto|apply Nd]|]. right. auto.
  - intros y z (g & k' & ps' & E & J) _. unfold partof. assert (y < length h) as Ly by (apply get_live; congruence). rewrite Gt by auto.
    destruct (Nat.eqb_spec b y) as [<-|]; eauto. rewrite Eb in E. injection E as <- <- <-. do 3 eexists. split; eauto. apply in_or_app. auto.
  - intros y z E M. destruct (Nw _ _ E M) as (-> & -> & J). split; auto. unfold partof. rewrite Gt by auto. rewrite Nat.eqb_refl. do 3 eexists. split; eauto. apply in_or_app. auto.
  - intros y z (g & k' & ps' & E & J). unfold kidof. assert (y < length h) as Ly by (apply get_live; congruence). rewrite Gt by auto.
    destruct (Nat.eqb_spec b y) as [<-|]; eauto. rewrite Eb in E. injection E as <- <- <-. eauto.
  - intros y (g & k' & ps' & E). left. destruct (Nat.lt_ge_cases y (length h)) as [Ly|Ly]; [|exfalso; eapply NBn; eauto].
    unfold isbus. rewrite Gt in E by auto. destruct (Nat.eqb_spec b y) as [<-|]; eauto.
  - intros y (g & k' & ps' & E). unfold isbus. assert (y < length h) as Ly by (apply get_live; congruence). rewrite Gt by auto. destruct (Nat.eqb_spec b y) as [<-|]; eauto.
  - intros c y z E. exfalso. eapply Nc; eauto.
Qed.

Lemma detach_like n : forall x h, length (detach n x h) = length h /\ forall y, like (get y h) (get y (detach n x h)).
Proof.
  induction n as [|n IH]; intros x h; simpl; [split; auto using like_refl|]. destruct (get x h) as [f k ps| | | | |] eqn:E; try (split; [reflexivity|intros; apply like_refl]).
  assert (forall l h0, length (fold_left (fun h' z => detach n z h') l h0) = length h0 /\ forall y, like (get y h0) (get y (fold_left (fun h' z => detach n z h') l h0))) as F.
  { induction l as [|z l IHl]; intros h0; simpl; [split; auto using like_refl|]. destruct (IHl (detach n z h0)) as (L1 & K1). destruct (IH z h0) as (L2 & K2).
    split; [congruence|]. intros y. eapply like_trans; eauto. }
  destruct (F k (list_set x (BusO None k ps) h)) as (L1 & K1). rewrite list_set_length in L1. split; auto. intros y. eapply like_trans; [|apply K1].
  rewrite get_list_set. destruct (Nat.eqb_spec x y) as [->|]; [|apply like_refl]. destruct (Nat.ltb_spec y (length h)) as [|G]; [right; eauto|].
  unfold get in E. rewrite nth_overflow in E by auto. discriminate.
Qed.
Lemma free_like x h : length (free x h) = length h /\ forall y, y <> x -> like (get y h) (get y (free x h)).
Proof.
  unfold free. set (h1 := match get x h with BusO _ kids _ => fold_left _ kids h | _ => h end).
  assert (length h1 = length h /\ forall y, like (get y h) (get y h1)) as (L & K).
  { unfold h1. destruct (get x h) as [f k ps| | | | |]; try (split; [reflexivity|intros; apply like_refl]). generalize (length h) at 1 3. intros n. clear. revert h. induction k as [|z k IH]; intros h; simpl; [split; auto using like_refl|].
    destruct (IH (detach n z h)) as (L1 & K1). destruct (detach_like n z h) as (L2 & K2). split; [congruence|]. intros y. eapply like_trans; eauto. }
  rewrite list_set_length. split; auto. intros y Ne. rewrite get_list_set. destruct (Nat.eqb_spec x y); [congruence|auto].
Qed.
Lemma free_self x h : get x (free x h) = Dead.
Proof. unfold free. rewrite get_list_set, Nat.eqb_refl. destruct (Nat.ltb _ _); auto. Qed.
Lemma collect_held n : forall st, w_held (collect n st) = w_held st.
Proof. induction n as [|n IH]; intros st; simpl; auto. destruct (garbage st); auto. rewrite IH; auto. Qed.
Lemma collect_like n : forall st, length (w_heap (collect n st)) = length (w_heap st) /\
  forall x, get x (w_heap (collect n st)) = Dead \/ like (get x (w_heap st)) (get x (w_heap (collect n st))).
Proof.
  induction n as [|n IH]; intros st; simpl; [split; auto using like_refl|]. destruct (garbage st) as [x|]; [|split; auto using like_refl].
  destruct (IH (mkOwn (free x (w_heap st)) (w_held st))) as (L & K). simpl in *. destruct (free_like x (w_heap st)) as (L2 & K2). split; [congruence|].
  intros y. destruct (K y) as [D|D]; auto. destruct (Nat.eq_dec y x) as [->|Ne]; [left|right; eapply like_trans; eauto].
  apply (like_dead _ _ D). apply free_self.
Qed.
(** Objects that refer to each other, or are held, are kept. *)
Lemma collect_keep (A : nat -> Prop) n : forall st,
  (forall x, A x -> get x (w_heap st) <> Dead /\ (In x (w_held st) \/ exists y, A y /\ In x (refs (get y (w_heap st))))) ->
  forall x, A x -> like (get x (w_heap st)) (get x (w_heap (collect n st))).
Proof.
  induction n as [|n IH]; intros st H x Ax; simpl; [apply like_refl|]. destruct (garbage st) as [z|] eqn:G; [|apply like_refl].
  apply garbage_some in G as (_ & NH & NR). destruct (free_like z (w_heap st)) as (L2 & K2).
  assert (forall y, A y -> y <> z) as Nz.
  { intros y Ay ->. destruct (H z Ay) as (_ & [J|(y & _ & J)]); [auto|]. eapply NR; eauto. }
  eapply like_trans; [apply K2; auto|]. apply (IH (mkOwn (free z (w_heap st)) (w_held st))); auto. simpl. intros y Ay. destruct (H y Ay) as (D & R).
  split; [intros X; apply D; now apply (like_dead _ _ (K2 y (Nz y Ay)))|]. destruct R as [R|(w & Aw & R)]; auto. right. exists w. split; auto. now rewrite (like_refs _ _ (K2 w (Nz w Aw))).
Qed.

Lemma frame_child o h b g k ps : o = NewChild b -> get b h = BusO (Some g) k ps ->
  frame o h (New (length h)) (list_set b (BusO (Some g) (k ++ [length h]) ps) h ++ [BusO (Some g) [] []]).
Proof.
  intros -> Eb. assert (b < length h) as Lb by (apply get_live; congruence). set (h1 := _ ++ _).
  assert (forall y, y < length h -> get y h1 = if Nat.eqb b y then BusO (Some g) (k ++ [length h]) ps else get y h) as Gt.
  { intros y Ly. unfold h1. rewrite get_app1 by now rewrite list_set_length. rewrite get_list_set. destruct (Nat.eqb b y); auto. destruct (Nat.ltb_spec b (length h)); auto; lia. }
  assert (length h1 = S (length h)) as L1 by (unfold h1; rewrite app_length, list_set_length; simpl; lia).
  assert (get (length h) h1 = BusO (Some g) [] []) as Gn. { unfold h1. rewrite <- (list_set_length b (BusO (Some g) (k ++ [length h]) ps) h) at 1. apply get_end. }
  assert (forall y, length h < y -> get y h1 = Dead) as Gd by (intros y Ly; unfold get; apply nth_overflow; lia).
  assert (forall y, get y h1 = get y h \/ y = b /\ get y h1 = BusO (Some g) (k ++ [length h]) ps \/ y = length h) as Cs.
  { intros y. destruct (Nat.lt_trichotomy y (length h)) as [Ly|[Ly|Ly]]; auto.
    - rewrite Gt by auto. destruct (Nat.eqb_spec b y); auto.
    - left. rewrite Gd by auto. symmetry. unfold get. apply nth_overflow. lia. }
  constructor.
  - lia.
  - intros y Ly N. simpl in N. rewrite Gt by auto. destruct (Nat.eqb_spec b y); [tauto|apply like_refl].
  - intros y Ly. rewrite Gt by now apply get_live. destruct (Nat.eqb b y); auto. discriminate.
  - intros y Ly E. rewrite Gt by auto. destruct (Nat.eqb_spec b y) as [->|]; congruence.
  - intros y z J. destruct (Cs y) as [E|[(-> & E)| ->]]; [rewrite E in J; auto| |rewrite Gn in J; contradiction].
    rewrite E in J. rewrite Eb. simpl in *. rewrite <- app_assoc in J. apply in_app_iff in J. rewrite in_app_iff. destruct J as [J|[J|J]]; auto.
    right. split; [left; auto|]. split; [right; lia|]. left. unfold isbus. eauto.
  - intros a s p J. left. destruct (Cs a) as [E|[(-> & E)| ->]]; [rewrite E in J; auto|rewrite E in J|rewrite Gn in J]; destruct J as [(c & X)|(c & X)]; discriminate.
  - intros a s p J. rewrite Gt by (eapply action_lt; eauto). destruct (Nat.eqb_spec b a) as [->|]; auto. rewrite Eb in J. destruct J as [(c & X)|(c & X)]; discriminate.
  - intros y z (f & k' & ps' & E & J). left. split; [|intros [X|X]; discriminate]. destruct (Cs y) as [E'|[(-> & E')| ->]].
    + exists f, k', ps'. split; auto. congruence.
    + rewrite E' in E. injection E as <- <- <-. unfold partof. eauto.
    + rewrite Gn in E. injection E as <- <- <-. contradiction.
  - intros y z (f & k' & ps' & E & J) _. unfold partof. rewrite Gt by (apply get_live; congruence). destruct (Nat.eqb_spec b y) as [<-|]; eauto. rewrite Eb in E. injection E as <- <- <-. eauto.
  - intros y z _ [X|(c & X)]; discriminate.
  - intros y z (f & k' & ps' & E & J). unfold kidof. rewrite Gt by (apply get_live; congruence). destruct (Nat.eqb_spec b y) as [<-|]; eauto. rewrite Eb in E. injection E as <- <- <-.
    do 3 eexists. split; eauto. apply in_or_app. auto.
  - intros y (f & k' & ps' & E). destruct (Cs y) as [E'|[(-> & E')| ->]].
    + left. exists f, k', ps'. congruence.
    + left. unfold isbus. eauto.
    + right. right. exists b. split; auto. split; auto. unfold kidof. rewrite Gt by auto. rewrite Nat.eqb_refl. do 3 eexists. split; eauto. apply in_or_app. simpl. auto.
  - intros y (f & k' & ps' & E). unfold isbus. rewrite Gt by (apply get_live; congruence). destruct (Nat.eqb_spec b y); eauto.
  - intros c y z E J. injection E as <-. destruct (Cs y) as [E|[(-> & E)| ->]]; [rewrite E in J; auto|auto|rewrite Gn in J; contradiction].
Qed.

Lemma frame_same o h r : (forall b x, ~ del o b x) -> (forall b, ~ mkp o b) -> frame o h r h.
Proof. intros. apply frame_like; auto. intros. apply like_refl. Qed.

Ltac no := let X := fresh in intros; intros X; destruct X as [X|X]; [|try destruct X as (? & X)]; discriminate X.

Lemma ostep_frame o st st' r : ostep o st = Some (st', r) -> o <> NewBus ->
  exists h1, frame o (w_heap st) r h1 /\ (w_heap st' = h1 \/ length h1 = length (w_heap st) /\ w_heap st' = w_heap (settle (mkOwn h1 (w_held st')))).
Proof.
  intros H NN. set (h := w_heap st) in *. set (n := length h).
  destruct o as [|b|b k|b|b caps|b caps|b|c caps|c i|s caps|x y|x|b s|b q|b|b|q|a|x|x]; [congruence| | | | | | | | | | | | | | | | | | |]; simpl in H; fold h in H; fold n in H.
  - destruct (is_bus b st); [|discriminate]. destruct (get b h) as [[g|] k ps| | | | |] eqn:E; injection H as <- <-.
    2-7: exists h; split; [apply frame_same; no|left; reflexivity].
    exists (list_set b (BusO (Some g) (k ++ [n]) ps) h ++ [BusO (Some g) [] []]). split; [now apply frame_child|]. left. reflexivity.
  - exists h. split; [apply frame_same; no|]. left. destruct (is_bus b st); [|discriminate]. destruct (get b h); try discriminate. destruct (mem k kids); injection H as <- <-; reflexivity.
  - destruct (is_bus b st) eqn:B; [|discriminate]. injection H as <- <-. apply is_bus_get in B as (_ & f & k & ps & E). fold h in E.
    exists (add_part b [n] h ++ [PubO (Some b)]). split; [|left; reflexivity]. eapply frame_new; eauto; simpl.
    + auto.
    + unfold makes, mkp; eauto 6.
    + discriminate.
    + intros [|[|i]]; unfold get; simpl; auto. right. discriminate.
    + intros [|i] Hi; [discriminate|lia].
    + intros j [<-|[]]. lia.
    + intros [|[|i]] y; unfold get; simpl; contradiction.
    + intros [|[|i]] s p [(c & X)|(c & X)]; discriminate.
    + intros j [<-|[]]. left. split; auto. now left.
    + intros b' x X M. injection X as <-. destruct M as [M|(c & M)]; [|discriminate]. injection M as <-. auto.
    + no.
    + discriminate.
  - destruct (is_bus b st && subset caps st) eqn:B; [|discriminate]. apply andb_prop in B as (B & _). injection H as <- <-. apply is_bus_get in B as (_ & f & k & ps & E). fold h in E.
    exists (add_part b [n] h ++ [SubO caps]). split; [|left; reflexivity]. eapply frame_new; eauto; simpl.
    + auto.
    + unfold makes, mkp; eauto 6.
    + discriminate.
    + intros [|[|i]]; unfold get; simpl; auto. right. discriminate.
    + intros [|i] Hi; [discriminate|lia].
    + intros j [<-|[]]. lia.
    + intros [|[|i]] y; unfold get; simpl; auto; contradiction.
    + intros [|[|i]] s p [(c & X)|(c & X)]; discriminate.
    + intros j [<-|[]]. left. split; auto. right. eauto.
    + intros b' x X M. injection X as <-. destruct M as [M|(c & M)]; [discriminate|]. injection M as <- _. auto.
    + no.
    + discriminate.
  - destruct (is_bus b st && subset caps st) eqn:B; [|discriminate]. apply andb_prop in B as (B & _). injection H as <- <-. apply is_bus_get in B as (_ & f & k & ps & E). fold h in E.
    exists (add_part b [n; S n; S (S n)] h ++ [SubO [S (S n)]; PubO (Some b); ProvO n (S n) caps]). split; [|left; reflexivity].
    set (h1 := _ ++ _).
    assert (is_action (get (S (S n)) h1) n (S n)) as A.
    { unfold h1. replace (S (S n)) with (length (add_part b [n; S n; S (S n)] h) + 2) at 1. 2:{ unfold add_part. rewrite E, list_set_length. fold n. lia. } rewrite get_app2. left. eexists. reflexivity. }
    eapply frame_new; eauto; simpl.
    + auto.
    + unfold makes, mkp; eauto 6.
    + discriminate.
    + intros i. destruct (three_cases (SubO [S (S n)]) (PubO (Some b)) (ProvO n (S n) caps) i) as [(-> & _)|[(-> & _)|[(-> & _)| ->]]]; auto; right; discriminate.
    + intros [|[|[|i]]] Hi; unfold get; simpl; try discriminate; lia.
    + intros j [<-|[<-|[<-|[]]]]; fold n; lia.
    + fold h1. intros i y J. destruct (three_cases (SubO [S (S n)]) (PubO (Some b)) (ProvO n (S n) caps) i) as [(Ei & _)|[(Ei & _)|[(Ei & _)|Ei]]]; rewrite Ei in J; simpl in J; try contradiction.
      * destruct J as [<-|[]]. right. split; [fold n; lia|]. exists (S (S n)), n, (S n). auto.
      * destruct J as [<-|[<-|J]]; [right|right|left; auto]; (split; [fold n; lia|exists (S (S n)), n, (S n); auto]).
    + intros i s p J. destruct (three_cases (SubO [S (S n)]) (PubO (Some b)) (ProvO n (S n) caps) i) as [(Ei & _)|[(Ei & _)|[(Ei & _)|Ei]]]; rewrite Ei in J; destruct J as [(c & X)|(c & X)]; inversion X. fold n. split; [lia|split; [lia|no]].
    + fold h1. intros j J. right. exists (S (S n)), n, (S n). split; auto. destruct J as [<-|[<-|[<-|[]]]]; auto.
    + intros b' x _ [M|(c & M)]; discriminate.
    + no.
    + discriminate.
  - destruct (is_bus b st) eqn:B; [|discriminate]. injection H as <- <-. apply is_bus_get in B as (_ & f & k & ps & E). fold h in E.
    exists (add_part b [S n; n; S (S n)] h ++ [SubO [S (S n)]; PubO (Some b); ConsO n (S n) []]). split; [|left; reflexivity].
    set (h1 := _ ++ _).
    assert (is_action (get (S (S n)) h1) n (S n)) as A.
    { unfold h1. replace (S (S n)) with (length (add_part b [S n; n; S (S n)] h) + 2) at 1. 2:{ unfold add_part. rewrite E, list_set_length. fold n. lia. } rewrite get_app2. right. eexists. reflexivity. }
    eapply frame_new; eauto; simpl.
    + auto.
    + unfold makes, mkp; eauto 6.
    + discriminate.
    + intros i. destruct (three_cases (SubO [S (S n)]) (PubO (Some b)) (ConsO n (S n) []) i) as [(-> & _)|[(-> & _)|[(-> & _)| ->]]]; auto; right; discriminate.
    + intros [|[|[|i]]] Hi; unfold get; simpl; try discriminate; lia.
    + intros j [<-|[<-|[<-|[]]]]; fold n; lia.
    + fold h1. intros i y J. destruct (three_cases (SubO [S (S n)]) (PubO (Some b)) (ConsO n (S n) []) i) as [(Ei & _)|[(Ei & _)|[(Ei & _)|Ei]]]; rewrite Ei in J; simpl in J; try contradiction.
      * destruct J as [<-|[]]. right. split; [fold n; lia|]. exists (S (S n)), n, (S n). auto.
      * destruct J as [<-|[<-|J]]; [right|right|contradiction]; (split; [fold n; lia|exists (S (S n)), n, (S n); auto]).
    + intros i s p J. destruct (three_cases (SubO [S (S n)]) (PubO (Some b)) (ConsO n (S n) []) i) as [(Ei & _)|[(Ei & _)|[(Ei & _)|Ei]]]; rewrite Ei in J; destruct J as [(c & X)|(c & X)]; inversion X. fold n. split; [lia|split; [lia|no]].
    + fold h1. intros j J. right. exists (S (S n)), n, (S n). split; auto. destruct J as [<-|[<-|[<-|[]]]]; auto.
    + intros b' x _ [M|(c & M)]; discriminate.
    + no.
    + discriminate.
  - destruct (holds c st && subset caps st); [|discriminate]. destruct (get c h) as [| | | |s p op|] eqn:E; try discriminate. injection H as <- <-.
    exists (list_set c (ConsO s p (op ++ [caps])) h). split; [|left; reflexivity]. apply frame_set; simpl; try rewrite E; auto; try discriminate; try (no; fail).
    + intros (f & k & ps & X). congruence.
    + intros y. simpl. rewrite concat_app, in_app_iff. simpl. rewrite app_nil_r. tauto.
    + intros s' p'. split; intros [(c' & X)|(c' & X)]; inversion X; right; eauto.
  - destruct (get c h) as [| | | |s p op|] eqn:E; try discriminate. injection H as <- <-.
    exists (list_set c (ConsO s p (firstn i op ++ skipn (S i) op)) h). split; [|right; split; [now rewrite ?list_set_length|unfold settle; now rewrite collect_held]]. apply frame_set; simpl; try rewrite E; auto; try discriminate; try (no; fail).
    + intros (f & k & ps & X). congruence.
    + intros y [J|[J|J]]; simpl; auto. left. right. right. eapply concat_del; eauto.
    + intros s' p'. split; intros [(c' & X)|(c' & X)]; inversion X; right; eauto.
  - destruct (holds s st && subset caps st); [|discriminate]. destruct (get s h) as [|cs| | | |] eqn:E; try discriminate. injection H as <- <-.
    exists (list_set s (SubO caps) h). split; [|right; split; [now rewrite ?list_set_length|unfold settle; now rewrite collect_held]]. apply frame_set; simpl; try rewrite E; auto; try discriminate; try (no; fail).
    + intros (f & k & ps & X). congruence.
    + intros s' p'. split; intros [(c' & X)|(c' & X)]; inversion X.
  - exists h. split; [apply frame_same; no|]. left. match type of H with (if ?m then _ else _) = _ => destruct m; [|discriminate] end. injection H as <- <-. reflexivity.
  - destruct (holds x st); [|discriminate]. destruct (get x h) as [|cs|f|s p cs|s p op|] eqn:E; try discriminate; injection H as <- <-.
    + exists (list_set x (SubO []) h). split; [|right; split; [now rewrite ?list_set_length|unfold settle; now rewrite collect_held]]. apply frame_set; simpl; try rewrite E; auto; try discriminate; try (no; fail).
      * intros (f & k & ps & X). congruence.
      * intros s' p'. split; intros [(c' & X)|(c' & X)]; inversion X.
    + exists (list_set x (PubO None) h). split; [|left; reflexivity]. apply frame_set; simpl; try rewrite E; auto; try discriminate; try (no; fail).
      * intros (f' & k & ps & X). congruence.
      * intros s' p'. split; intros [(c' & X)|(c' & X)]; inversion X.
    + exists (list_set x (ProvO s p []) h). split; [|right; split; [now rewrite ?list_set_length|unfold settle; now rewrite collect_held]]. apply frame_set; simpl; try rewrite E; auto; try discriminate; try (no; fail).
      * intros (f' & k & ps & X). congruence.
      * intros y [J|[J|J]]; simpl; auto.
      * intros s' p'. split; intros [(c' & X)|(c' & X)]; inversion X; left; eauto.
    + exists h. split; [apply frame_same; no|left; reflexivity].
  - destruct (is_bus b st && holds s st); [|discriminate]. destruct (get b h) as [f k ps| | | | |] eqn:Eb; try discriminate. destruct (get s h) as [|cs| | | |] eqn:Es; try discriminate. injection H as <- <-.
    exists (list_set s (SubO []) (list_set b (BusO f k (remove_all s ps)) h)). split; [|right; split; [now rewrite ?list_set_length|unfold settle; now rewrite collect_held]].
    apply frame_del; simpl; try rewrite Es; auto; try discriminate; try (no; fail).
    + intros (f' & k' & ps' & X). congruence.
    + intros s' p' [(c' & X)|(c' & X)]; discriminate.
    + intros s' p' [(c' & X)|(c' & X)]; discriminate.
    + intros b' y. split; [intros [X|X]; inversion X; auto|intros (-> & ->); now left].
  - destruct (is_bus b st && holds q st); [|discriminate]. destruct (get b h) as [f k ps| | | | |] eqn:Eb; try discriminate. destruct (get q h) as [| |g| | |] eqn:Es; try discriminate. injection H as <- <-.
    exists (list_set q (PubO None) (list_set b (BusO f k (remove_all q ps)) h)). split; [|right; split; [now rewrite ?list_set_length|unfold settle; now rewrite collect_held]].
    apply frame_del; simpl; try rewrite Es; auto; try discriminate; try (no; fail).
    + intros (f' & k' & ps' & X). congruence.
    + intros s' p' [(c' & X)|(c' & X)]; discriminate.
    + intros s' p' [(c' & X)|(c' & X)]; discriminate.
    + intros b' y. split; [intros [X|X]; inversion X; auto|intros (-> & ->); now right].
  - destruct (is_bus b st); [|discriminate]. injection H as <- <-. exists (detach n b h). destruct (detach_like n b h) as (L & K). split; [apply frame_like; auto; no|left; reflexivity].
  - exists h. split; [apply frame_same; no|]. left. destruct (is_bus b st); [|discriminate]. injection H as <- <-. reflexivity.
  - exists h. split; [apply frame_same; no|]. left. destruct (holds q st); [|discriminate]. destruct (get q h); try discriminate. injection H as <- <-. reflexivity.
  - exists h. split; [apply frame_same; no|]. left. destruct (holds a st); [|discriminate]. destruct (get a h); try discriminate. injection H as <- <-. reflexivity.
  - exists h. split; [apply frame_same; no|]. left. destruct (holds x st); [|discriminate]. injection H as <- <-. reflexivity.
  - destruct (holds x st); [|discriminate]. injection H as <- <-. exists h. split; [apply frame_same; no|]. right. split; [reflexivity|]. unfold settle. now rewrite collect_held.
Qed.

Lemma publish_bus_res h b : publish_bus h b = Fine \/ publish_bus h b = Undef.
Proof. unfold publish_bus. destruct (get b h) as [[r|] ? ?| | | | |]; auto. destruct (allocated r h); auto. Qed.
Lemma publish_res h p : publish h p = Fine \/ publish h p = Undef.
Proof. unfold publish. destruct (get p h) as [| |[b|]| | |]; auto. apply publish_bus_res. Qed.
Lemma ostep_held o st st' r : ostep o st = Some (st', r) -> o <> NewBus ->
  w_held st' = match r, o with New x, _ => w_held st ++ [x] | _, Copy x => w_held st ++ [x] | _, Drop x => remove1 x (w_held st) | _, _ => w_held st end.
Proof.
  intros H NN.
  destruct o as [|b|b k|b|b caps|b caps|b|c caps|c i|s caps|x y|x|b s|b q|b|b|q|a|x|x]; [congruence| | | | | | | | | | | | | | | | | | |]; simpl in H;
    repeat match type of H with
           | (if ?m then _ else _) = _ => destruct m
           | match ?m with _ => _ end = _ => destruct m
           end; try discriminate; injection H as <- <-; simpl; unfold settle; rewrite ?collect_held; auto;
    match goal with |- context [publish ?h ?p] => destruct (publish_res h p) as [-> | ->]; auto | |- context [publish_bus ?h ?p] => destruct (publish_bus_res h p) as [-> | ->]; auto end.
Qed.

Lemma ostep_new o st st' x : ostep o st = Some (st', New x) -> o <> NewBus ->
  length (w_heap st) <= x < length (w_heap st') \/ exists y, In y (uses o) /\ In x (refs (get y (w_heap st))) /\ forall c, o <> NewChild c.
Proof.
  intros H NN. assert (forall b l f k ps js, get b (w_heap st) = BusO f k ps -> length (add_part b js (w_heap st) ++ l) = length (w_heap st) + length l) as La.
  { intros b l f k ps js E. rewrite app_length. unfold add_part. rewrite E, list_set_length. reflexivity. }
  destruct o as [|b|b k|b|b caps|b caps|b|c caps|c i|s caps|z y|z|b s|b q|b|b|q|a|z|z]; [congruence| | | | | | | | | | | | | | | | | | |]; simpl in H.
  - destruct (is_bus b st); [|discriminate]. destruct (get b (w_heap st)) as [[g|] k ps| | | | |] eqn:E; try discriminate. injection H as <- <-. simpl. rewrite app_length, list_set_length. simpl. lia.
  - destruct (is_bus b st); [|discriminate]. destruct (get b (w_heap st)) as [f ks ps| | | | |] eqn:E; try discriminate. destruct (mem k ks) eqn:M; [|discriminate]. injection H as <- <-. right. exists b. rewrite E. simpl. split; auto.
    split; [|discriminate]. apply in_or_app. left. now apply mem_in.
  - destruct (is_bus b st) eqn:B; [|discriminate]. apply is_bus_get in B as (_ & f & k & ps & E). injection H as <- <-. simpl. erewrite La by eauto. simpl. lia.
  - destruct (is_bus b st && subset caps st) eqn:B; [|discriminate]. apply andb_prop in B as (B & _). apply is_bus_get in B as (_ & f & k & ps & E). injection H as <- <-. simpl. erewrite La by eauto. simpl. lia.
  - destruct (is_bus b st && subset caps st) eqn:B; [|discriminate]. apply andb_prop in B as (B & _). apply is_bus_get in B as (_ & f & k & ps & E). injection H as <- <-. simpl. erewrite La by eauto. simpl. lia.
  - destruct (is_bus b st) eqn:B; [|discriminate]. apply is_bus_get in B as (_ & f & k & ps & E). injection H as <- <-. simpl. erewrite La by eauto. simpl. lia.
  - destruct (holds c st && subset caps st); [|discriminate]. destruct (get c (w_heap st)); try discriminate. injection H as _ H. destruct (publish_res (w_heap st) pub); congruence.
  - destruct (get c (w_heap st)); discriminate.
  - destruct (holds s st && subset caps st); [|discriminate]. destruct (get s (w_heap st)); discriminate.
  - match type of H with (if ?m then _ else _) = _ => destruct m eqn:M; [|discriminate] end. injection H as <- <-. right. exists z. simpl. split; auto. split; [|discriminate].
    apply captures_refs. destruct (get z (w_heap st)); try discriminate; simpl; now apply mem_in.
  - destruct (holds z st); [|discriminate]. destruct (get z (w_heap st)); discriminate.
  - destruct (is_bus b st && holds s st); [|discriminate]. destruct (get b (w_heap st)); try discriminate. destruct (get s (w_heap st)); discriminate.
  - destruct (is_bus b st && holds q st); [|discriminate]. destruct (get b (w_heap st)); try discriminate. destruct (get q (w_heap st)); discriminate.
  - destruct (is_bus b st); discriminate.
  - destruct (is_bus b st); [|discriminate]. injection H as _ H. destruct (publish_bus_res (w_heap st) b); congruence.
  - destruct (holds q st); [|discriminate]. destruct (get q (w_heap st)); try discriminate. injection H as _ H. destruct (publish_res (w_heap st) q); congruence.
  - destruct (holds a st); [|discriminate]. destruct (get a (w_heap st)); try discriminate. injection H as _ H. destruct (publish_res (w_heap st) pub); congruence.
  - destruct (holds z st); discriminate.
  - destruct (holds z st); discriminate.
Qed.

(** ** The invariant *)

Record cinv (st : cstate) : Prop := mkCinv {
  ci_o : oinv (own_of st);
  ci_s : settled (own_of st);
  ci_len : length (c_owner st) = length (c_heap st);
  ci_root : owner st 0 = 0 /\ 0 < length (c_heap st) /\ (get 0 (c_heap st) = Dead \/ isbus 0 (c_heap st));
  ci_pos : forall x, x < length (c_heap st) -> owner st x = 0 -> x = 0;
  ci_who : forall l x, In (l, x) (c_who st) -> owner st x = l;
  ci_ref : forall y x, In x (refs (get y (c_heap st))) -> y = 0 \/ owner st x = owner st y;
  ci_part0 : forall x, ~ partof 0 x (c_heap st);
  ci_closed : forall l, In l (c_closed st) -> 0 < l /\ c_up st = false /\ forall x, ~ In (l, x) (c_who st);
  ci_hold : forall l x, In (l, x) (c_who st) -> In (0, 0) (c_who st);
  ci_up : c_up st = true -> In (0, 0) (c_who st);
  ci_tree : In (0, 0) (c_who st) -> forall b, isbus b (c_heap st) -> b = 0 \/ exists p, kidof p b (c_heap st)
}.

Lemma has_in l x st : has l x st = true <-> In (l, x) (c_who st).
Proof.
  unfold has. rewrite existsb_exists. split.
  - intros ((a, b) & J & E). simpl in E. apply andb_prop in E as (E1 & E2). apply Nat.eqb_eq in E1, E2. now subst.
  - intros J. exists (l, x). simpl. now rewrite !Nat.eqb_refl.
Qed.
Lemma remove_who_in l x w p : In p (remove_who l x w) -> In p w.
Proof. induction w as [|q w IH]; simpl; auto. destruct (_ && _); simpl; auto. intros [J|J]; auto. Qed.
Lemma remove_who_other l x w p : In p w -> p <> (l, x) -> In p (remove_who l x w).
Proof.
  induction w as [|(a, b) w IH]; simpl; auto. intros J Ne. destruct (Nat.eqb a l && Nat.eqb b x) eqn:E; simpl.
  - apply andb_prop in E as (E1 & E2). apply Nat.eqb_eq in E1, E2. destruct J as [<-|J]; auto. congruence.
  - destruct J as [<-|J]; auto.
Qed.
Lemma remove_who_perm l x w : In (l, x) w -> Permutation (x :: map snd (remove_who l x w)) (map snd w).
Proof.
  induction w as [|(a, b) w IH]; simpl; [contradiction|]. intros J. destruct (Nat.eqb a l && Nat.eqb b x) eqn:E; simpl.
  - apply andb_prop in E as (E1 & E2). apply Nat.eqb_eq in E1, E2. now subst.
  - destruct J as [J|J]; [injection J as -> ->; rewrite !Nat.eqb_refl in E; discriminate|]. rewrite perm_swap. constructor. auto.
Qed.
Lemma remove1_perm x l : In x l -> Permutation (x :: remove1 x l) l.
Proof.
  induction l as [|y l IH]; simpl; [contradiction|]. intros J. destruct (Nat.eqb_spec x y) as [->|Ne]; auto. rewrite perm_swap. constructor. apply IH. destruct J; congruence.
Qed.

Lemma oinv_held h l l' : (forall x, In x l <-> In x l') -> oinv (mkOwn h l) -> oinv (mkOwn h l').
Proof. intros E I. apply (oinv_less (mkOwn h l) l' I). intros x J. now apply E. Qed.
Lemma settled_held h l l' : (forall x, In x l <-> In x l') -> settled (mkOwn h l) -> settled (mkOwn h l').
Proof. intros E S x L. destruct (S x L) as [J|J]; auto. left. now apply E. Qed.

Lemma ostep_quiet o b st st' r : ostep o st = Some (st', r) -> o = Detach b \/ o = Drop b -> r = Fine /\ length (w_heap st') = length (w_heap st) /\
  forall y, get y (w_heap st') = Dead \/ like (get y (w_heap st)) (get y (w_heap st')).
Proof.
  intros H [->| ->]; simpl in H.
  - destruct (is_bus b st); [|discriminate]. injection H as <- <-. simpl. destruct (detach_like (length (w_heap st)) b (w_heap st)). auto.
  - destruct (holds b st); [|discriminate]. injection H as <- <-. split; auto. apply (collect_like (length (w_heap st)) (mkOwn (w_heap st) (remove1 b (w_held st)))).
Qed.

(** What [perform] amounts to. *)
Lemma perform_inv l l' o st st' r e : perform l l' o st = Some (st', r, e) -> o <> NewBus ->
  (forall x, o = Drop x -> In (l, x) (c_who st)) ->
  exists w, ostep o (own_of st) = Some (w, r) /\ r <> Undef /\ c_heap st' = w_heap w /\
    (forall x, In x (map snd (c_who st')) <-> In x (w_held w)) /\
    c_owner st' = c_owner st ++ repeat l' (length (w_heap w) - length (c_heap st)) /\ c_up st' = c_up st /\ c_closed st' = c_closed st /\
    e = events st o (c_heap st') /\
    (forall a x, In (a, x) (c_who st') -> In (a, x) (c_who st) \/ a = l' /\ (r = New x \/ o = Copy x)) /\
    (forall p, In p (c_who st) -> In p (c_who st') \/ exists x, o = Drop x /\ p = (l, x)) /\
    (forall x, o = Drop x -> r = Fine /\ c_who st' = remove_who l x (c_who st)).
Proof.
  unfold perform. intros H NN Hd. destruct (ostep o (own_of st)) as [(w, r0)|] eqn:E; [|discriminate]. exists w.
  pose proof (ostep_held _ _ _ _ E NN) as Hh. simpl in Hh.
  assert (r0 = r /\ r <> Undef /\ c_heap st' = w_heap w /\ c_owner st' = c_owner st ++ repeat l' (length (w_heap w) - length (c_heap st)) /\ c_up st' = c_up st /\ c_closed st' = c_closed st /\
    e = events st o (c_heap st') /\
    c_who st' = match r, o with New x, _ => c_who st ++ [(l', x)] | _, Copy x => c_who st ++ [(l', x)] | _, Drop x => remove_who l x (c_who st) | _, _ => c_who st end)
    as (-> & Nu & E1 & E2 & E3 & E4 & E5 & Ew).
  { destruct r0; try discriminate; injection H as <- <- <-; repeat split; auto; try discriminate. }
  split; auto. split; auto. split; auto.
  assert (forall x, o = Drop x -> r = Fine) as Df.
  { intros x ->. simpl in E. destruct (holds x (own_of st)); [|discriminate]. now injection E as _ <-. }
  split; [|split; auto; split; auto; split; auto; split; auto; split; [|split]].
  - intros x. rewrite Ew, Hh. destruct r as [|z| |]; [|rewrite map_app, !in_app_iff; simpl; tauto| |congruence].
    + destruct o; try tauto; [rewrite map_app, !in_app_iff; simpl; tauto|]. pose proof (remove_who_perm _ _ _ (Hd _ eq_refl)) as P.
      assert (In x0 (map snd (c_who st))) as J by (apply in_map_iff; exists (l, x0); auto). pose proof (remove1_perm _ _ J) as P'. pose proof (Permutation_trans P (Permutation_sym P')) as Q. clear P P'. apply Permutation_cons_inv in Q.
      split; intros K; [eapply Permutation_in; eauto|]. eapply Permutation_in; [apply Permutation_sym; eauto|auto].
    + destruct o; try tauto; [rewrite map_app, !in_app_iff; simpl; tauto|]. specialize (Df _ eq_refl). discriminate.
  - intros a x J. rewrite Ew in J. destruct r as [|z| |]; [|apply in_app_iff in J as [J|[J|[]]]; auto; injection J as <- <-; auto| |congruence];
      (destruct o; auto; [apply in_app_iff in J as [J|[J|[]]]; auto; injection J as <- <-; auto|left; eapply remove_who_in; eauto]).
  - intros (a, x) J. rewrite Ew. destruct r as [|z| |]; [|left; apply in_or_app; auto| |congruence];
      (destruct o as [| | | | | | | | | | | | | | | | | |y|y]; auto; [left; apply in_or_app; auto|];
       destruct (Nat.eq_dec a l) as [->|]; [destruct (Nat.eq_dec x y) as [->|]; [eauto|]|]; left; apply remove_who_other; auto; congruence).
  - intros x ->. split; eauto. rewrite (Df _ eq_refl) in Ew. auto.
Qed.

(** Who performs what. *)
Definition proper (l l' : nat) (o : oop) (st : cstate) : Prop :=
  o <> NewBus /\ (forall x, o = Drop x -> In (l, x) (c_who st)) /\ (forall x, In x (uses o) -> owner st x = l /\ x < length (c_heap st)) /\ ~ In l' (c_closed st) /\ In (0, 0) (c_who st) /\
  (l' = l /\ 0 < l \/ l' = l /\ l = 0 /\ (o = Detach 0 \/ o = Drop 0 /\ c_up st = false /\ forall a x, In (a, x) (remove_who 0 0 (c_who st)) -> In (0, 0) (remove_who 0 0 (c_who st))) \/
   l = 0 /\ o = NewChild 0 /\ 0 < l').

Lemma owner_old st st' m x : c_owner st' = c_owner st ++ repeat m (length (c_heap st') - length (c_heap st)) -> length (c_owner st) = length (c_heap st) ->
  x < length (c_heap st) -> owner st' x = owner st x.
Proof. intros E L Lx. unfold owner. rewrite E. apply app_nth1. lia. Qed.
Lemma owner_new st st' m x : c_owner st' = c_owner st ++ repeat m (length (c_heap st') - length (c_heap st)) -> length (c_owner st) = length (c_heap st) ->
  length (c_heap st) <= x < length (c_heap st') -> owner st' x = m.
Proof.
  intros E L Lx. unfold owner. rewrite E, app_nth2 by lia. apply nth_error_nth. rewrite nth_error_repeat; auto. lia.
Qed.

(** The heap after a step, against the heap before things were freed. *)
Lemma after_like h1 held h' : h' = h1 \/ h' = w_heap (settle (mkOwn h1 held)) -> length h' = length h1 /\ forall x, get x h' = Dead \/ like (get x h1) (get x h').
Proof.
  intros [->| ->]; [split; auto using like_refl|]. unfold settle. destruct (collect_like (length (w_heap (mkOwn h1 held))) (mkOwn h1 held)) as (L & K). auto.
Qed.
Lemma after_keep (A : nat -> Prop) h1 held h' : h' = h1 \/ h' = w_heap (settle (mkOwn h1 held)) ->
  (forall x, A x -> get x h1 <> Dead /\ (In x held \/ exists y, A y /\ In x (refs (get y h1)))) -> forall x, A x -> like (get x h1) (get x h').
Proof. intros [->| ->] H x Ax; [apply like_refl|]. unfold settle. apply (collect_keep A (length (w_heap (mkOwn h1 held))) (mkOwn h1 held) H x Ax). Qed.

Lemma isbus_like b h h' : like (get b h) (get b h') -> (isbus b h' <-> isbus b h).
Proof. unfold isbus. intros [->|(f & k & ps & -> & ->)]; [tauto|]. split; intros _; eauto. Qed.
Lemma partof_like b x h h' : like (get b h) (get b h') -> (partof b x h' <-> partof b x h).
Proof. unfold partof. intros [->|(f & k & ps & -> & ->)]; [tauto|]. split; intros (f' & k' & ps' & E & J); injection E as <- <- <-; eauto. Qed.
Lemma kidof_like b x h h' : like (get b h) (get b h') -> (kidof b x h' <-> kidof b x h).
Proof. unfold kidof. intros [->|(f & k & ps & -> & ->)]; [tauto|]. split; intros (f' & k' & ps' & E & J); injection E as <- <- <-; eauto. Qed.
Lemma dead_no x h : get x h = Dead -> ~ isbus x h /\ (forall y, ~ partof x y h) /\ (forall y, ~ kidof x y h) /\ refs (get x h) = [].
Proof.
  intros D. unfold isbus, partof, kidof. rewrite D. repeat split; auto.
  - intros (f & k & ps & E). discriminate.
  - intros y (f & k & ps & E & _). discriminate.
  - intros y (f & k & ps & E & _). discriminate.
Qed.
Lemma kidof_refs p b h : kidof p b h -> In b (refs (get p h)).
Proof. intros (f & k & ps & E & J). rewrite E. simpl. apply in_or_app. auto. Qed.
Lemma partof_refs p b h : partof p b h -> In b (refs (get p h)).
Proof. intros (f & k & ps & E & J). rewrite E. simpl. apply in_or_app. auto. Qed.
Lemma uses_some o : o <> NewBus -> exists x, In x (uses o).
Proof. destruct o; intros N; try congruence; simpl; eauto. Qed.

Lemma perform_cinv l l' o st st' r e : perform l l' o st = Some (st', r, e) -> cinv st -> proper l l' o st -> cinv st'.
Proof.
  intros H C (NN & Hd & U & Ncl & H0 & Who).
  destruct (perform_inv _ _ _ _ _ _ _ H NN Hd) as (w & Eo & Nu & Eh & Ehd & Eow & Eup & Ecl & _ & W1 & W2 & W3).
  destruct (ostep_ok _ _ _ _ Eo (ci_o _ C) (ci_s _ C)) as (Io & So). destruct (ostep_frame _ _ _ _ Eo NN) as (h1 & F & Af0). simpl in F.
  assert (w_heap w = h1 \/ w_heap w = w_heap (settle (mkOwn h1 (w_held w)))) as Af by tauto. clear Af0. rewrite <- Eh in Af, Eow.
  destruct (after_like _ _ _ Af) as (L1 & K1).
  assert (oinv (own_of st')) as I'. { unfold own_of. rewrite Eh. destruct w as [hh ll]. eapply oinv_held; [|exact Io]. intros x. symmetry. apply Ehd. }
  assert (settled (own_of st')) as S'. { unfold own_of. rewrite Eh. destruct w as [hh ll]. eapply settled_held; [|exact So]. intros x. symmetry. apply Ehd. }
  pose proof (fr_len _ _ _ _ F) as Lh.
  assert (forall x, x < length (c_heap st) -> owner st' x = owner st x) as Old by (intros x; eapply owner_old; eauto; apply C).
  assert (forall x, length (c_heap st) <= x < length (c_heap st') -> owner st' x = l') as Nw by (intros x; eapply owner_new; eauto; apply C).
  assert (forall y x, In x (refs (get y (c_heap st'))) -> In x (refs (get y h1))) as Rf.
  { intros y x J. destruct (K1 y) as [D|D]; [rewrite D in J; contradiction|]. now rewrite (like_refs _ _ D) in J. }
  assert (forall y x, In x (refs (get y (c_heap st))) -> x < length (c_heap st) /\ y < length (c_heap st)) as Lt.
  { intros y x J. split; apply get_live; [apply (oi_ref _ (ci_o _ C)); simpl; eauto|]. intros D. rewrite D in J. contradiction. }
  destruct (ci_root _ C) as (R1 & R2 & R3).
  assert (In (0, 0) (c_who st') -> forall b, isbus b h1 -> b = 0 \/ exists p, kidof p b h1) as T1.
  { intros _ b B. destruct (fr_bus _ _ _ _ F b B) as [B'|[B'|(p & _ & B' & _)]]; [|congruence|eauto].
    destruct (ci_tree _ C H0 b B') as [->|(p & K)]; auto. right. exists p. eapply fr_kid; eauto. }
  assert (In (0, 0) (c_who st') -> forall b, isbus b h1 -> like (get b h1) (get b (c_heap st'))) as Kp.
  { intros H0'. apply (after_keep (fun b => isbus b h1) _ _ _ Af). intros b B. split.
    - intros D. now destruct (dead_no _ _ D).
    - destruct (T1 H0' b B) as [->|(p & K)].
      + left. apply Ehd. apply in_map_iff. exists (0, 0). auto.
      + right. exists p. split; [|now apply kidof_refs]. destruct K as (f & k & ps & E & _). unfold isbus. eauto. }
  assert (o = Detach 0 \/ o = Drop 0 /\ c_up st = false /\ (forall a x, In (a, x) (remove_who 0 0 (c_who st)) -> In (0, 0) (remove_who 0 0 (c_who st))) ->
    r = Fine /\ length (c_heap st') = length (c_heap st) /\ forall y, get y (c_heap st') = Dead \/ like (get y (c_heap st)) (get y (c_heap st'))) as Qt.
  { intros Ho. rewrite Eh. apply (ostep_quiet o 0 (own_of st)); tauto. }
  constructor; auto.
  - rewrite Eow, app_length, repeat_length, (ci_len _ C). lia.
  - rewrite Old by auto. split; auto. split; [lia|]. destruct (K1 0) as [D|D]; auto. destruct R3 as [D'|B].
    + left. apply (like_dead _ _ D). eapply fr_dead; eauto.
    + right. apply (isbus_like _ _ _ D). eapply fr_bus'; eauto.
  - intros x Lx Ox. destruct (Nat.lt_ge_cases x (length (c_heap st))) as [Lo|Lo]; [rewrite Old in Ox by auto; now apply (ci_pos _ C)|].
    rewrite Nw in Ox by auto. exfalso. destruct Who as [(-> & ?)|[(-> & ? & Ho)|(_ & _ & ?)]]; try lia. destruct (Qt Ho) as (_ & Lq & _). lia.
  - intros a x J. destruct (W1 _ _ J) as [J'|(-> & E)].
    + rewrite Old; [now apply (ci_who _ C)|]. apply get_live. apply (oi_ref _ (ci_o _ C)). left. apply in_map_iff. exists (a, x). auto.
    + destruct E as [->| ->].
      * destruct (ostep_new _ _ _ _ Eo NN) as [Lx|(y & Uy & Ry & Nc)]; [rewrite <- Eh in Lx; auto|]. simpl in Ry. destruct (Lt _ _ Ry) as (Lx & Ly). rewrite Old by auto.
        destruct (ci_ref _ C _ _ Ry) as [->|E]; [|rewrite E, (proj1 (U _ Uy)); destruct Who as [(-> & _)|[(-> & _)|(_ & X & _)]]; auto; exfalso; eapply Nc; eauto].
        pose proof (proj1 (U _ Uy)) as U0. rewrite R1 in U0. exfalso. destruct Who as [(-> & ?)|[(-> & ? & Ho)|(_ & X & _)]]; [lia| |eapply Nc; eauto].
        destruct (Qt Ho) as (X & _). discriminate.
      * destruct (U x (or_introl eq_refl)) as (U0 & U1). rewrite Old by auto. destruct Who as [(-> & _)|[(-> & _)|(_ & X & _)]]; auto. discriminate.
  - intros y x J. destruct Who as [(-> & Hl)|[(-> & -> & Ho)|(-> & Ec & Hl)]].
    + apply Rf in J. destruct (fr_refs _ _ _ _ F _ _ J) as [J'|(Y & X & _)].
      * destruct (Lt _ _ J'). rewrite !Old by auto. now apply (ci_ref _ C).
      * assert (y < length (c_heap st')) as Ly. { rewrite L1. apply get_live. intros D. rewrite D in J. contradiction. }
        assert (forall z, In z (uses o) -> owner st' z = l) as Ou by (intros z Uz; rewrite Old; apply U; auto).
        right. transitivity l; [|symmetry].
        -- destruct X as [X|X]; auto. apply Nw. lia.
        -- destruct Y as [Y|Y]; auto.
    + destruct (Qt Ho) as (_ & _ & Kq). destruct (Kq y) as [D|D]; [rewrite D in J; contradiction|]. rewrite (like_refs _ _ D) in J. destruct (Lt _ _ J). rewrite !Old by auto. now apply (ci_ref _ C).
    + apply Rf in J. destruct (fr_child _ _ _ _ F _ _ _ Ec J) as [J'|J']; auto. destruct (Lt _ _ J'). rewrite !Old by auto. now apply (ci_ref _ C).
  - intros x P. destruct (K1 0) as [D|D]; [now apply (dead_no _ _ D) in P|]. apply (partof_like _ _ _ _ D) in P. destruct (fr_part _ _ _ _ F _ _ P) as [(P' & _)|(M & _)].
    + revert P'. apply C.
    + assert (In 0 (uses o)) as U0 by (destruct M as [[->|(c & ->)]|[(c & ->)| ->]]; simpl; auto). apply U in U0. rewrite R1 in U0. destruct U0 as (<- & _).
      destruct Who as [(-> & ?)|[(-> & ? & [->|(-> & _)])|(_ & -> & _)]]; [lia| | |]; destruct M as [[M|(c & M)]|[(c & M)|M]]; discriminate.
  - rewrite Ecl, Eup. intros a J. destruct (ci_closed _ C _ J) as (P1 & P2 & P3). split; auto. split; auto. intros x K. destruct (W1 _ _ K) as [K'|(-> & _)]; [eapply P3; eauto|contradiction].
  - intros a x J. destruct (W2 _ H0) as [K|(y & -> & E)]; auto. injection E as <- <-. destruct (W3 _ eq_refl) as (_ & Ew). rewrite Ew in *.
    destruct Who as [(_ & ?)|[(_ & _ & [X|(_ & _ & G)])|(_ & X & _)]]; [lia|discriminate|eauto|discriminate].
  - rewrite Eup. intros Up. destruct (W2 _ H0) as [K|(y & -> & E)]; auto. injection E as <- <-.
    destruct Who as [(_ & ?)|[(_ & _ & [X|(_ & X & _)])|(_ & X & _)]]; [lia|discriminate|congruence|discriminate].
  - intros H0' b B. assert (like (get b h1) (get b (c_heap st'))) as Lb.
    { destruct (K1 b) as [D|D]; auto. now apply (dead_no _ _ D) in B. }
    apply (isbus_like _ _ _ Lb) in B. destruct (T1 H0' b B) as [->|(p & K)]; auto. right. exists p. apply (kidof_like _ _ _ _ (Kp H0' p ltac:(destruct K as (f & k & ps & E & _); unfold isbus; eauto))). auto.
Qed.

(** ** Steps *)

Inductive stepkind (lb : clabel) (st st' : cstate) (r : ores) (e : list (nat * nat)) : Prop :=
| kind_perform l l' o : perform l l' o st = Some (st', r, e) -> proper l l' o st ->
    (lb = By l o /\ l' = l /\ 0 < l \/ lb = Instantiate l' /\ l = 0 /\ o = NewChild 0 /\ 0 < l' \/ lb = Call o /\ (exists x y, o = Answer x y \/ o = Take x y) /\ c_up st = true /\ l' = l /\ 0 < l \/
     lb = DetachRoot /\ o = Detach 0 /\ l = 0 /\ l' = 0 \/ lb = DropRoot /\ o = Drop 0 /\ l = 0 /\ l' = 0) ->
    stepkind lb st st' r e
| kind_end : lb = End -> c_up st = true -> st' = mkC (c_heap st) (c_owner st) (c_who st) false (c_closed st) -> r = Fine -> e = [] -> stepkind lb st st' r e
| kind_close l : lb = Close l -> c_up st = false -> 0 < l -> ~ In l (c_closed st) -> (forall x, ~ In (l, x) (c_who st)) -> In (0, 0) (c_who st) ->
    st' = mkC (c_heap st) (c_owner st) (c_who st) (c_up st) (l :: c_closed st) -> r = Fine -> e = [] -> stepkind lb st st' r e.

Lemma no_zero st : cinv st -> ~ In 0 (c_closed st).
Proof. intros C J. destruct (ci_closed _ C _ J). lia. Qed.
Lemma host_root st x : cinv st -> In (0, x) (c_who st) -> x = 0.
Proof.
  intros C J. apply (ci_pos _ C); [|now apply (ci_who _ C)]. apply get_live. apply (oi_ref _ (ci_o _ C)). left. apply in_map_iff. exists (0, x). auto.
Qed.
Lemma remove_one l x w : 1 < length (filter (fun p => Nat.eqb (fst p) l) w) -> exists y, In (l, y) (remove_who l x w).
Proof.
  induction w as [|(a, b) w IH]; simpl; [lia|]. destruct (Nat.eqb_spec a l) as [->|Ne]; simpl.
  - intros Hl. destruct (Nat.eqb b x); [|exists b; simpl; auto]. destruct (filter (fun p => Nat.eqb (fst p) l) w) as [|(c, d) fl] eqn:E; [simpl in Hl; lia|].
    assert (In (c, d) w /\ c = l) as (J & ->). { assert (In (c, d) (filter (fun p => Nat.eqb (fst p) l) w)) as J by (rewrite E; simpl; auto). apply filter_In in J as (J & X). apply Nat.eqb_eq in X. auto. }
    eauto.
  - intros Hl. destruct (IH Hl) as (y & J). exists y. auto.
Qed.

Lemma cstep_kind lb st st' r e : cstep lb st = Some (st', r, e) -> cinv st -> stepkind lb st st' r e.
Proof.
  intros H C. destruct (ci_root _ C) as (R1 & R2 & R3). destruct lb as [l|l o|o| | |l|]; simpl in H.
  - destruct (c_up st && (0 <? l) && has 0 0 st) eqn:G; [|discriminate]. apply andb_prop in G as (G & G3). apply andb_prop in G as (G1 & G2). apply Nat.ltb_lt in G2. apply has_in in G3.
    eapply kind_perform; [exact H| |tauto]. split; [discriminate|]. split; [discriminate|]. split; [intros x [<-|[]]; auto|]. split; [|split; [exact G3|right; right; auto]].
    intros J. destruct (ci_closed _ C _ J) as (_ & X & _). congruence.
  - assert ((0 <? l) && negb (mem l (c_closed st)) && forallb (fun x => has l x st) (uses o) = true /\ perform l l o st = Some (st', r, e) /\ o <> NewBus) as (G & P & NN).
    { destruct o; try discriminate; match type of H with (if ?m then _ else _) = _ => destruct m eqn:G; [|discriminate] end; repeat split; auto; discriminate. }
    apply andb_prop in G as (G & G3). apply andb_prop in G as (G1 & G2). apply Nat.ltb_lt in G1. apply negb_true_iff, mem_not in G2. rewrite forallb_forall in G3.
    assert (forall x, In x (uses o) -> In (l, x) (c_who st)) as U by (intros x J; now apply has_in, G3).
    destruct (uses_some o NN) as (u & Hu). eapply kind_perform; [exact P| |left; auto]. split; auto. split; [intros x ->; apply U; simpl; auto|].
    split; [|split; auto; split; [eapply (ci_hold _ C); eauto|auto]]. intros x J. apply U in J. split; [now apply (ci_who _ C)|]. apply get_live. apply (oi_ref _ (ci_o _ C)). left. apply in_map_iff. exists (l, x). auto.
  - assert (c_up st = true /\ exists x, uses o = [x] /\ get x (c_heap st) <> Dead /\ ~ isbus x (c_heap st) /\ perform (owner st x) (owner st x) o st = Some (st', r, e) /\ o <> NewBus /\ (forall z, o <> Drop z) /\ exists u v, o = Answer u v \/ o = Take u v) as (Up & x & Ux & Lx & NB & P & NN & ND & At).
    { destruct o as [| | | | | | | |c i| |x y| | | | | | | | |]; try discriminate; (destruct (c_up st); [|discriminate]; split; auto).
      - exists c. split; auto. assert (get c (c_heap st) <> Dead /\ ~ isbus c (c_heap st)) as (A & B).
        { unfold perform in H. simpl in H. destruct (get c (c_heap st)) eqn:E; try discriminate. split; [discriminate|]. intros (f & k & ps & X). congruence. }
        repeat split; auto; try discriminate. eauto.
      - exists x. split; auto. assert (get x (c_heap st) <> Dead /\ ~ isbus x (c_heap st)) as (A & B).
        { unfold perform in H. simpl in H. destruct (get x (c_heap st)) eqn:E; try discriminate; (split; [discriminate|]; intros (f & k & ps & X); congruence). }
        repeat split; auto; try discriminate. eauto. }
    assert (0 < owner st x) as Po.
    { destruct (owner st x) eqn:Ox; [|lia]. exfalso. apply get_live in Lx as Ll. apply (ci_pos _ C) in Ox; auto. subst x. destruct R3; contradiction. }
    eapply kind_perform; [exact P| |right; right; left; auto]. split; auto. split; [intros z X; exfalso; eapply ND; eauto|]. split; [rewrite Ux; intros z [<-|[]]; split; auto; now apply get_live|].
    split; [|split; [now apply (ci_up _ C)|auto]]. intros J. destruct (ci_closed _ C _ J) as (_ & X & _). congruence.
  - destruct (c_up st) eqn:Up; [|discriminate]. injection H as <- <- <-. apply kind_end; auto.
  - destruct (negb (c_up st) && has 0 0 st) eqn:G; [|discriminate]. apply andb_prop in G as (G1 & G2). apply has_in in G2.
    eapply kind_perform; [exact H| |right; right; right; left; auto]. split; [discriminate|]. split; [discriminate|]. split; [intros x [<-|[]]; auto|]. split; [now apply no_zero|]. split; auto. right. left. auto.
  - match type of H with (if ?m then _ else _) = _ => destruct m eqn:G; [|discriminate] end. injection H as <- <- <-. rewrite !andb_true_iff in G. destruct G as ((((G1 & G2) & G3) & G4) & G5).
    apply negb_true_iff in G1. apply Nat.ltb_lt in G2. apply negb_true_iff, mem_not in G3. apply has_in in G5. apply negb_true_iff in G4. eapply kind_close; eauto.
    intros x J. assert (existsb (fun p => Nat.eqb (fst p) l) (c_who st) = true); [|congruence]. apply existsb_exists. exists (l, x). simpl. now rewrite Nat.eqb_refl.
  - match type of H with (if ?m then _ else _) = _ => destruct m eqn:G; [|discriminate] end. rewrite !andb_true_iff in G. destruct G as ((G1 & G2) & G3). apply negb_true_iff in G1. apply has_in in G2.
    eapply kind_perform; [exact H| |right; right; right; right; auto]. split; [discriminate|]. split; [intros x X; now injection X as <-|]. split; [intros x [<-|[]]; auto|]. split; [now apply no_zero|]. split; auto.
    right. left. split; auto. split; auto. right. split; auto. split; auto. intros a x J. apply orb_true_iff in G3 as [G3|G3].
    + rewrite forallb_forall in G3. assert (a = 0) as ->. { specialize (G3 _ (remove_who_in _ _ _ _ J)). simpl in G3. now apply Nat.eqb_eq in G3. }
      now rewrite (host_root st x C (remove_who_in _ _ _ _ J)) in J.
    + apply Nat.ltb_lt in G3. destruct (remove_one 0 0 _ G3) as (y & K). now rewrite (host_root st y C (remove_who_in _ _ _ _ K)) in K.
Qed.

Lemma cstep_cinv lb st st' r e : cstep lb st = Some (st', r, e) -> cinv st -> cinv st'.
Proof.
  intros H C. destruct (cstep_kind _ _ _ _ _ H C) as [l l' o P Pr _| -> Up -> _ _|l -> Up Hl Nc Nw H0 -> _ _].
  - eapply perform_cinv; eauto.
  - destruct C as [A B D E F G I J K L M N]. constructor; simpl; auto; try discriminate. intros a X. destruct (K a X) as (K1 & K2 & K3). auto.
  - destruct C as [A B D E F G I J K L M N]. constructor; simpl; auto. intros a [<-|X]; auto.
Qed.
Lemma cinv_init : cinv c_init.
Proof.
  assert (forall x, get x [BusO (Some 0) [] []] = BusO (Some 0) [] [] /\ x = 0 \/ get x [BusO (Some 0) [] []] = Dead) as G by (intros x; apply sing_cases).
  constructor; unfold own_of, owner; simpl.
  - constructor; simpl.
    + intros x [[<-|[<-|[]]]|(y & J)]; try discriminate. destruct (G y) as [(E & _)|E]; rewrite E in J; contradiction.
    + intros x f k ps y E J. destruct (G x) as [(E' & _)|E']; rewrite E' in E; [injection E as <- <- <-; contradiction|discriminate].
    + intros x f k ps y E J. destruct (G x) as [(E' & _)|E']; rewrite E' in E; [injection E as <- <- <-; contradiction|discriminate].
    + intros x f k ps y r k' ps' E J. destruct (G x) as [(E' & _)|E']; rewrite E' in E; [injection E as <- <- <-; contradiction|discriminate].
    + intros y r k ps E. destruct (G y) as [(E' & ->)|E']; rewrite E' in E; [injection E as <- _ _; auto|discriminate].
    + intros a s p A. destruct (G a) as [(E' & _)|E']; rewrite E' in A; destruct A as [(c & X)|(c & X)]; discriminate.
  - intros x L. simpl in *. destruct (G x) as [(_ & ->)|E]; auto; congruence.
  - reflexivity.
  - split; auto. split; auto. right. exists (Some 0), [], []. reflexivity.
  - intros x Lx _. lia.
  - intros l x [E|[E|[]]]; injection E as <- <-; reflexivity.
  - intros y x J. destruct (G y) as [(E & _)|E]; rewrite E in J; contradiction.
  - intros x (f & k & ps & E & J). injection E as <- <- <-. contradiction.
  - intros l [].
  - auto.
  - auto.
  - intros _ b (f & k & ps & E). destruct (G b) as [(_ & ->)|E']; auto. congruence.
Qed.
Lemma cexec_cinv ls : forall st st' lg e, cexec ls st = Some (st', lg, e) -> cinv st -> cinv st'.
Proof.
  induction ls as [|lb ls IH]; intros st st' lg e H C; simpl in H; [injection H as <- <- <-; auto|].
  destruct (cstep lb st) as [[[st1 r] e1]|] eqn:E; [|discriminate]. destruct (cexec ls st1) as [[[st2 lg2] e2]|] eqn:E2; [|discriminate]. injection H as <- <- <-. eapply IH; eauto. eapply cstep_cinv; eauto.
Qed.

(** A step against the heap before things were freed. *)
Lemma perform_frame l l' o st st' r e : perform l l' o st = Some (st', r, e) -> cinv st -> proper l l' o st ->
  exists h1, frame o (c_heap st) r h1 /\ length (c_heap st') = length h1 /\ (forall x, get x (c_heap st') = Dead \/ like (get x h1) (get x (c_heap st'))) /\
    (forall A : nat -> Prop, (forall x, A x -> get x h1 <> Dead /\ (In x (map snd (c_who st')) \/ exists y, A y /\ In x (refs (get y h1)))) ->
       forall x, A x -> like (get x h1) (get x (c_heap st'))) /\
    (forall x, member x h1 -> member x (c_heap st')) /\ (forall x, member x (c_heap st') -> member x h1) /\
    (forall x, length (c_heap st) <= x < length (c_heap st') -> owner st' x = l') /\ (forall x, x < length (c_heap st) -> owner st' x = owner st x) /\
    e = events st o (c_heap st').
Proof.
  intros H C (NN & Hd & _). destruct (perform_inv _ _ _ _ _ _ _ H NN Hd) as (w & Eo & Nu & Eh & Ehd & Eow & _ & _ & Ee & _).
  destruct (ostep_frame _ _ _ _ Eo NN) as (h1 & F & Af0). simpl in F. exists h1.
  assert (w_heap w = h1 \/ w_heap w = w_heap (settle (mkOwn h1 (w_held w)))) as Af by tauto. destruct (ostep_evo _ _ _ _ Eo (ci_o _ C) (ci_s _ C)) as (_ & Ev). simpl in Ev, Af0.
  rewrite <- Eh in Af, Eow, Af0, Ev. destruct (after_like _ _ _ Af) as (L1 & K1). split; auto. split; auto. split; auto.
  split; [intros A HA; eapply after_keep; eauto; intros x Ax; destruct (HA x Ax) as (D & [J|J]); split; auto; left; now apply Ehd|].
  split; [|split; [|split; [|split; auto]]].
  - intros x (a & s & p & A & Hx). destruct Af0 as [->|(L0 & _)]; [exists a, s, p; auto|]. exists a, s, p. split; auto.
    destruct (fr_act _ _ _ _ F _ _ _ A) as [A'|(La & _)]; [now apply Ev|]. apply action_lt in A. lia.
  - intros x (a & s & p & A & Hx). exists a, s, p. split; auto. destruct (K1 a) as [D|D]; [rewrite D in A; now apply not_action_dead in A|]. now apply (like_action _ _ _ _ D).
  - intros x. eapply owner_new; eauto. apply C.
  - intros x. eapply owner_old; eauto. apply C.
Qed.

Lemma operands_uses o x : In x (operands o) -> In x (uses o).
Proof. destruct o; simpl; auto; tauto. Qed.
Lemma freed_in h h' x : In x (freed h h') <-> get x h <> Dead /\ get x h' = Dead.
Proof.
  unfold freed. rewrite filter_In, in_seq, andb_true_iff, allocated_get, negb_true_iff. split.
  - intros (_ & A & B). split; auto. unfold allocated in B. destruct (get x h'); auto; discriminate.
  - intros (A & B). split; [apply get_live in A; lia|]. split; auto. unfold allocated. now rewrite B.
Qed.

(** ** After a library was closed *)

Lemma root_kid st x : cinv st -> In x (refs (get 0 (c_heap st))) -> kidof 0 x (c_heap st).
Proof.
  intros C J. destruct (ci_root _ C) as (_ & _ & [D|(f & k & ps & E)]); [rewrite D in J; contradiction|]. rewrite E in J. simpl in J. apply in_app_iff in J as [J|J]; [exists f, k, ps; auto|].
  exfalso. apply (ci_part0 _ C x). exists f, k, ps. auto.
Qed.
Lemma cstep_closed lb st st' r e l : cstep lb st = Some (st', r, e) -> In l (c_closed st) -> In l (c_closed st').
Proof.
  intros H J. assert (forall a b o, perform a b o st = Some (st', r, e) -> In l (c_closed st')) as P.
  { intros a b o. unfold perform. destruct (ostep o (own_of st)) as [(w, [])|]; try discriminate; intros X; injection X as <- _ _; auto. }
  destruct lb as [a|a o|o| | |a|]; simpl in H.
  - destruct (_ && _); [eauto|discriminate].
  - destruct o; try discriminate; destruct (_ && _); try discriminate; eauto.
  - destruct o; try discriminate; destruct (c_up st); try discriminate; eauto.
  - destruct (c_up st); [|discriminate]. injection H as <- _ _. auto.
  - destruct (_ && _); [eauto|discriminate].
  - destruct (_ && _); [|discriminate]. injection H as <- _ _. simpl. auto.
  - destruct (_ && _); [eauto|discriminate].
Qed.
Lemma cstep_heap lb st st' r e : cstep lb st = Some (st', r, e) -> cinv st -> (forall x, x < length (c_heap st) -> owner st' x = owner st x) /\ length (c_heap st) <= length (c_heap st').
Proof.
  intros H C. destruct (cstep_kind _ _ _ _ _ H C) as [l l' o P Pr _| -> Up -> _ _|l -> Up Hl Nc Nw H0 -> _ _]; auto.
  destruct (perform_frame _ _ _ _ _ _ _ P C Pr) as (h1 & F & L & _ & _ & _ & _ & _ & O & _). split; auto. rewrite L. apply F.
Qed.

Lemma keep_closed lb st st' r e l (A : nat -> Prop) : cstep lb st = Some (st', r, e) -> cinv st -> In l (c_closed st) ->
  (forall x, A x -> get x (c_heap st) <> Dead /\ (owner st x = l /\ (exists y, A y /\ In x (refs (get y (c_heap st)))) \/ x = 0 /\ In (0, 0) (c_who st'))) ->
  forall x, A x -> get x (c_heap st') <> Dead /\ incl (refs (get x (c_heap st))) (refs (get x (c_heap st'))) /\ (x <> 0 -> like (get x (c_heap st)) (get x (c_heap st'))).
Proof.
  intros H C Cl HA x Ax. destruct (ci_closed _ C _ Cl) as (Pl & Dn & _).
  destruct (cstep_kind _ _ _ _ _ H C) as [l0 l' o P Pr K| -> Up -> _ _|l0 -> Up Hl Nc Nw H0 -> _ _].
  2,3: simpl; split; [apply HA; auto|]; split; [apply incl_refl|intros; apply like_refl].
  destruct (perform_frame _ _ _ _ _ _ _ P C Pr) as (h1 & F & L & K1 & Kp & _).
  destruct Pr as (NN & _ & U & Ncl & _ & Who).
  assert (l0 <> l) as Ne. { intros ->. destruct Who as [(-> & _)|[(_ & -> & _)|(-> & _)]]; [contradiction| |]; lia. }
  assert (forall y, A y -> y <> 0 -> like (get y (c_heap st)) (get y h1)) as L1.
  { intros y Ay Ny. destruct (HA y Ay) as (D & [(O & _)|(-> & _)]); [|congruence]. apply (fr_like _ _ _ _ F); [now apply get_live|]. intros J. apply U in J. lia. }
  assert (forall y z, A y -> In z (refs (get y (c_heap st))) -> In z (refs (get y h1))) as R1.
  { intros y z Ay J. destruct (Nat.eq_dec y 0) as [->|Ny]; [|now rewrite (like_refs _ _ (L1 y Ay Ny))]. apply kidof_refs. eapply fr_kid; eauto. now apply root_kid. }
  assert (forall y, A y -> like (get y h1) (get y (c_heap st'))) as L2.
  { apply Kp. intros y Ay. destruct (HA y Ay) as (D & G). split; [eapply fr_live; eauto|]. destruct G as [(O & z & Az & J)|(-> & J)]; [right; exists z; auto|]. left. apply in_map_iff. exists (0, 0). auto. }
  split; [|split].
  - intros D. apply (like_dead _ _ (L2 x Ax)) in D. revert D. eapply fr_live; eauto. now apply HA.
  - intros z J. rewrite (like_refs _ _ (L2 x Ax)). auto.
  - intros Nx. eapply like_trans; eauto.
Qed.

Lemma closed_event lb st st' r e l x : cstep lb st = Some (st', r, e) -> cinv st -> In l (c_closed st) -> In (x, l) e ->
  get x (c_heap st) <> Dead /\ get x (c_heap st') = Dead /\ ~ isbus x (c_heap st) /\ owner st x = l.
Proof.
  intros H C Cl J. destruct (ci_closed _ C _ Cl) as (Pl & Dn & _).
  destruct (cstep_kind _ _ _ _ _ H C) as [l0 l' o P Pr K| -> Up -> _ ->|l0 -> Up Hl Nc Nw H0 -> _ ->]; try contradiction.
  destruct (perform_frame _ _ _ _ _ _ _ P C Pr) as (h1 & _ & _ & _ & _ & _ & _ & _ & _ & ->).
  destruct Pr as (NN & _ & U & Ncl & _ & Who).
  assert (l0 <> l) as Ne. { intros ->. destruct Who as [(-> & _)|[(_ & -> & _)|(-> & _)]]; [contradiction| |]; lia. }
  unfold events in J. apply in_map_iff in J as (y & E & J). injection E as <- Eo. apply filter_In in J as (J & B). apply in_app_iff in J as [J|J].
  - apply operands_uses, U in J. lia.
  - apply freed_in in J as (D1 & D2). repeat split; auto. intros (f & k & ps & E). rewrite E in B. discriminate.
Qed.
Lemma freed_event lb st st' r e x : cstep lb st = Some (st', r, e) -> cinv st -> get x (c_heap st) <> Dead -> get x (c_heap st') = Dead -> ~ isbus x (c_heap st) ->
  In (x, owner st x) e.
Proof.
  intros H C D1 D2 B. destruct (cstep_kind _ _ _ _ _ H C) as [l0 l' o P Pr K| -> Up -> _ ->|l0 -> Up Hl Nc Nw H0 -> _ ->]; try contradiction.
  destruct (perform_frame _ _ _ _ _ _ _ P C Pr) as (h1 & _ & _ & _ & _ & _ & _ & _ & _ & ->).
  unfold events. apply in_map_iff. exists x. split; auto. apply filter_In. split; [apply in_or_app; right; now apply freed_in|].
  destruct (get x (c_heap st)) eqn:E; auto. exfalso. apply B. unfold isbus. eauto.
Qed.

(** Nobody else changes what a closed library made, or makes something in its name. *)
Lemma closed_like lb st st' r e l x : cstep lb st = Some (st', r, e) -> cinv st -> In l (c_closed st) -> owner st' x = l -> get x (c_heap st') <> Dead ->
  owner st x = l /\ x <> 0 /\ get x (c_heap st) <> Dead /\ like (get x (c_heap st)) (get x (c_heap st')).
Proof.
  intros H C Cl O D. destruct (ci_closed _ C _ Cl) as (Pl & Dn & _). destruct (ci_root _ C) as (R1 & _).
  destruct (cstep_kind _ _ _ _ _ H C) as [l0 l' o P Pr K| -> Up -> _ ->|l0 -> Up Hl Nc Nw H0 -> _ ->].
  2,3: unfold owner in *; simpl in *; split; auto; split; [intros ->; lia|]; split; auto using like_refl.
  destruct (perform_frame _ _ _ _ _ _ _ P C Pr) as (h1 & F & L & K1 & _ & _ & _ & Nw & Old & _).
  destruct Pr as (NN & _ & U & Ncl & _ & Who).
  assert (l0 <> l) as Ne. { intros ->. destruct Who as [(-> & _)|[(_ & -> & _)|(-> & _)]]; [contradiction| |]; lia. }
  assert (x < length (c_heap st)) as Lx.
  { destruct (Nat.lt_ge_cases x (length (c_heap st))) as [Lx|Lx]; auto. exfalso. apply Ncl. rewrite <- (Nw x); [now rewrite O|]. split; auto. now apply get_live. }
  rewrite Old in O by auto. split; auto. split; [intros ->; lia|].
  assert (like (get x (c_heap st)) (get x h1)) as L1. { apply (fr_like _ _ _ _ F); auto. intros J. apply U in J. lia. }
  destruct (K1 x) as [X|L2]; [contradiction|]. split; [|eapply like_trans; eauto]. intros X. apply D. apply (like_dead _ _ L2). now apply (like_dead _ _ L1).
Qed.

(** What a closed library left is only held by itself. *)
Definition left_over (l : nat) (st : cstate) : Prop :=
  forall x, owner st x = l -> get x (c_heap st) <> Dead -> ~ isbus x (c_heap st) ->
    exists y, owner st y = l /\ get y (c_heap st) <> Dead /\ ~ isbus y (c_heap st) /\ In x (refs (get y (c_heap st))).
Lemma left_step lb st st' r e l : cstep lb st = Some (st', r, e) -> cinv st -> In l (c_closed st) -> left_over l st ->
  left_over l st' /\ forall x, ~ In (x, l) e.
Proof.
  intros H C Cl Lo. destruct (ci_closed _ C _ Cl) as (Pl & Dn & _). destruct (ci_root _ C) as (R1 & _).
  set (A := fun x => owner st x = l /\ get x (c_heap st) <> Dead /\ ~ isbus x (c_heap st)).
  assert (forall x, A x -> get x (c_heap st') <> Dead /\ incl (refs (get x (c_heap st))) (refs (get x (c_heap st'))) /\ (x <> 0 -> like (get x (c_heap st)) (get x (c_heap st')))) as Kp.
  { apply (keep_closed lb st st' r e l A H C Cl). intros x (O & D & B). split; auto. left. split; auto. destruct (Lo x O D B) as (y & Oy & Dy & By & J). exists y. split; auto. unfold A. auto. }
  split.
  - intros x O D B. destruct (closed_like _ _ _ _ _ _ _ H C Cl O D) as (O' & Nx & D' & Lk).
    assert (~ isbus x (c_heap st)) as B' by (intros X; apply B; now apply (isbus_like _ _ _ Lk)).
    destruct (Lo x O' D' B') as (y & Oy & Dy & By & J). exists y. destruct (Kp y (conj Oy (conj Dy By))) as (Dy' & Iy & Ly). assert (y <> 0) as Ny by (intros ->; lia).
    destruct (cstep_heap _ _ _ _ _ H C) as (Old & Le). rewrite Old by now apply get_live. split; auto. split; auto. split; auto. intros X. apply By. now apply (isbus_like _ _ _ (Ly Ny)).
  - intros x J. destruct (closed_event _ _ _ _ _ _ _ H C Cl J) as (D1 & D2 & B & O). apply (Kp x); auto. unfold A. auto.
Qed.
Lemma left_exec ls : forall st st' lg e l, cexec ls st = Some (st', lg, e) -> cinv st -> In l (c_closed st) -> left_over l st -> forall x, ~ In (x, l) e.
Proof.
  induction ls as [|lb ls IH]; intros st st' lg e l H C Cl Lo x; simpl in H; [injection H as <- <- <-; auto|].
  destruct (cstep lb st) as [[[st1 r] e1]|] eqn:E; [|discriminate]. destruct (cexec ls st1) as [[[st2 lg2] e2]|] eqn:E2; [|discriminate]. injection H as <- <- <-.
  destruct (left_step _ _ _ _ _ _ E C Cl Lo) as (Lo' & N). rewrite in_app_iff. intros [J|J]; [eapply N; eauto|]. revert J. eapply IH; eauto; [eapply cstep_cinv|eapply cstep_closed]; eauto.
Qed.

(** As long as the root bus exists nothing of a closed library is freed. *)
Lemma closed_root lb st st' r e l x : cstep lb st = Some (st', r, e) -> cinv st -> In l (c_closed st) -> In (x, l) e -> lb = DropRoot /\ c_who st' = [].
Proof.
  intros H C Cl J. destruct (ci_closed _ C _ Cl) as (Pl & Dn & Nh). destruct (ci_root _ C) as (R1 & R2 & R3).
  destruct (closed_event _ _ _ _ _ _ _ H C Cl J) as (D1 & D2 & B & O). pose proof (cstep_cinv _ _ _ _ _ H C) as C'.
  assert (~ In (0, 0) (c_who st')) as N0.
  { intros H0'. set (A := fun y => y = 0 \/ owner st y = l /\ get y (c_heap st) <> Dead).
    assert (In (0, 0) (c_who st)) as H0.
    { destruct (cstep_kind _ _ _ _ _ H C) as [l0 l' o P Pr K| -> Up -> _ _|l0 -> Up Hl Nc Nw H0 -> _ _]; auto. apply Pr. }
    apply (keep_closed lb st st' r e l A H C Cl) with (x := x); auto; [|right; auto].
    intros y [->|(Oy & Dy)].
    - split; auto. apply (oi_ref _ (ci_o _ C)). left. apply in_map_iff. exists (0, 0). auto.
    - split; auto. left. split; auto. destruct (ci_s _ C y Dy) as [K|(z & K)]; simpl in K.
      + exfalso. apply in_map_iff in K as ((a & b) & E & K). simpl in E. subst b. pose proof (ci_who _ C _ _ K) as E. apply (Nh y). congruence.
      + exists z. split; auto. destruct (ci_ref _ C _ _ K) as [->|E]; [left; auto|]. right. split; [congruence|]. intros X. rewrite X in K. contradiction. }
  assert (c_who st' = []) as W0. { destruct (c_who st') as [|(a, b) w] eqn:E; auto. exfalso. apply N0. rewrite <- E. apply (ci_hold _ C' a b). rewrite E. simpl. auto. }
  split; auto. destruct (cstep_kind _ _ _ _ _ H C) as [l0 l' o P Pr K| -> Up -> _ _|l0 -> Up Hl Nc Nw H0 -> _ _].
  - destruct Pr as (NN & Hd & U & Ncl & H0 & Who). destruct (perform_inv _ _ _ _ _ _ _ P NN Hd) as (w & _ & _ & _ & _ & _ & _ & _ & _ & _ & W2 & _).
    destruct (W2 _ H0) as [X|(y & -> & E)]; [contradiction|]. injection E as <- <-. destruct K as [(_ & _ & X)|[(_ & _ & X & _)|[(_ & (u & v & [X|X]) & _)|[(_ & X & _)|(X & _)]]]]; try discriminate; auto; lia.
  - exfalso. apply N0. simpl. now apply (ci_up _ C).
  - exfalso. apply N0. auto.
Qed.

(** ** What the log says about the heap *)

Lemma made_app lg lb r l b x : made (lg ++ [(lb, r)]) l b x <-> made lg l b x \/ exists o, lb = By l o /\ mkp o b /\ r = New x.
Proof.
  unfold made, mkp. setoid_rewrite in_app_iff. simpl. split.
  - intros [[J|[J|[]]]|(caps & [J|[J|[]]])]; eauto; injection J as -> ->; right; eexists; split; eauto.
  - intros [[J|(caps & J)]|(o & -> & [->|(caps & ->)] & ->)]; eauto 6.
Qed.
Lemma deleted_app lg lb r l b x : deleted (lg ++ [(lb, r)]) l b x <-> deleted lg l b x \/ exists o, lb = By l o /\ del o b x /\ r = Fine.
Proof.
  unfold deleted, del. setoid_rewrite in_app_iff. simpl. split.
  - intros [[J|[J|[]]]|[J|[J|[]]]]; eauto; injection J as -> ->; right; eexists; split; eauto.
  - intros [[J|J]|(o & -> & [->| ->] & ->)]; eauto 6.
Qed.
Lemma del_fine o b x st st' r : ostep o st = Some (st', r) -> del o b x -> r = Fine.
Proof.
  intros E [->| ->]; simpl in E; destruct (_ && _); try discriminate; destruct (get b (w_heap st)); try discriminate; destruct (get x (w_heap st)); try discriminate; now injection E as _ <-.
Qed.

Record pinv (lg : list (clabel * ores)) (st : cstate) : Prop := mkPinv {
  p_made : forall l b x, made lg l b x -> x < length (c_heap st) /\ b < length (c_heap st) /\ owner st x = l /\ owner st b = l /\ ~ member x (c_heap st) /\ ~ isbus x (c_heap st) /\
    (deleted lg l b x \/ partof b x (c_heap st) \/ get b (c_heap st) = Dead);
  p_del : forall l b x, deleted lg l b x -> x < length (c_heap st);
  p_part : forall b x, partof b x (c_heap st) -> member x (c_heap st) \/ made lg (owner st b) b x /\ ~ deleted lg (owner st b) b x;
  p_bus : In (0, 0) (c_who st) -> forall l b x, made lg l b x -> isbus b (c_heap st)
}.
Lemma isbus_lt b h : isbus b h -> b < length h.
Proof. intros (f & k & ps & E). apply get_live. congruence. Qed.
Lemma partof_bus b x h : partof b x h -> isbus b h.
Proof. intros (f & k & ps & E & _). exists f, k, ps. auto. Qed.
Lemma member_old st x : cinv st -> member x (c_heap st) -> x < length (c_heap st).
Proof.
  intros C (a & s & p & A & Hx). apply get_live. destruct Hx as [->|Hx]; [intros D; rewrite D in A; now apply not_action_dead in A|].
  apply (oi_ref _ (ci_o _ C)). right. exists a. simpl. destruct A as [(c & ->)|(c & ->)]; simpl; destruct Hx as [->| ->]; auto.
Qed.
Lemma pinv_same lg lb r st st' : pinv lg st -> (forall l o, lb <> By l o) -> c_heap st' = c_heap st -> c_owner st' = c_owner st -> c_who st' = c_who st -> pinv (lg ++ [(lb, r)]) st'.
Proof.
  intros P N Eh Eo Ew. assert (forall l b x, made (lg ++ [(lb, r)]) l b x <-> made lg l b x) as M.
  { intros. rewrite made_app. split; auto. intros [J|(o & -> & _)]; auto. exfalso. now apply (N l o). }
  assert (forall l b x, deleted (lg ++ [(lb, r)]) l b x <-> deleted lg l b x) as D.
  { intros. rewrite deleted_app. split; auto. intros [J|(o & -> & _)]; auto. exfalso. now apply (N l o). }
  assert (forall x, owner st' x = owner st x) as O by (intros; unfold owner; now rewrite Eo).
  constructor; rewrite ?Eh, ?Ew.
  - intros l b x J. rewrite D, !O. apply P. now apply M.
  - intros l b x J. apply (p_del _ _ P l b). now apply D.
  - intros b x J. rewrite M, D, O. now apply P.
  - intros H0 l b x J. apply (p_bus _ _ P H0 l b x). now apply M.
Qed.
Lemma pinv_step lg lb st st' r e : cstep lb st = Some (st', r, e) -> cinv st -> pinv lg st -> pinv (lg ++ [(lb, r)]) st'.
Proof.
  intros H C P. pose proof (cstep_cinv _ _ _ _ _ H C) as C'. destruct (cstep_heap _ _ _ _ _ H C) as (Ow & Le).
  destruct (cstep_kind _ _ _ _ _ H C) as [l0 l' o Pf Pr K| -> Up -> _ _|l0 -> Up Hl Nc Nw H0 -> _ _].
  2,3: apply pinv_same with (st := st); auto; discriminate.
  destruct (perform_frame _ _ _ _ _ _ _ Pf C Pr) as (h1 & F & L & K1 & Kp & M1 & M2 & Nw & _).
  destruct Pr as (NN & Hd & U & Ncl & H0 & Who). destruct (perform_inv _ _ _ _ _ _ _ Pf NN Hd) as (w & Eo & Nu & Eh & Ehd & _).
  assert (forall l b o', lb = By l o' -> mkp o' b -> o' = o /\ l = l0 /\ l' = l0) as Kb.
  { intros l b o' -> _. destruct K as [(X & -> & _)|[(X & _)|[(X & _)|[(X & _)|(X & _)]]]]; try discriminate. injection X as -> ->. auto. }
  assert (forall l b x o', lb = By l o' -> del o' b x -> o' = o /\ l = l0) as Kd.
  { intros l b x o' -> _. destruct K as [(X & _)|[(X & _)|[(X & _)|[(X & _)|(X & _)]]]]; try discriminate. injection X as -> ->. auto. }
  assert (forall b, mkp o b -> lb = By l0 o /\ In b (uses o)) as Mb.
  { intros b J. split; [|destruct J as [->|(c & ->)]; simpl; auto]. destruct K as [(X & _)|[(_ & _ & -> & _)|[(_ & (u & v & [->| ->]) & _)|[(_ & -> & _)|(_ & -> & _)]]]]; auto; destruct J as [J|(c & J)]; discriminate. }
  assert (forall b x, del o b x -> lb = By l0 o /\ In b (uses o) /\ In x (uses o)) as Db.
  { intros b x J. split; [|destruct J as [->| ->]; simpl; auto]. destruct K as [(X & _)|[(_ & _ & -> & _)|[(_ & (u & v & [->| ->]) & _)|[(_ & -> & _)|(_ & -> & _)]]]]; auto; destruct J as [J|J]; discriminate. }
  assert (forall x, x < length (c_heap st) -> member x (c_heap st') -> member x (c_heap st)) as Mo.
  { intros x Lx J. apply M2 in J as (a & s & p & A & Hx). destruct (fr_act _ _ _ _ F _ _ _ A) as [A'|(La & Ls & Lp & _)]; [exists a, s, p; auto|]. exfalso. destruct Hx as [->|[->| ->]]; lia. }
  assert (forall x, isbus x (c_heap st') -> isbus x h1) as Bo.
  { intros x J. destruct (K1 x) as [D|D]; [destruct (dead_no _ _ D) as (X & _); contradiction|]. now apply (isbus_like _ _ _ D). }
  constructor.
  - intros l b x J. apply made_app in J as [J|(o' & E & J & ->)].
    + destruct (p_made _ _ P _ _ _ J) as (Lx & Lb & Ox & Ob & Nm & Nb & G). split; [lia|]. split; [lia|]. rewrite !Ow by auto. split; auto. split; auto.
      split; [intros X; apply Nm; auto|]. split.
      * intros X. apply Bo in X. destruct (fr_bus _ _ _ _ F _ X) as [X'|[X'|(p & _ & _ & X')]]; auto. lia.
      * destruct G as [G|[G|G]].
        -- left. apply deleted_app. auto.
        -- destruct (K1 b) as [D|D]; auto. assert (del o b x \/ ~ del o b x) as [X|X].
           { unfold del. destruct o; try (right; intros [X|X]; discriminate); destruct (Nat.eq_dec b b0) as [<-|];
               try (right; intros [X|X]; congruence); match goal with |- context [DeleteSub _ ?q = _] => destruct (Nat.eq_dec x q) as [<-|] | |- context [DeletePub _ ?q = _] => destruct (Nat.eq_dec x q) as [<-|] end; auto; right; intros [X|X]; congruence. }
           ++ left. apply deleted_app. right. destruct (Db _ _ X) as (-> & Ub & _). exists o. apply U in Ub as (Ub & _). rewrite Ob in Ub. subst l0. split; auto. split; auto. eapply del_fine; eauto.
           ++ right. left. apply (partof_like _ _ _ _ D). eapply fr_part'; eauto.
        -- right. right. destruct (K1 b) as [D|D]; auto. apply (like_dead _ _ D). eapply fr_dead; eauto.
    + destruct (Kb _ _ _ E J) as (-> & -> & ->). destruct (Mb _ J) as (_ & Ub). destruct (fr_new _ _ _ _ F _ _ eq_refl J) as (-> & Pt). apply U in Ub as (Ob & Lb).
      assert (length (c_heap st) < length (c_heap st')) as Lx.
      { apply get_live. apply (oi_ref _ (ci_o _ C')). left. simpl. apply Ehd. rewrite (ostep_held _ _ _ _ Eo NN). simpl. apply in_or_app. simpl. auto. }
      split; auto. split; [lia|]. rewrite Nw by lia. rewrite Ow by auto. split; auto. split; auto. split; [|split].
      * intros X. apply M2 in X as (a & s & p & A & Hx). destruct (fr_act _ _ _ _ F _ _ _ A) as [A'|(_ & _ & _ & X)]; [|now apply X in J].
        assert (length (c_heap st) < length (c_heap st)); [|lia]. apply member_old; auto. exists a, s, p. auto.
      * intros X. apply Bo in X. destruct (fr_bus _ _ _ _ F _ X) as [X'|[X'|(p & -> & _)]]; [apply isbus_lt in X'; lia|congruence|destruct J as [J|(c & J)]; discriminate].
      * right. destruct (K1 b) as [D|D]; auto. left. now apply (partof_like _ _ _ _ D).
  - intros l b x J. apply deleted_app in J as [J|(o' & E & J & _)]; [apply (p_del _ _ P) in J; lia|]. destruct (Kd _ _ _ _ E J) as (-> & ->). destruct (Db _ _ J) as (_ & _ & Ux). apply U in Ux. lia.
  - intros b x J. destruct (K1 b) as [D|D]; [destruct (dead_no _ _ D) as (_ & X & _); now apply X in J|]. apply (partof_like _ _ _ _ D) in J.
    destruct (fr_part _ _ _ _ F _ _ J) as [(J' & Nd)|(Mk & [(-> & Mp)|Mm])]; [|right|left; auto].
    + destruct (p_part _ _ P _ _ J') as [(a & s & p & A & Hx)|(M & Nd')]; [left; apply M1; exists a, s, p; split; auto; eapply fr_act'; eauto|right].
      rewrite Ow by (eapply isbus_lt, partof_bus; eauto). split; [apply made_app; auto|]. intros X. apply deleted_app in X as [X|(o' & E & X & _)]; auto. destruct (Kd _ _ _ _ E X) as (-> & _). contradiction.
    + destruct (Mb _ Mp) as (-> & Ub). destruct (U _ Ub) as (Ob & Lb). rewrite Ow, Ob by auto. destruct (fr_new _ _ _ _ F _ _ eq_refl Mp) as (-> & _).
      split; [apply made_app; right; exists o; auto|]. intros X. apply deleted_app in X as [X|(o' & E & X & _)]; [apply (p_del _ _ P) in X; lia|]. destruct (Kd _ _ _ _ E X) as (-> & _). destruct Mp as [->|(c & ->)]; destruct X; discriminate.
  - intros H0' l b x J. assert (forall y, isbus y h1 -> like (get y h1) (get y (c_heap st'))) as Kl.
    { apply Kp. intros y By. split; [destruct By as (f & k & ps & ->); discriminate|]. destruct (fr_bus _ _ _ _ F _ By) as [B'|[X|(p & -> & Kd' & _)]]; [|congruence|right; exists p].
      - destruct (ci_tree _ C H0 _ B') as [->|(p & Kp')]; [left; apply in_map_iff; exists (0, 0); auto|]. right. exists p. apply (fr_kid _ _ _ _ F) in Kp'. split; [destruct Kp' as (f & k & ps & E & _); exists f, k, ps; auto|now apply kidof_refs].
      - split; [destruct Kd' as (f & k & ps & E & _); exists f, k, ps; auto|now apply kidof_refs]. }
    assert (isbus b h1) as B1; [|apply (isbus_like _ _ _ (Kl _ B1)); auto].
    apply made_app in J as [J|(o' & E & J & ->)]; [eapply fr_bus'; eauto; eapply p_bus; eauto|].
    destruct (Kb _ _ _ E J) as (-> & -> & ->). destruct (fr_new _ _ _ _ F _ _ eq_refl J) as (_ & Pt). eapply partof_bus; eauto.
Qed.
Lemma pinv_init : pinv [] c_init.
Proof.
  constructor.
  - intros l b x [[]|(c & [])].
  - intros l b x [[]|[]].
  - intros b x (f & k & ps & E & J). exfalso. unfold c_init in E. simpl in E. destruct b as [|[|b]]; simpl in E; try discriminate. injection E as <- <- <-. contradiction.
  - intros _ l b x [[]|(c & [])].
Qed.
Lemma pinv_exec ls : forall st st' lg lg' e, cexec ls st = Some (st', lg', e) -> cinv st -> pinv lg st -> pinv (lg ++ lg') st'.
Proof.
  induction ls as [|lb ls IH]; intros st st' lg lg' e H C P; simpl in H; [injection H as <- <- <-; now rewrite app_nil_r|].
  destruct (cstep lb st) as [[[st1 r] e1]|] eqn:E; [|discriminate]. destruct (cexec ls st1) as [[[st2 lg2] e2]|] eqn:E2; [|discriminate]. injection H as <- <- <-.
  replace (lg ++ (lb, r) :: lg2) with ((lg ++ [(lb, r)]) ++ lg2) by now rewrite <- app_assoc. eapply IH; eauto; [eapply cstep_cinv|eapply pinv_step]; eauto.
Qed.

(** ** At the time a library is closed *)

Lemma close_left l lg st : cinv st -> pinv lg st -> 0 < l -> (forall x, ~ In (l, x) (c_who st)) -> (forall b x, made lg l b x -> deleted lg l b x) -> left_over l st.
Proof.
  intros C P Hl Nh Md x O D B. destruct (ci_root _ C) as (R1 & _ & R3).
  destruct (ci_s _ C x D) as [K|(y & K)]; simpl in K.
  { exfalso. apply in_map_iff in K as ((a & b) & E & K). simpl in E. subst b. pose proof (ci_who _ C _ _ K) as E. apply (Nh x). congruence. }
  assert (get y (c_heap st) <> Dead) as Dy by (intros X; rewrite X in K; contradiction).
  assert (forall z, kidof z x (c_heap st) -> False) as Nk.
  { intros z (f & k & ps & E & J). apply B. exact (oi_kid _ (ci_o _ C) _ _ _ _ _ E J). }
  assert (y <> 0) as Ny by (intros ->; apply root_kid in K; eauto).
  destruct (ci_ref _ C _ _ K) as [X|Oy]; [contradiction|]. rewrite O in Oy.
  assert (isbus y (c_heap st) \/ ~ isbus y (c_heap st)) as [By|By].
  { unfold isbus. destruct (get y (c_heap st)) as [f k ps| | | | |] eqn:E; [left; eauto| | | | |]; right; intros (? & ? & ? & ?); discriminate. }
  2: exists y; auto.
  destruct By as (f & k & ps & E). rewrite E in K. simpl in K. apply in_app_iff in K as [K|K]; [exfalso; apply (Nk y); exists f, k, ps; auto|].
  destruct (p_part _ _ P y x) as [(a & s & p & A & Hx)|(M & Nd)]; [exists f, k, ps; auto| |exfalso; rewrite <- Oy in M, Nd; auto].
  destruct (oi_priv _ (ci_o _ C) _ _ _ A) as (Es & _). simpl in Es.
  assert (a <> 0) as Na. { intros ->. destruct R3 as [X|(? & ? & ? & X)]; rewrite X in A; destruct A as [(? & A)|(? & A)]; discriminate. }
  assert (In s (refs (get a (c_heap st))) /\ In p (refs (get a (c_heap st)))) as (Rs & Rp) by (destruct A as [(c & ->)|(c & ->)]; simpl; auto).
  destruct Hx as [->|Hx].
  - exists s. rewrite Es. split; [destruct (ci_ref _ C _ _ Rs); [contradiction|congruence]|]. split; [discriminate|]. split; [unfold isbus; rewrite Es; intros (? & ? & ? & ?); discriminate|simpl; auto].
  - exists a. split; [|split; [|split]].
    + destruct Hx as [->| ->]; [destruct (ci_ref _ C _ _ Rs)|destruct (ci_ref _ C _ _ Rp)]; auto; try contradiction; congruence.
    + destruct A as [(c & ->)|(c & ->)]; discriminate.
    + intros (? & ? & ? & X). rewrite X in A. destruct A as [(c & A)|(c & A)]; discriminate.
    + destruct Hx as [->| ->]; auto.
Qed.

(** ** Without captures *)

Definition plain (st : cstate) : Prop := forall y x, In x (refs (get y (c_heap st))) -> isbus y (c_heap st) \/ member x (c_heap st).
Lemma plain_step lb st st' r e : cstep lb st = Some (st', r, e) -> cinv st -> captures_nothing lb -> plain st -> plain st'.
Proof.
  intros H C N P. destruct (cstep_kind _ _ _ _ _ H C) as [l0 l' o Pf Pr K| -> Up -> _ _|l0 -> Up Hl Nc Nw H0 -> _ _]; [|exact P|exact P].
  assert (caps_of o = []) as Nc.
  { destruct K as [(-> & _)|[(_ & _ & -> & _)|[(_ & (u & v & [->| ->]) & _)|[(_ & -> & _)|(_ & -> & _)]]]]; auto. }
  destruct (perform_frame _ _ _ _ _ _ _ Pf C Pr) as (h1 & F & L & K1 & _ & M1 & M2 & _).
  intros y x J. destruct (K1 y) as [D|D]; [rewrite D in J; contradiction|]. rewrite (like_refs _ _ D) in J. rewrite (isbus_like _ _ _ D).
  destruct (fr_refs _ _ _ _ F _ _ J) as [J'|(_ & _ & [B|[B|B]])]; auto; [|rewrite Nc in B; contradiction].
  destruct (P _ _ J') as [B|(a & s & p & A & Hx)]; [left; eapply fr_bus'; eauto|right]. apply M1. exists a, s, p. split; auto. eapply fr_act'; eauto.
Qed.
Lemma plain_exec ls : forall st st' lg e, cexec ls st = Some (st', lg, e) -> cinv st -> Forall captures_nothing ls -> plain st -> plain st'.
Proof.
  induction ls as [|lb ls IH]; intros st st' lg e H C N P; simpl in H; [injection H as <- <- <-; auto|].
  destruct (cstep lb st) as [[[st1 r] e1]|] eqn:E; [|discriminate]. destruct (cexec ls st1) as [[[st2 lg2] e2]|] eqn:E2; [|discriminate]. injection H as <- <- <-.
  inversion N; subst. eapply IH; eauto; [eapply cstep_cinv|eapply plain_step]; eauto.
Qed.
Lemma plain_init : plain c_init.
Proof. intros y x J. exfalso. destruct y as [|[|y]]; simpl in J; auto. Qed.
Lemma member_nobus st x : cinv st -> member x (c_heap st) -> ~ isbus x (c_heap st).
Proof.
  intros C (a & s & p & A & Hx) (f & k & ps & E). destruct (oi_priv _ (ci_o _ C) _ _ _ A) as (Es & (b & Ep) & _). simpl in Es, Ep.
  destruct Hx as [->|[->| ->]]; [destruct A as [(? & A)|(? & A)]| |]; congruence.
Qed.
(** Nothing is held: only action objects are left. *)
Lemma plain_end st : cinv st -> plain st -> c_who st = [] -> forall x, get x (c_heap st) <> Dead -> member x (c_heap st).
Proof.
  intros C P W. assert (forall b, ~ isbus b (c_heap st)) as Nb.
  { intros b. induction b as [b IH] using lt_wf_ind. intros B. assert (get b (c_heap st) <> Dead) as D by (destruct B as (f & k & ps & ->); discriminate).
    destruct (ci_s _ C b D) as [J|(y & J)]; simpl in J; [rewrite W in J; contradiction|]. destruct (P _ _ J) as [By|M]; [|now apply (member_nobus _ _ C M)].
    apply (IH y); auto. destruct By as (f & k & ps & E). rewrite E in J. exact (oi_up _ (ci_o _ C) _ _ _ _ _ E J). }
  intros x D. destruct (ci_s _ C x D) as [J|(y & J)]; simpl in J; [rewrite W in J; contradiction|]. destruct (P _ _ J) as [By|M]; auto. now apply Nb in By.
Qed.
Lemma freed_exec ls : forall st st' lg e x, cexec ls st = Some (st', lg, e) -> cinv st -> get x (c_heap st) <> Dead -> get x (c_heap st') = Dead -> ~ isbus x (c_heap st) ->
  In (x, owner st x) e.
Proof.
  induction ls as [|lb ls IH]; intros st st' lg e x H C D D' B; simpl in H; [injection H as <- <- <-; contradiction|].
  destruct (cstep lb st) as [[[st1 r] e1]|] eqn:E; [|discriminate]. destruct (cexec ls st1) as [[[st2 lg2] e2]|] eqn:E2; [|discriminate]. injection H as <- <- <-.
  apply in_or_app. destruct (allocated x (c_heap st1)) eqn:Al.
  - apply allocated_get in Al. right. destruct (cstep_heap _ _ _ _ _ E C) as (Ow & _). rewrite <- Ow by now apply get_live. eapply IH; eauto; [eapply cstep_cinv; eauto|].
    intros B1. apply B. destruct (cstep_kind _ _ _ _ _ E C) as [l0 l' o Pf Pr K| -> Up -> _ _|l0 -> Up Hl Nc Nw H0 -> _ _]; auto.
    destruct (perform_frame _ _ _ _ _ _ _ Pf C Pr) as (h1 & F & L & K1 & _). destruct (K1 x) as [X|X]; [contradiction|]. apply (isbus_like _ _ _ X) in B1.
    destruct (fr_bus _ _ _ _ F _ B1) as [J|[J|(p & _ & _ & J)]]; auto; [now apply Pr in J|]. apply get_live in D. lia.
  - left. eapply freed_event; eauto. unfold allocated in Al. destruct (get x (c_heap st1)); auto; discriminate.
Qed.

(** ** Deciding what the log says *)

Lemma oop_dec (a b : oop) : {a = b} + {a <> b}.
Proof. decide equality; try apply Nat.eq_dec; apply list_eq_dec, Nat.eq_dec. Defined.
Lemma entry_dec (a b : clabel * ores) : {a = b} + {a <> b}.
Proof. decide equality; decide equality; try apply Nat.eq_dec; apply oop_dec. Defined.
Lemma deleted_dec lg l b x : deleted lg l b x \/ ~ deleted lg l b x.
Proof.
  unfold deleted. destruct (in_dec entry_dec (By l (DeletePub b x), Fine) lg); [auto|]. destruct (in_dec entry_dec (By l (DeleteSub b x), Fine) lg); [auto|]. right. tauto.
Qed.
Lemma made_cases lg lg' l : (forall b x, made lg' l b x -> deleted lg l b x) \/ exists b x, made lg' l b x /\ ~ deleted lg l b x.
Proof.
  induction lg' as [|(lb, r) lg' IH]; [left; intros b x [[]|(c & [])]|]. destruct IH as [IH|(b & x & [J|(c & J)] & N)].
  2,3: right; exists b, x; split; auto; unfold made; simpl; eauto.
  assert ((exists b x, r = New x /\ (lb = By l (NewPub b) \/ exists c, lb = By l (NewSub b c))) \/
    (forall b x, r = New x -> lb <> By l (NewPub b) /\ forall c, lb <> By l (NewSub b c))) as [(b & x & -> & E)|N].
  { destruct r as [|x| |]; try (right; intros; discriminate). destruct lb as [|l' o| | | | |]; try (right; intros; split; intros; discriminate).
    destruct (Nat.eq_dec l' l) as [->|Nl]; [|right; intros; split; intros; congruence]. destruct o; try (right; intros; split; intros; discriminate); left; eauto 8. }
  - destruct (deleted_dec lg l b x) as [D|D]; [left|right; exists b, x; split; auto; unfold made; simpl; destruct E as [->|(c & ->)]; eauto].
    intros b' x' [[J|J]|(c' & [J|J])]; try (apply IH; unfold made; eauto; fail); destruct E as [->|(c & ->)]; injection J; intros; subst; auto; discriminate.
  - left. intros b x [[J|J]|(c & [J|J])]; try (apply IH; unfold made; eauto; fail); injection J as -> ->; destruct (N b x eq_refl) as (N1 & N2); [now destruct N1|now destruct (N2 c)].
Qed.

(** ** Buses exist as long as the root bus does *)

Lemma bus_keep lb st st' r e : cstep lb st = Some (st', r, e) -> cinv st -> In (0, 0) (c_who st') ->
  (forall y, isbus y (c_heap st) -> isbus y (c_heap st')) /\ (forall l b x, lb = By l (NewChild b) -> r = New x -> isbus x (c_heap st')).
Proof.
  intros H C H0'. destruct (cstep_kind _ _ _ _ _ H C) as [l0 l' o Pf Pr K| -> Up -> _ _|l0 -> Up Hl Nc Nw H0 -> _ _]; [|split; auto; discriminate|split; auto; discriminate].
  destruct (perform_frame _ _ _ _ _ _ _ Pf C Pr) as (h1 & F & L & K1 & Kp & _).
  destruct Pr as (NN & Hd & U & Ncl & H0 & Who). destruct (perform_inv _ _ _ _ _ _ _ Pf NN Hd) as (w & Eo & Nu & Eh & Ehd & _).
  assert (forall y, isbus y h1 -> isbus y (c_heap st')) as Kl.
  { assert (forall y, isbus y h1 -> like (get y h1) (get y (c_heap st'))) as Kl; [|intros y B; now apply (isbus_like _ _ _ (Kl y B))]. apply Kp.
    intros y By. split; [destruct By as (f & k & ps & ->); discriminate|]. destruct (fr_bus _ _ _ _ F _ By) as [B'|[X|(p & -> & Kd' & _)]]; [|congruence|right; exists p].
    - destruct (ci_tree _ C H0 _ B') as [->|(p & Kp')]; [left; apply in_map_iff; exists (0, 0); auto|]. right. exists p. apply (fr_kid _ _ _ _ F) in Kp'. split; [destruct Kp' as (f & k & ps & E & _); exists f, k, ps; auto|now apply kidof_refs].
    - split; [destruct Kd' as (f & k & ps & E & _); exists f, k, ps; auto|now apply kidof_refs]. }
  split; [intros y B; apply Kl; eapply fr_bus'; eauto|]. intros l b x -> ->.
  assert (o = NewChild b) as ->. { destruct K as [(X & _)|[(X & _)|[(X & _)|[(X & _)|(X & _)]]]]; try discriminate. now injection X as _ <-. }
  simpl in Eo. destruct (is_bus b (own_of st)); [|discriminate]. destruct (get b (c_heap st)) as [[g|] k ps| | | | |] eqn:Eb; try discriminate. injection Eo as <- <-.
  rewrite Eh. simpl. exists (Some g), [], []. unfold get. rewrite app_nth2 by (rewrite list_set_length; lia). rewrite list_set_length, Nat.sub_diag. reflexivity.
Qed.
Lemma root_back lb st st' r e : cstep lb st = Some (st', r, e) -> cinv st -> In (0, 0) (c_who st') -> In (0, 0) (c_who st).
Proof.
  intros H C J. destruct (cstep_kind _ _ _ _ _ H C) as [l0 l' o Pf Pr K| -> Up -> _ _|l0 -> Up Hl Nc Nw H0 -> _ _]; auto. apply Pr.
Qed.
Lemma bus_exec ls : forall st st' lg e, cexec ls st = Some (st', lg, e) -> cinv st -> In (0, 0) (c_who st') ->
  In (0, 0) (c_who st) /\ (forall y, isbus y (c_heap st) -> isbus y (c_heap st')) /\ (forall l b x, In (By l (NewChild b), New x) lg -> isbus x (c_heap st')).
Proof.
  induction ls as [|lb ls IH]; intros st st' lg e H C H0; simpl in H; [injection H as <- <- <-; split; auto; split; auto; intros l b x []|].
  destruct (cstep lb st) as [[[st1 r] e1]|] eqn:E; [|discriminate]. destruct (cexec ls st1) as [[[st2 lg2] e2]|] eqn:E2; [|discriminate]. injection H as <- <- <-.
  destruct (IH _ _ _ _ E2 (cstep_cinv _ _ _ _ _ E C) H0) as (H1 & Kb & Nb). destruct (bus_keep _ _ _ _ _ E C H1) as (Kb1 & Nb1). split; [eapply root_back; eauto|]. split; auto.
  intros l b x [J|J]; [|eauto]. injection J as -> ->. eauto.
Qed.
Lemma cexec_app ls1 : forall ls2 st, cexec (ls1 ++ ls2) st =
  match cexec ls1 st with Some (st1, lg1, e1) => match cexec ls2 st1 with Some (st2, lg2, e2) => Some (st2, lg1 ++ lg2, e1 ++ e2) | None => None end | None => None end.
Proof.
  induction ls1 as [|lb ls1 IH]; intros ls2 st; simpl; [destruct (cexec ls2 st) as [[[? ?] ?]|]; auto|].
  destruct (cstep lb st) as [[[st1 r] e1]|]; auto. rewrite IH. destruct (cexec ls1 st1) as [[[st2 lg2] e2]|]; auto. destruct (cexec ls2 st2) as [[[st3 lg3] e3]|]; auto. simpl. now rewrite app_assoc.
Qed.

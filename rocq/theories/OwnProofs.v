(** Invariants of the ownership model. *)
From Coq Require Import List Arith Bool Lia.
From Verif Require Import Prelude OwnModel.
Import ListNotations.
Open Scope list_scope.

Lemma mem_in x l : mem x l = true <-> In x l.
Proof.
  unfold mem. rewrite existsb_exists. split; [intros (y & I & E); apply Nat.eqb_eq in E; now subst|intros I; exists x; split; auto; apply Nat.eqb_refl].
Qed.
Lemma mem_not x l : mem x l = false <-> ~ In x l.
Proof. rewrite <- mem_in. destruct (mem x l); split; congruence. Qed.

Lemma get_list_set x y o h : get y (list_set x o h) = if Nat.eqb x y then (if Nat.ltb x (length h) then o else Dead) else get y h.
Proof.
  unfold get. destruct (Nat.eqb_spec x y) as [<-|Ne].
  - destruct (Nat.ltb_spec x (length h)) as [L|G].
    + apply nth_error_nth. now apply list_set_eq.
    + apply nth_overflow. now rewrite list_set_length.
  - destruct (nth_error h y) as [o'|] eqn:E.
    + rewrite (nth_error_nth _ _ Dead E). apply nth_error_nth. now rewrite list_set_ne.
    + rewrite !nth_overflow; auto; [|rewrite list_set_length]; now apply nth_error_None.
Qed.
Lemma get_live x h : get x h <> Dead -> x < length h.
Proof. intros N. destruct (Nat.lt_ge_cases x (length h)); auto. exfalso. apply N. unfold get. now apply nth_overflow. Qed.
Lemma get_app1 x h l : x < length h -> get x (h ++ l) = get x h.
Proof. intros H. unfold get. now apply app_nth1. Qed.
Lemma get_app2 i h l : get (length h + i) (h ++ l) = get i l.
Proof. unfold get. rewrite app_nth2 by lia. f_equal. lia. Qed.
Lemma allocated_get x h : allocated x h = true <-> get x h <> Dead.
Proof. unfold allocated. destruct (get x h); split; congruence. Qed.
Lemma all_refs y h : In y (flat_map refs h) <-> exists x, In y (refs (get x h)).
Proof.
  rewrite in_flat_map. split.
  - intros (o & I & J). apply In_nth with (d := Dead) in I as (x & _ & E). exists x. unfold get. now rewrite E.
  - intros (x & I). exists (get x h). split; auto. unfold get. destruct (Nat.lt_ge_cases x (length h)) as [L|G]; [now apply nth_In|].
    unfold get in I. rewrite nth_overflow in I by auto. contradiction.
Qed.

(** ** Detach *)

(** The same objects, some publishing functions of buses removed. *)
Definition weaker (h h' : list obj) : Prop :=
  length h' = length h /\ forall x, get x h' = get x h \/ exists f k ps, get x h = BusO f k ps /\ get x h' = BusO None k ps.
Lemma weaker_refl h : weaker h h.
Proof. split; auto. Qed.
Lemma weaker_trans a b c : weaker a b -> weaker b c -> weaker a c.
Proof.
  intros (L1 & W1) (L2 & W2). split; [congruence|]. intros x. destruct (W2 x) as [E|(f & k & ps & E & E')].
  - destruct (W1 x) as [E1|(f & k & ps & E1 & E1')]; [left; congruence|right; exists f, k, ps; split; congruence].
  - destruct (W1 x) as [E1|(f1 & k1 & ps1 & E1 & E1')]; [right; exists f, k, ps; split; congruence|right; exists f1, k1, ps1].
    split; auto. rewrite E1' in E. injection E as <- <- <-. auto.
Qed.
Lemma weaker_bus h h' x f k ps : weaker h h' -> get x h' = BusO f k ps -> exists f', get x h = BusO f' k ps /\ (f = f' \/ f = None).
Proof. intros (_ & W) E. destruct (W x) as [E'|(f1 & k1 & ps1 & E1 & E2)]; [rewrite E' in E; eauto|]. rewrite E in E2. injection E2 as -> <- <-. eauto. Qed.
Lemma weaker_bus' h h' x f k ps : weaker h h' -> get x h = BusO f k ps -> exists f', get x h' = BusO f' k ps /\ (f' = f \/ f' = None).
Proof. intros (_ & W) E. destruct (W x) as [E'|(f1 & k1 & ps1 & E1 & E2)]; [rewrite <- E' in E; eauto|]. rewrite E in E1. injection E1 as <- <- <-. eauto. Qed.
Lemma weaker_other h h' x : weaker h h' -> (forall f k ps, get x h <> BusO f k ps) -> get x h' = get x h.
Proof. intros (_ & W) N. destruct (W x) as [E|(f & k & ps & E & _)]; auto. exfalso. eapply N; eauto. Qed.
Lemma weaker_refs h h' x : weaker h h' -> refs (get x h') = refs (get x h).
Proof. intros (_ & W). destruct (W x) as [->|(f & k & ps & -> & ->)]; reflexivity. Qed.
Lemma weaker_dead h h' x : weaker h h' -> (get x h' = Dead <-> get x h = Dead).
Proof. intros (_ & W). destruct (W x) as [->|(f & k & ps & -> & ->)]; [tauto|split; discriminate]. Qed.

Inductive below (h : list obj) : nat -> nat -> Prop :=
| below_refl x : below h x x
| below_kid x f k ps z y : get x h = BusO f k ps -> In z k -> below h z y -> below h x y.
Lemma below_weaker h h' x y : weaker h h' -> (below h' x y <-> below h x y).
Proof.
  intros W. split; induction 1 as [|x f k ps z y E I _ IH]; try constructor.
  - destruct (weaker_bus _ _ _ _ _ _ W E) as (f' & E' & _). econstructor; eauto.
  - destruct (weaker_bus' _ _ _ _ _ _ W E) as (f' & E' & _). econstructor; eauto.
Qed.

Definition nullfn (y : nat) (h : list obj) : Prop := forall r k ps, get y h <> BusO (Some r) k ps.
Lemma nullfn_weaker h h' y : weaker h h' -> nullfn y h -> nullfn y h'.
Proof. intros W N r k ps E. destruct (weaker_bus _ _ _ _ _ _ W E) as (f' & E' & [<-|X]); [|discriminate]. eapply N; eauto. Qed.

Definition upward (h : list obj) : Prop := forall x f k ps y, get x h = BusO f k ps -> In y k -> x < y.
Lemma upward_weaker h h' : weaker h h' -> upward h -> upward h'.
Proof. intros W U x f k ps y E I. destruct (weaker_bus _ _ _ _ _ _ W E) as (f' & E' & _). eapply U; eauto. Qed.

Lemma fold_detach n l : forall h,
  (forall k h', In k l -> weaker h h' -> weaker h' (detach n k h') /\ (forall y, below h' k y -> nullfn y (detach n k h')) /\
     (forall y, get y (detach n k h') <> get y h' -> below h' k y)) ->
  let h1 := fold_left (fun h' k => detach n k h') l h in
  weaker h h1 /\ (forall k y, In k l -> below h k y -> nullfn y h1) /\ (forall y, get y h1 <> get y h -> exists k, In k l /\ below h k y).
Proof.
  induction l as [|k l IH]; intros h H; simpl.
  - split; [apply weaker_refl|]. split; [intros k y []|]. intros y N. congruence.
  - destruct (H k h (or_introl eq_refl) (weaker_refl h)) as (W & N & C).
    destruct (IH (detach n k h)) as (W1 & N1 & C1).
    { intros k' h' I W'. apply H; simpl; auto. eapply weaker_trans; eauto. }
    split; [eapply weaker_trans; eauto|]. split.
    + intros k' y [<-|I] B; [eapply nullfn_weaker; eauto|]. apply (N1 k'); auto. now apply (below_weaker _ _ _ _ W).
    + intros y D. assert (get y (fold_left (fun h' k => detach n k h') l (detach n k h)) = get y (detach n k h) \/
        get y (fold_left (fun h' k => detach n k h') l (detach n k h)) <> get y (detach n k h)) as [E|E].
      { destruct W1 as (_ & W1). destruct (W1 y) as [E|(f & kk & ps & E & E')]; auto. destruct f; [right; rewrite E, E'; discriminate|left; congruence]. }
      * exists k. split; auto. apply C. congruence.
      * destruct (C1 y E) as (k' & I & B). exists k'. split; auto. now apply (below_weaker _ _ _ _ W).
Qed.

Lemma detach_spec n : forall x h, upward h -> length h - x <= n ->
  weaker h (detach n x h) /\ (forall y, below h x y -> nullfn y (detach n x h)) /\ (forall y, get y (detach n x h) <> get y h -> below h x y).
Proof.
  induction n as [|n IH]; intros x h U L.
  - assert (get x h = Dead) as D by (unfold get; apply nth_overflow; lia). simpl. split; [apply weaker_refl|]. split; [|congruence].
    intros y B. inversion B as [|? f k ps z ? E]; subst; [|congruence]. intros r k ps E. congruence.
  - simpl. destruct (get x h) as [f k ps| | | | |] eqn:E;
      try (split; [apply weaker_refl|]; split; [|congruence]; intros y B; inversion B as [|? f' k' ps' z ? E']; subst; [|congruence];
           intros r k' ps' E'; congruence).
    assert (x < length h) as Lx by (apply get_live; congruence).
    assert (weaker h (list_set x (BusO None k ps) h)) as W0.
    { split; [apply list_set_length|]. intros y. rewrite get_list_set. destruct (Nat.eqb_spec x y) as [<-|Ne]; auto.
      destruct (Nat.ltb_spec x (length h)) as [_|G]; [|lia]. right. eauto. }
    destruct (fold_detach n k (list_set x (BusO None k ps) h)) as (W & N & C).
    { intros z h' I W'. apply IH; [eapply upward_weaker; [|exact U]; eapply weaker_trans; eauto|].
      assert (x < z) by (eapply U; eauto). destruct W' as (-> & _). rewrite list_set_length. lia. }
    split; [eapply weaker_trans; eauto|]. split.
    + intros y B. inversion B as [|? f' k' ps' z ? E' I' B']; subst.
      * eapply nullfn_weaker; [exact W|]. intros r k' ps'. rewrite get_list_set, Nat.eqb_refl.
        destruct (Nat.ltb_spec y (length h)) as [_|G]; [|lia]. discriminate.
      * rewrite E in E'. injection E' as <- <- <-. apply (N z); auto. now apply (below_weaker _ _ _ _ W0).
    + intros y D. destruct (Nat.eq_dec x y) as [<-|Ne]; [constructor|].
      destruct (C y) as (z & I & B). { rewrite get_list_set. destruct (Nat.eqb_spec x y); [congruence|]. auto. }
      apply (below_kid _ _ _ _ _ _ _ E I). now apply (below_weaker _ _ _ _ W0).
Qed.

(** ** The invariant *)

Definition is_action (o : obj) (s p : nat) : Prop := (exists caps, o = ProvO s p caps) \/ (exists op, o = ConsO s p op).
(** What clients' callbacks captured. *)
Definition captures (o : obj) : list nat :=
  match o with SubO caps => caps | ProvO _ _ caps => caps | ConsO _ _ op => concat op | _ => [] end.

Record oinv (st : own) : Prop := mkOinv {
  oi_ref : forall x, In x (w_held st) \/ (exists y, In x (refs (get y (w_heap st)))) -> get x (w_heap st) <> Dead;
  oi_up : forall x f k ps y, get x (w_heap st) = BusO f k ps -> In y (k ++ ps) -> x < y;
  oi_kid : forall x f k ps y, get x (w_heap st) = BusO f k ps -> In y k -> exists f' k' ps', get y (w_heap st) = BusO f' k' ps';
  oi_fn : forall p f k ps y r k' ps', get p (w_heap st) = BusO f k ps -> In y k -> get y (w_heap st) = BusO (Some r) k' ps' -> f = Some r;
  oi_par : forall y r k ps, get y (w_heap st) = BusO (Some r) k ps -> y = r \/ exists p f k' ps', get p (w_heap st) = BusO f k' ps' /\ In y k';
  oi_priv : forall a s p, is_action (get a (w_heap st)) s p ->
    get s (w_heap st) = SubO [a] /\ (exists b, get p (w_heap st) = PubO (Some b)) /\
    ~ In s (w_held st) /\ ~ In p (w_held st) /\ (forall x, ~ In s (captures (get x (w_heap st))) /\ ~ In p (captures (get x (w_heap st))))
}.
(** Nothing is left that should have been freed. *)
Definition settled (st : own) : Prop :=
  forall x, get x (w_heap st) <> Dead -> In x (w_held st) \/ exists y, In x (refs (get y (w_heap st))).

Lemma oi_upward st : oinv st -> upward (w_heap st).
Proof. intros I x f k ps y E J. eapply oi_up; eauto. apply in_or_app. auto. Qed.

Lemma garbage_some st x : garbage st = Some x -> get x (w_heap st) <> Dead /\ ~ In x (w_held st) /\ forall y, ~ In x (refs (get y (w_heap st))).
Proof.
  intros H. apply find_some in H as (_ & H). apply andb_prop in H as (A & B). apply allocated_get in A. split; auto.
  apply negb_true_iff, mem_not in B. split; [intros I; apply B; apply in_or_app; auto|]. intros y I. apply B. apply in_or_app. right. apply all_refs. eauto.
Qed.
Lemma garbage_none st : garbage st = None -> settled st.
Proof.
  intros H x L. assert (x < length (w_heap st)) as Lx by now apply get_live.
  pose proof (find_none _ _ H x) as N. rewrite in_seq in N. specialize (N ltac:(lia)). apply allocated_get in L. rewrite L in N. simpl in N.
  apply negb_false_iff, mem_in, in_app_iff in N as [I|I]; auto. right. now apply all_refs.
Qed.

(** Freeing: what it does to the heap. *)
Lemma free_spec st x : oinv st -> get x (w_heap st) <> Dead -> 
  exists h1, free x (w_heap st) = list_set x Dead h1 /\ weaker (w_heap st) h1 /\
    (forall y, below (w_heap st) x y -> y <> x -> nullfn y h1) /\
    (forall y, get y h1 <> get y (w_heap st) -> below (w_heap st) x y /\ y <> x).
Proof.
  intros I L. unfold free. destruct (get x (w_heap st)) as [f k ps| | | | |] eqn:E; try congruence;
    try (exists (w_heap st); split; [reflexivity|]; split; [apply weaker_refl|]; split; [|congruence];
         intros y B Ne; inversion B as [|? f' k' ps' z ? E']; subst; congruence).
  destruct (fold_detach (length (w_heap st)) k (w_heap st)) as (W & N & C).
  { intros z h' J W. apply detach_spec; [eapply upward_weaker; eauto; now apply oi_upward|]. destruct W as (-> & _). lia. }
  eexists. split; [reflexivity|]. split; [exact W|]. split.
  - intros y B Ne. inversion B as [|? f' k' ps' z ? E' J B']; subst; [congruence|]. rewrite E in E'. injection E' as <- <- <-. eapply N; eauto.
  - intros y D. destruct (C y D) as (z & J & B). split; [econstructor; eauto|].
    assert (forall a b, below (w_heap st) a b -> a <= b) as G.
    { clear -I. induction 1 as [|a f k ps z b E J _ IH]; auto. assert (a < z) by (eapply (oi_upward _ I); eauto). lia. }
    apply G in B. assert (x < z) by (eapply (oi_upward _ I); eauto). lia.
Qed.

Lemma captures_refs o x : In x (captures o) -> In x (refs o).
Proof. destruct o; simpl; auto; contradiction. Qed.

Lemma oinv_free st x : oinv st -> garbage st = Some x -> oinv (mkOwn (free x (w_heap st)) (w_held st)).
Proof.
  intros I G. apply garbage_some in G as (L & NH & NR). destruct (free_spec st x I L) as (h1 & -> & W & N & C).
  assert (x < length h1) as Lx by (destruct W as (-> & _); now apply get_live).
  assert (forall y, get y (list_set x Dead h1) = if Nat.eqb x y then Dead else get y h1) as Gt.
  { intros y. rewrite get_list_set. destruct (Nat.eqb x y); auto. destruct (Nat.ltb_spec x (length h1)); auto; lia. }
  assert (forall y o, get y (list_set x Dead h1) = o -> o <> Dead -> y <> x /\ get y h1 = o) as Gi.
  { intros y o E Nd. rewrite Gt in E. destruct (Nat.eqb_spec x y); [congruence|]. auto. }
  assert (forall y z, In z (refs (get y (list_set x Dead h1))) -> z <> x /\ In z (refs (get y (w_heap st)))) as Rf.
  { intros y z J. rewrite Gt in J. destruct (Nat.eqb x y); [contradiction|]. rewrite (weaker_refs _ _ y W) in J. split; auto. intros ->. eapply NR; eauto. }
  constructor; simpl.
  - intros z [J|(y & J)].
    + assert (z <> x) by (intros ->; auto). rewrite Gt. destruct (Nat.eqb_spec x z); [congruence|]. intros D. apply (weaker_dead _ _ z W) in D. eapply oi_ref; eauto.
    + apply Rf in J as (Nz & J). rewrite Gt. destruct (Nat.eqb_spec x z); [congruence|]. intros D. apply (weaker_dead _ _ z W) in D. eapply oi_ref; eauto.
  - intros y f k ps z E J. apply Gi in E as (_ & E); [|discriminate]. destruct (weaker_bus _ _ _ _ _ _ W E) as (f' & E' & _). eapply oi_up; eauto.
  - intros y f k ps z E J. pose proof E as E0. apply Gi in E as (Ny & E); [|discriminate]. destruct (weaker_bus _ _ _ _ _ _ W E) as (f' & E' & _).
    destruct (oi_kid _ I _ _ _ _ _ E' J) as (f2 & k2 & ps2 & E2). destruct (weaker_bus' _ _ _ _ _ _ W E2) as (f3 & E3 & _).
    assert (In z (refs (get y (list_set x Dead h1)))) as R by (rewrite E0; simpl; apply in_or_app; auto). apply Rf in R as (Nz & _).
    exists f3, k2, ps2. rewrite Gt. destruct (Nat.eqb_spec x z); [congruence|]. auto.
  - intros p f k ps y r k' ps' E J Ey. apply Gi in E as (Np & E); [|discriminate]. apply Gi in Ey as (Nx & Ey); [|discriminate].
    destruct (weaker_bus _ _ _ _ _ _ W E) as (f1 & E1 & F). destruct (weaker_bus _ _ _ _ _ _ W Ey) as (f2 & E2 & [<-|X]); [|discriminate].
    pose proof (oi_fn _ I _ _ _ _ _ _ _ _ E1 J E2) as ->. destruct F as [->|F]; auto. exfalso.
    assert (below (w_heap st) x p /\ p <> x) as (B & _) by (apply C; rewrite E, E1, F; discriminate).
    assert (below (w_heap st) x y) as B2.
    { clear -B E1 J. induction B as [|a g l qs z b Ea Ia _ IH]; [econstructor; eauto; constructor|econstructor; eauto]. }
    eapply (N y B2 Nx); eauto.
  - intros y r k ps E. apply Gi in E as (Ny & E); [|discriminate]. destruct (weaker_bus _ _ _ _ _ _ W E) as (f' & E' & [<-|X]); [|discriminate].
    destruct (oi_par _ I _ _ _ _ E') as [->|(p & f & k' & ps' & Ep & J)]; auto. right.
    destruct (Nat.eq_dec p x) as [->|Np].
    + exfalso. eapply (N y); eauto. econstructor; eauto. constructor.
    + destruct (weaker_bus' _ _ _ _ _ _ W Ep) as (f3 & E3 & _). exists p, f3, k', ps'. split; auto. rewrite Gt. destruct (Nat.eqb_spec x p); [congruence|]. auto.
  - intros a s p A. assert (a <> x /\ is_action (get a (w_heap st)) s p) as (Na & A').
    { rewrite Gt in A. destruct (Nat.eqb_spec x a) as [->|Ne]; [destruct A as [(c & A)|(c & A)]; discriminate|]. split; auto.
      rewrite (weaker_other _ _ a W) in A; auto. intros f k ps E. destruct (weaker_bus' _ _ _ _ _ _ W E) as (f' & E' & _).
      destruct A as [(c & A)|(c & A)]; congruence. }
    destruct (oi_priv _ I _ _ _ A') as (Es & (b & Ep) & H1 & H2 & H3).
    assert (In s (refs (get a (w_heap st))) /\ In p (refs (get a (w_heap st)))) as (Rs & Rp) by (destruct A' as [(c & ->)|(c & ->)]; simpl; auto).
    assert (s <> x /\ p <> x) as (Ns & Np) by (split; intros ->; eapply NR; eauto).
    split; [|split; [|split; [auto|split; [auto|]]]].
    + rewrite Gt. destruct (Nat.eqb_spec x s); [congruence|]. rewrite (weaker_other _ _ s W); auto. intros; congruence.
    + exists b. rewrite Gt. destruct (Nat.eqb_spec x p); [congruence|]. rewrite (weaker_other _ _ p W); auto. intros; congruence.
    + intros y. rewrite Gt. destruct (Nat.eqb x y); [simpl; tauto|].
      assert (captures (get y h1) = captures (get y (w_heap st))) as ->; [|apply H3].
      destruct W as (_ & W). destruct (W y) as [->|(f & k & ps & -> & ->)]; reflexivity.
Qed.

Lemma oinv_collect n : forall st, oinv st -> oinv (collect n st).
Proof. induction n as [|n IH]; intros st I; simpl; auto. destruct (garbage st) eqn:G; auto. apply IH. now apply oinv_free. Qed.

(** Enough rounds. *)
Fixpoint lives (h : list obj) : nat := match h with [] => 0 | Dead :: h' => lives h' | _ :: h' => S (lives h') end.
Lemma lives_le h : lives h <= length h.
Proof. induction h as [|[] h IH]; simpl; lia. Qed.
Lemma lives_weaker h h' : (forall x, get x h' = Dead <-> get x h = Dead) -> length h' = length h -> lives h' = lives h.
Proof.
  revert h'. induction h as [|o h IH]; intros [|o' h'] H L; try discriminate; auto. injection L as L.
  assert (lives h' = lives h) as E by (apply IH; auto; intros x; apply (H (S x))). specialize (H 0). unfold get in H. simpl in H.
  destruct o, o'; simpl; auto; try (f_equal; auto); exfalso; destruct H as (A & B); try (discriminate (A eq_refl)); try (discriminate (B eq_refl)).
Qed.
Lemma lives_kill x h : get x h <> Dead -> S (lives (list_set x Dead h)) = lives h.
Proof.
  revert x. induction h as [|o h IH]; intros x L; [exfalso; apply L; unfold get; now destruct x|]. destruct x as [|x]; unfold get in L; simpl in L.
  - simpl. destruct o; auto. congruence.
  - simpl. specialize (IH x L). destruct o; simpl; lia.
Qed.
Lemma collect_settled n : forall st, oinv st -> lives (w_heap st) <= n -> settled (collect n st).
Proof.
  induction n as [|n IH]; intros st I L; simpl.
  - intros x D. exfalso. pose proof (lives_kill x (w_heap st) D). lia.
  - destruct (garbage st) as [x|] eqn:G; [|now apply garbage_none]. apply IH; [now apply oinv_free|]. simpl.
    pose proof (garbage_some _ _ G) as (D & _). destruct (free_spec st x I D) as (h1 & -> & W & _).
    assert (lives h1 = lives (w_heap st)) as E by (apply lives_weaker; [intros y; now apply weaker_dead|apply W]).
    assert (get x h1 <> Dead) as D1 by (intros X; apply (weaker_dead _ _ x W) in X; auto).
    pose proof (lives_kill x h1 D1). lia.
Qed.
Lemma settle_ok st : oinv st -> oinv (settle st) /\ settled (settle st).
Proof. intros I. unfold settle. split; [now apply oinv_collect|]. apply collect_settled; auto. apply lives_le. Qed.

(** ** Steps *)

Lemma list_set_app {A} i (o : A) : forall h l, i < length h -> list_set i o (h ++ l) = list_set i o h ++ l.
Proof. induction i as [|i IH]; intros [|a h] l L; simpl in *; try lia; auto. f_equal. apply IH. lia. Qed.

Lemma oinv_hold st y : oinv st -> get y (w_heap st) <> Dead ->
  (forall a s p, is_action (get a (w_heap st)) s p -> y <> s /\ y <> p) -> oinv (mkOwn (w_heap st) (w_held st ++ [y])).
Proof.
  intros [A B C D E F] L NP. constructor; simpl; auto.
  - intros x [I|I]; [apply in_app_iff in I as [I|[<-|[]]]|]; auto.
  - intros a s p Ac. destruct (F _ _ _ Ac) as (F1 & F2 & F3 & F4 & F5). destruct (NP _ _ _ Ac) as (N1 & N2). repeat split; auto; try apply F5.
    + intros I. apply in_app_iff in I as [I|[I|[]]]; auto.
    + intros I. apply in_app_iff in I as [I|[I|[]]]; auto.
Qed.
Lemma settled_hold st l : settled st -> settled (mkOwn (w_heap st) (w_held st ++ l)).
Proof. intros S x L. destruct (S x L) as [I|I]; simpl; auto. left. apply in_or_app. auto. Qed.

Lemma remove1_incl x l : incl (remove1 x l) l.
Proof.
  induction l as [|y l IH]; simpl; [intros z []|]. destruct (Nat.eqb x y); intros z I; simpl; auto. destruct I; auto.
Qed.
Lemma oinv_less st l : oinv st -> incl l (w_held st) -> oinv (mkOwn (w_heap st) l).
Proof.
  intros [A B C D E F] L. constructor; simpl; auto.
  - intros x [I|I]; auto.
  - intros a s p Ac. destruct (F _ _ _ Ac) as (F1 & F2 & F3 & F4 & F5). repeat split; auto; try apply F5.
Qed.

Lemma oinv_set st x o : oinv st -> get x (w_heap st) <> Dead -> o <> Dead ->
  (In x (w_held st) \/ ~ (exists c, get x (w_heap st) = SubO c) /\ ~ (exists f, get x (w_heap st) = PubO f)) ->
  (forall y, In y (refs o) -> get y (w_heap st) <> Dead) ->
  (forall y, In y (captures o) -> In y (captures (get x (w_heap st))) \/ In y (w_held st)) ->
  (forall s p, is_action o s p -> is_action (get x (w_heap st)) s p) ->
  (forall f k ps, get x (w_heap st) = BusO f k ps -> exists ps', o = BusO f k ps' /\ forall y, In y ps' -> x < y) ->
  (forall f k ps, o = BusO f k ps -> exists ps', get x (w_heap st) = BusO f k ps') ->
  oinv (mkOwn (list_set x o (w_heap st)) (w_held st)).
Proof.
  intros I L No Hx Hr Hc Ha Hb Hb'. assert (x < length (w_heap st)) as Lx by now apply get_live.
  assert (forall y, get y (list_set x o (w_heap st)) = if Nat.eqb x y then o else get y (w_heap st)) as Gt.
  { intros y. rewrite get_list_set. destruct (Nat.eqb x y); auto. destruct (Nat.ltb_spec x (length (w_heap st))); auto; lia. }
  assert (forall y, get y (list_set x o (w_heap st)) = Dead -> get y (w_heap st) = Dead) as Dd.
  { intros y D. rewrite Gt in D. destruct (Nat.eqb x y); auto. congruence. }
  assert (forall y f k ps, get y (list_set x o (w_heap st)) = BusO f k ps -> exists ps', get y (w_heap st) = BusO f k ps') as Bk.
  { intros y f k ps E. rewrite Gt in E. destruct (Nat.eqb_spec x y) as [<-|Ne]; eauto. }
  assert (forall y f k ps, get y (w_heap st) = BusO f k ps -> exists ps', get y (list_set x o (w_heap st)) = BusO f k ps') as Fw.
  { intros y f k ps E. rewrite Gt. destruct (Nat.eqb_spec x y) as [<-|Ne]; eauto. destruct (Hb _ _ _ E) as (ps' & -> & _). eauto. }
  constructor; simpl.
  - intros z [J|(y & J)] D; apply Dd in D; revert D; [apply (oi_ref _ I); auto|]. rewrite Gt in J.
    destruct (Nat.eqb_spec x y) as [Eq|Ne]; [now apply Hr|apply (oi_ref _ I); eauto].
  - intros y f k ps z E J. destruct (Bk _ _ _ _ E) as (ps' & E'). rewrite Gt in E. destruct (Nat.eqb_spec x y) as [<-|Ne]; [|exact (oi_up _ I _ _ _ _ _ E J)].
    subst o. destruct (Hb _ _ _ E') as (ps2 & E2 & U). injection E2 as <-. apply in_app_iff in J as [J|J]; auto.
    eapply (oi_up _ I); eauto. apply in_or_app. auto.
  - intros y f k ps z E J. destruct (Bk _ _ _ _ E) as (ps' & E'). destruct (oi_kid _ I _ _ _ _ _ E' J) as (f2 & k2 & p2 & E2).
    destruct (Fw _ _ _ _ E2) as (p3 & E3). eauto.
  - intros p f k ps y r k' ps' E J Ey. destruct (Bk _ _ _ _ E) as (q1 & E1). destruct (Bk _ _ _ _ Ey) as (q2 & E2). eapply (oi_fn _ I); eauto.
  - intros y r k ps E. destruct (Bk _ _ _ _ E) as (q1 & E1). destruct (oi_par _ I _ _ _ _ E1) as [->|(p & f & k' & ps' & Ep & J)]; auto.
    right. destruct (Fw _ _ _ _ Ep) as (q & Eq). eauto 8.
  - intros a s p A. assert (is_action (get a (w_heap st)) s p) as A'. { rewrite Gt in A. destruct (Nat.eqb_spec x a) as [<-|Ne]; auto. }
    destruct (oi_priv _ I _ _ _ A') as (Es & (b & Ep) & H1 & H2 & H3).
    assert (x <> s /\ x <> p) as (Ns & Np).
    { split; intros ->; destruct Hx as [Hx|(X & Y)]; auto; [apply X|apply Y]; eauto. }
    split; [|split; [|split; [auto|split; [auto|]]]].
    + rewrite Gt. destruct (Nat.eqb_spec x s); congruence.
    + exists b. rewrite Gt. destruct (Nat.eqb_spec x p); congruence.
    + intros y. rewrite Gt. destruct (Nat.eqb_spec x y) as [<-|Ne]; [|apply H3]. split; intros J; destruct (Hc _ J) as [J'|J']; auto; [exact (proj1 (H3 x) J')|exact (proj2 (H3 x) J')].
Qed.

(** New objects at the end of the heap, some of them held. *)
Lemma oinv_app st l ys : oinv st ->
  (forall i y, In y (refs (get i l)) -> get y (w_heap st ++ l) <> Dead) ->
  (forall i f k ps, get i l = BusO f k ps -> k = [] /\ ps = [] /\ f = Some (length (w_heap st) + i)) ->
  (forall i s p, is_action (get i l) s p -> exists j q b, s = length (w_heap st) + j /\ p = length (w_heap st) + q /\
     get j l = SubO [length (w_heap st) + i] /\ get q l = PubO (Some b) /\ ~ In s ys /\ ~ In p ys /\
     forall i', ~ In s (captures (get i' l)) /\ ~ In p (captures (get i' l))) ->
  (forall i y, In y (captures (get i l)) -> In y (w_held st) \/ length (w_heap st) <= y) ->
  (forall y, In y ys -> exists i, y = length (w_heap st) + i /\ get i l <> Dead) ->
  oinv (mkOwn (w_heap st ++ l) (w_held st ++ ys)).
Proof.
  intros I Hr Hb Ha Hc Hy. set (n := length (w_heap st)) in *.
  assert (forall y, y < n -> get y (w_heap st ++ l) = get y (w_heap st)) as G1 by (intros; now apply get_app1).
  assert (forall i, get (n + i) (w_heap st ++ l) = get i l) as G2 by (intros; apply get_app2).
  assert (forall y, y < n \/ exists i, y = n + i) as Cs. { intros y. destruct (Nat.lt_ge_cases y n); auto. right. exists (y - n). lia. }
  assert (forall y, get y (w_heap st) <> Dead -> y < n) as Lv by (intros; now apply get_live).
  assert (forall y, get y (w_heap st) <> Dead -> get y (w_heap st ++ l) = get y (w_heap st)) as G3 by (intros; auto).
  assert (forall y, In y (w_held st) -> get y (w_heap st) <> Dead) as LH by (intros y J; apply (oi_ref _ I); auto).
  constructor; simpl.
  - intros z [J|(y & J)].
    + apply in_app_iff in J as [J|J]; [rewrite G3; auto|]. destruct (Hy _ J) as (i & -> & D). now rewrite G2.
    + destruct (Cs y) as [Ly|(i & ->)]; [|rewrite G2 in J; eauto]. rewrite G1 in J by auto.
      assert (get z (w_heap st) <> Dead) by (apply (oi_ref _ I); eauto). rewrite G3; auto.
  - intros y f k ps z E J. destruct (Cs y) as [Ly|(i & ->)].
    + rewrite G1 in E by auto. eapply (oi_up _ I); eauto.
    + rewrite G2 in E. destruct (Hb _ _ _ _ E) as (-> & -> & _). contradiction.
  - intros y f k ps z E J. destruct (Cs y) as [Ly|(i & ->)].
    + rewrite G1 in E by auto. destruct (oi_kid _ I _ _ _ _ _ E J) as (f' & k' & ps' & E'). exists f', k', ps'. rewrite G3; auto. congruence.
    + rewrite G2 in E. destruct (Hb _ _ _ _ E) as (-> & _). contradiction.
  - intros p f k ps y r k' ps' E J Ey. destruct (Cs p) as [Lp|(i & ->)].
    + rewrite G1 in E by auto. destruct (oi_kid _ I _ _ _ _ _ E J) as (f2 & k2 & p2 & E2). rewrite G3 in Ey by congruence. eapply (oi_fn _ I); eauto.
    + rewrite G2 in E. destruct (Hb _ _ _ _ E) as (-> & _). contradiction.
  - intros y r k ps E. destruct (Cs y) as [Ly|(i & ->)].
    + rewrite G1 in E by auto. destruct (oi_par _ I _ _ _ _ E) as [->|(p & f & k' & ps' & Ep & J)]; auto. right. exists p, f, k', ps'. rewrite G3; auto. congruence.
    + rewrite G2 in E. destruct (Hb _ _ _ _ E) as (_ & _ & X). injection X as ->. auto.
  - intros a s p A. destruct (Cs a) as [La|(i & ->)].
    + rewrite G1 in A by auto. destruct (oi_priv _ I _ _ _ A) as (Es & (b & Ep) & H1 & H2 & H3).
      assert (s < n /\ p < n) as (Ls & Lp) by (split; apply Lv; congruence).
      rewrite !G1 by auto. split; auto. split; eauto. 
      assert (forall y, In y ys -> y <> s /\ y <> p) as NY by (intros y J; destruct (Hy _ J) as (i & -> & _); lia).
      split; [intros J; apply in_app_iff in J as [J|J]; auto; apply NY in J; tauto|].
      split; [intros J; apply in_app_iff in J as [J|J]; auto; apply NY in J; tauto|].
      intros y. destruct (Cs y) as [Ly|(i & ->)]; [rewrite G1 by auto; apply H3|]. rewrite G2.
      split; intros J; destruct (Hc _ _ J) as [J'|J']; auto; lia.
    + rewrite G2 in A. destruct (Ha _ _ _ A) as (j & q & b & -> & -> & Ej & Eq & N1 & N2 & N3). rewrite !G2. split; auto. split; eauto.
      split; [intros J; apply in_app_iff in J as [J|J]; auto; apply LH, Lv in J; lia|].
      split; [intros J; apply in_app_iff in J as [J|J]; auto; apply LH, Lv in J; lia|].
      intros y. destruct (Cs y) as [Ly|(i' & ->)]; [|rewrite G2; apply N3]. rewrite G1 by auto.
      split; intros J; apply captures_refs in J; assert (get (n + j) (w_heap st) <> Dead \/ get (n + q) (w_heap st) <> Dead) as [X|X]
        by (first [left; apply (oi_ref _ I); eauto; fail|right; apply (oi_ref _ I); eauto; fail]); apply Lv in X; lia.
Qed.

Lemma settled_grow st h' held' : settled st ->
  (forall y z, In z (refs (get y (w_heap st))) -> In z (refs (get y h'))) -> incl (w_held st) held' ->
  (forall x, get x (w_heap st) = Dead -> get x h' <> Dead -> In x held' \/ exists y, In x (refs (get y h'))) ->
  settled (mkOwn h' held').
Proof.
  intros S R H N x L. simpl in *.
  assert (get x (w_heap st) = Dead \/ get x (w_heap st) <> Dead) as [D|D] by (destruct (get x (w_heap st)); auto; right; discriminate).
  - auto.
  - destruct (S x D) as [I|(y & I)]; auto. right. eauto.
Qed.

Lemma holds_in x st : holds x st = true -> In x (w_held st).
Proof. apply mem_in. Qed.
Lemma subset_in l st x : subset l st = true -> In x l -> In x (w_held st).
Proof. unfold subset. rewrite forallb_forall. intros H I. now apply holds_in, H. Qed.
Lemma is_bus_get b st : is_bus b st = true -> In b (w_held st) /\ exists f k ps, get b (w_heap st) = BusO f k ps.
Proof. unfold is_bus. intros H. apply andb_prop in H as (A & B). split; [now apply holds_in|]. destruct (get b (w_heap st)); try discriminate. eauto. Qed.

(** Adding participants: new objects, then the bus's list. *)
Lemma parts_ok st b l ys f k ps js : oinv st -> settled st -> get b (w_heap st) = BusO f k ps ->
  oinv (mkOwn (w_heap st ++ l) (w_held st ++ ys)) ->
  (forall i, i < length l -> In (length (w_heap st) + i) js) ->
  (forall j, In j js -> exists i, j = length (w_heap st) + i /\ get i l <> Dead) ->
  let h' := add_part b js (w_heap st) ++ l in
  oinv (mkOwn h' (w_held st ++ ys)) /\ settled (mkOwn h' (w_held st ++ ys)).
Proof.
  intros I S E I' Hl Hj h'. assert (b < length (w_heap st)) as Lb by (apply get_live; congruence).
  assert (h' = list_set b (BusO f k (ps ++ js)) (w_heap st ++ l)) as Eh by (unfold h', add_part; rewrite E; now rewrite list_set_app).
  assert (get b (w_heap st ++ l) = BusO f k ps) as Eb by (rewrite get_app1; auto).
  assert (forall y, get y h' = if Nat.eqb b y then BusO f k (ps ++ js) else get y (w_heap st ++ l)) as Gt.
  { intros y. rewrite Eh, get_list_set. destruct (Nat.eqb b y); auto. rewrite app_length. destruct (Nat.ltb_spec b (length (w_heap st) + length l)); auto; lia. }
  split.
  - rewrite Eh. change (list_set b (BusO f k (ps ++ js)) (w_heap st ++ l)) with (list_set b (BusO f k (ps ++ js)) (w_heap (mkOwn (w_heap st ++ l) (w_held st ++ ys)))).
    change (w_held st ++ ys) with (w_held (mkOwn (w_heap st ++ l) (w_held st ++ ys))) at 2. apply oinv_set; auto; simpl; try rewrite Eb; try discriminate.
    + right. split; intros (c & X); discriminate.
    + intros y J. rewrite !in_app_iff in J. assert (get b (w_heap st ++ l) = BusO f k ps) as Eb' by auto.
      destruct J as [J|[J|J]].
      * apply (oi_ref _ I'). right. exists b. simpl. rewrite Eb. simpl. apply in_or_app. auto.
      * apply (oi_ref _ I'). right. exists b. simpl. rewrite Eb. simpl. apply in_or_app. auto.
      * destruct (Hj _ J) as (i & -> & D). now rewrite get_app2.
    + intros y [].
    + intros s p [(c & X)|(c & X)]; discriminate.
    + intros f' k' ps' X. injection X as <- <- <-. exists (ps ++ js). split; auto. intros y J. apply in_app_iff in J as [J|J].
      * eapply (oi_up _ I); eauto. apply in_or_app. auto.
      * destruct (Hj _ J) as (i & -> & _). lia.
    + intros f' k' ps' X. injection X as <- <- <-. eauto.
  - apply settled_grow with (st := st); auto.
    + intros y z J. rewrite Gt. destruct (Nat.eqb_spec b y) as [<-|Ne].
      * rewrite E in J. simpl in *. rewrite !in_app_iff in *. tauto.
      * destruct (Nat.lt_ge_cases y (length (w_heap st))) as [Ly|Gy]; [now rewrite get_app1|]. unfold get in J. rewrite nth_overflow in J by auto. contradiction.
    + intros x J. apply in_or_app. auto.
    + intros x D L. right. exists b. rewrite Gt, Nat.eqb_refl. simpl. rewrite !in_app_iff. right. right.
      rewrite Gt in L. destruct (Nat.eqb_spec b x) as [<-|Ne]; [congruence|].
      assert (length (w_heap st) <= x). { destruct (Nat.lt_ge_cases x (length (w_heap st))) as [Lx|]; auto. rewrite get_app1 in L by auto. contradiction. }
      replace x with (length (w_heap st) + (x - length (w_heap st))) in * by lia. apply Hl. rewrite get_app2 in L. now apply get_live.
Qed.

Lemma oinv_settle_set st x o : oinv (mkOwn (list_set x o (w_heap st)) (w_held st)) -> oinv (settle (mkOwn (list_set x o (w_heap st)) (w_held st))) /\ settled (settle (mkOwn (list_set x o (w_heap st)) (w_held st))).
Proof. apply settle_ok. Qed.

Lemma remove_all_incl x l : incl (remove_all x l) l.
Proof. intros y I. unfold remove_all in I. apply filter_In in I. tauto. Qed.

Lemma weaker_captures h h' x : weaker h h' -> captures (get x h') = captures (get x h).
Proof. intros (_ & W). destruct (W x) as [->|(f & k & ps & -> & ->)]; reflexivity. Qed.
Lemma weaker_action h h' x s p : weaker h h' -> (is_action (get x h') s p <-> is_action (get x h) s p).
Proof. intros (_ & W). destruct (W x) as [->|(f & k & ps & -> & ->)]; [tauto|]. split; intros [(c & X)|(c & X)]; discriminate. Qed.

Lemma oinv_detach st b : oinv st -> settled st ->
  let st' := mkOwn (detach (length (w_heap st)) b (w_heap st)) (w_held st) in oinv st' /\ settled st'.
Proof.
  intros I Sd. simpl. destruct (detach_spec (length (w_heap st)) b (w_heap st) (oi_upward _ I)) as (W & N & C); [lia|].
  set (h1 := detach (length (w_heap st)) b (w_heap st)) in *. split.
  - constructor; simpl.
    + intros x H D. apply (weaker_dead _ _ x W) in D. revert D. apply (oi_ref _ I). destruct H as [H|(y & H)]; auto. right. exists y. now rewrite <- (weaker_refs _ _ y W).
    + intros x f k ps y E J. destruct (weaker_bus _ _ _ _ _ _ W E) as (f' & E' & _). exact (oi_up _ I _ _ _ _ _ E' J).
    + intros x f k ps y E J. destruct (weaker_bus _ _ _ _ _ _ W E) as (f' & E' & _). destruct (oi_kid _ I _ _ _ _ _ E' J) as (f2 & k2 & ps2 & E2).
      destruct (weaker_bus' _ _ _ _ _ _ W E2) as (f3 & E3 & _). eauto.
    + intros p f k ps y r k' ps' E J Ey.
      destruct (weaker_bus _ _ _ _ _ _ W E) as (f1 & E1 & F). destruct (weaker_bus _ _ _ _ _ _ W Ey) as (f2 & E2 & [<-|X]); [|discriminate].
      pose proof (oi_fn _ I _ _ _ _ _ _ _ _ E1 J E2) as ->. destruct F as [->|F]; auto. exfalso.
      assert (below (w_heap st) b p) as B by (apply C; rewrite E, E1, F; discriminate).
      assert (below (w_heap st) b y) as B2.
      { clear -B E1 J. induction B as [|a g l qs z b Ea Ia _ IH]; [econstructor; eauto; constructor|econstructor; eauto]. }
      eapply (N y B2); eauto.
    + intros y r k ps E. destruct (weaker_bus _ _ _ _ _ _ W E) as (f' & E' & [<-|X]); [|discriminate].
      destruct (oi_par _ I _ _ _ _ E') as [->|(p & f & k' & ps' & Ep & J)]; auto. right.
      destruct (weaker_bus' _ _ _ _ _ _ W Ep) as (f3 & E3 & _). eauto 8.
    + intros a s p A. apply (weaker_action _ _ _ _ _ W) in A. destruct (oi_priv _ I _ _ _ A) as (Es & (q & Ep) & H1 & H2 & H3).
      split; [rewrite (weaker_other _ _ s W); auto; intros; congruence|]. split; [exists q; rewrite (weaker_other _ _ p W); auto; intros; congruence|].
      split; auto. split; auto. intros x. rewrite (weaker_captures _ _ x W). apply H3.
  - intros x L. simpl in *. destruct (Sd x) as [J|(y & J)]; auto.
    + intros D. apply L. now apply (weaker_dead _ _ x W).
    + right. exists y. now rewrite (weaker_refs _ _ y W).
Qed.

Lemma oinv_child st b r k ps : oinv st -> settled st -> get b (w_heap st) = BusO (Some r) k ps ->
  let n := length (w_heap st) in
  let st' := mkOwn (list_set b (BusO (Some r) (k ++ [n]) ps) (w_heap st) ++ [BusO (Some r) [] []]) (w_held st ++ [n]) in
  oinv st' /\ settled st'.
Proof.
  intros I Sd Eb n st'. assert (b < n) as Lb by (apply get_live; congruence).
  assert (forall y, get y (w_heap st') = if Nat.eqb b y then BusO (Some r) (k ++ [n]) ps else if Nat.eqb n y then BusO (Some r) [] [] else get y (w_heap st)) as Gt.
  { intros y. simpl. destruct (Nat.lt_ge_cases y n) as [Ly|Gy].
    - rewrite get_app1 by now rewrite list_set_length. rewrite get_list_set. fold n. destruct (Nat.eqb_spec b y) as [->|Ne].
      + destruct (Nat.ltb_spec y n); [reflexivity|lia].
      + destruct (Nat.eqb_spec n y); [lia|reflexivity].
    - replace y with (length (list_set b (BusO (Some r) (k ++ [n]) ps) (w_heap st)) + (y - n)) at 1 by (rewrite list_set_length; fold n; lia).
      rewrite get_app2. destruct (Nat.eqb_spec b y); [lia|]. destruct (Nat.eqb_spec n y) as [<-|Ne].
      + rewrite Nat.sub_diag. reflexivity.
      + destruct (y - n) as [|[|m]] eqn:X; [lia| |]; unfold get; simpl; rewrite nth_overflow by (fold n; lia); reflexivity. }
  assert (forall y f k' ps', get y (w_heap st') = BusO f k' ps' ->
    (y = b /\ f = Some r /\ k' = k ++ [n] /\ ps' = ps) \/ (y = n /\ f = Some r /\ k' = [] /\ ps' = []) \/ (y <> b /\ y < n /\ get y (w_heap st) = BusO f k' ps')) as Cs.
  { intros y f k' ps' E. rewrite Gt in E. destruct (Nat.eqb_spec b y) as [->|Ne]; [injection E as <- <- <-; auto 8|].
    destruct (Nat.eqb_spec n y) as [Eq|Ne']; [injection E as <- <- <-; auto 8|]. right. right. split; auto. split; auto. apply get_live. congruence. }
  assert (forall y, get y (w_heap st) <> Dead -> y <> b -> get y (w_heap st') = get y (w_heap st)) as Old.
  { intros y L Ne. rewrite Gt. assert (y < n) by now apply get_live. destruct (Nat.eqb_spec b y); [congruence|]. destruct (Nat.eqb_spec n y); [lia|auto]. }
  assert (get b (w_heap st') = BusO (Some r) (k ++ [n]) ps) as Eb' by (rewrite Gt, Nat.eqb_refl; auto).
  assert (get n (w_heap st') = BusO (Some r) [] []) as En. { rewrite Gt, Nat.eqb_refl. destruct (Nat.eqb_spec b n); auto; lia. }
  assert (forall y, get y (w_heap st) <> Dead -> get y (w_heap st') <> Dead) as Lv.
  { intros y L. destruct (Nat.eq_dec y b) as [->|Ne]; [rewrite Eb'; discriminate|rewrite Old; auto]. }
  assert (forall y z, In z (refs (get y (w_heap st'))) -> z = n \/ In z (refs (get y (w_heap st)))) as Rf.
  { intros y z J. rewrite Gt in J. destruct (Nat.eqb_spec b y) as [<-|Ne].
    - rewrite Eb. simpl in *. rewrite !in_app_iff in *. simpl in J. destruct J as [[J|[J|[]]]|J]; auto.
    - destruct (Nat.eqb n y); auto. contradiction. }
  assert (forall y f k' ps', get y (w_heap st) = BusO f k' ps' -> exists k2, get y (w_heap st') = BusO f k2 ps' /\ incl k' k2) as Fw.
  { intros y f k' ps' E. destruct (Nat.eq_dec y b) as [->|Ne].
    - rewrite Eb in E. injection E as <- <- <-. exists (k ++ [n]). split; auto. intros z J. apply in_or_app. auto.
    - exists k'. split; [|apply incl_refl]. rewrite Old; auto. congruence. }
  split.
  - constructor.
    + intros x [J|(y & J)].
      * simpl in J. apply in_app_iff in J as [J|[<-|[]]]; [apply Lv, (oi_ref _ I); auto|rewrite En; discriminate].
      * apply Rf in J as [->|J]; [rewrite En; discriminate|]. apply Lv, (oi_ref _ I). eauto.
    + intros x f k' ps' y E J. apply Cs in E as [(-> & -> & -> & ->)|[(-> & -> & -> & ->)|(_ & _ & E)]].
      * rewrite !in_app_iff in J. destruct J as [[J|[<-|[]]]|J]; auto; apply (oi_up _ I _ _ _ _ _ Eb); apply in_or_app; auto.
      * contradiction.
      * exact (oi_up _ I _ _ _ _ _ E J).
    + intros x f k' ps' y E J. apply Cs in E as [(-> & -> & -> & ->)|[(-> & -> & -> & ->)|(_ & _ & E)]].
      * apply in_app_iff in J as [J|[<-|[]]]; [|eauto]. destruct (oi_kid _ I _ _ _ _ _ Eb J) as (f2 & k2 & p2 & E2). destruct (Fw _ _ _ _ E2) as (k3 & E3 & _). eauto.
      * contradiction.
      * destruct (oi_kid _ I _ _ _ _ _ E J) as (f2 & k2 & p2 & E2). destruct (Fw _ _ _ _ E2) as (k3 & E3 & _). eauto.
    + intros p f k1 ps1 y r' k2 ps2 E J Ey. apply Cs in E as [(-> & -> & -> & ->)|[(-> & -> & -> & ->)|(Np & Lp & E)]].
      * apply in_app_iff in J as [J|[<-|[]]]; [|congruence].
        apply Cs in Ey as [(-> & X & _)|[(-> & X & _)|(_ & _ & Ey)]]; auto. exact (oi_fn _ I _ _ _ _ _ _ _ _ Eb J Ey).
      * contradiction.
      * assert (y < n) as Ly. { destruct (oi_kid _ I _ _ _ _ _ E J) as (f2 & k3 & p3 & E3). apply get_live. congruence. }
        apply Cs in Ey as [(-> & X & _ & _)|[(-> & X & _)|(_ & _ & Ey)]]; [|lia|exact (oi_fn _ I _ _ _ _ _ _ _ _ E J Ey)].
        injection X as ->. exact (oi_fn _ I _ _ _ _ _ _ _ _ E J Eb).
    + intros y r' k1 ps1 E. apply Cs in E as [(-> & X & -> & ->)|[(-> & X & -> & ->)|(Np & Lp & E)]].
      * injection X as ->. destruct (oi_par _ I _ _ _ _ Eb) as [->|(p & f & k' & ps' & Ep & J)]; auto. right.
        destruct (Fw _ _ _ _ Ep) as (k2 & E2 & In2). eauto 8.
      * right. exists b, (Some r), (k ++ [n]), ps. split; auto. apply in_or_app. simpl. auto.
      * destruct (oi_par _ I _ _ _ _ E) as [->|(p & f & k' & ps' & Ep & J)]; auto. right. destruct (Fw _ _ _ _ Ep) as (k2 & E2 & In2). eauto 8.
    + intros a s p A. assert (is_action (get a (w_heap st)) s p) as A'.
      { rewrite Gt in A. destruct (Nat.eqb b a); [destruct A as [(c & X)|(c & X)]; discriminate|].
        destruct (Nat.eqb n a); [destruct A as [(c & X)|(c & X)]; discriminate|auto]. }
      destruct (oi_priv _ I _ _ _ A') as (Es & (q & Ep) & H1 & H2 & H3).
      assert (s < n /\ p < n) as (Ls & Lp) by (split; apply get_live; congruence).
      split; [rewrite Old; congruence|]. split; [exists q; rewrite Old; congruence|]. simpl.
      split; [intros J; apply in_app_iff in J as [J|[J|[]]]; auto; lia|].
      split; [intros J; apply in_app_iff in J as [J|[J|[]]]; auto; lia|].
      intros y. change (list_set b (BusO (Some r) (k ++ [n]) ps) (w_heap st) ++ [BusO (Some r) [] []]) with (w_heap st').
      rewrite Gt. destruct (Nat.eqb b y); [simpl; tauto|]. destruct (Nat.eqb n y); [simpl; tauto|]. apply H3.
  - apply settled_grow with (st := st); auto.
    + intros y z J. change (In z (refs (get y (w_heap st')))). rewrite Gt. destruct (Nat.eqb_spec b y) as [<-|Ne].
      * rewrite Eb in J. simpl in *. rewrite !in_app_iff in *. tauto.
      * destruct (Nat.eqb_spec n y) as [<-|Ne']; auto. unfold get in J. rewrite nth_overflow in J by (fold n; lia). contradiction.
    + intros x J. apply in_or_app. auto.
    + intros x D L. change (get x (w_heap st') <> Dead) in L. rewrite Gt in L. destruct (Nat.eqb_spec b x) as [<-|]; [congruence|].
      destruct (Nat.eqb_spec n x) as [<-|]; [|congruence]. left. apply in_or_app. simpl. auto.
Qed.

Lemma get_end o h : get (length h) (h ++ [o]) = o.
Proof. rewrite <- (Nat.add_0_r (length h)). now rewrite get_app2. Qed.

Definition is_priv (y : nat) (st : own) : Prop := exists a s p, is_action (get a (w_heap st)) s p /\ (y = s \/ y = p).
Lemma held_public st y : oinv st -> In y (w_held st) -> forall a s p, is_action (get a (w_heap st)) s p -> y <> s /\ y <> p.
Proof. intros I H a s p A. destruct (oi_priv _ I _ _ _ A) as (_ & _ & H1 & H2 & _). split; intros ->; auto. Qed.

Lemma sing_cases (o : obj) i : get i [o] = o /\ i = 0 \/ get i [o] = Dead.
Proof. destruct i as [|[|i]]; unfold get; simpl; auto. Qed.
Lemma three_cases (a b c : obj) i : get i [a; b; c] = a /\ i = 0 \/ get i [a; b; c] = b /\ i = 1 \/ get i [a; b; c] = c /\ i = 2 \/ get i [a; b; c] = Dead.
Proof. destruct i as [|[|[|[|i]]]]; unfold get; simpl; auto. Qed.
Lemma not_action_dead s p : ~ is_action Dead s p.
Proof. intros [(c & X)|(c & X)]; discriminate. Qed.

(** One new object without references of its own but [caps]. *)
Lemma oinv_app_one st o ys : oinv st -> (ys = [] \/ ys = [length (w_heap st)]) ->
  (forall s p, ~ is_action o s p) -> o <> Dead -> (forall f k ps, o <> BusO f k ps) -> incl (refs o) (w_held st) ->
  oinv (mkOwn (w_heap st ++ [o]) (w_held st ++ ys)).
Proof.
  intros I Hy Na Nd Nb R. apply oinv_app; auto.
  - intros i y J. destruct (sing_cases o i) as [(E & _)|E]; rewrite E in J; [|contradiction].
    assert (get y (w_heap st) <> Dead) as D by (apply (oi_ref _ I); auto). rewrite get_app1; auto. now apply get_live.
  - intros i f k ps E. destruct (sing_cases o i) as [(E' & _)|E']; rewrite E' in E; [|discriminate]. exfalso. eapply Nb; eauto.
  - intros i s p A. exfalso. destruct (sing_cases o i) as [(E' & _)|E']; rewrite E' in A; [eapply Na; eauto|eapply not_action_dead; eauto].
  - intros i y J. left. destruct (sing_cases o i) as [(E & _)|E]; rewrite E in J; [apply R; now apply captures_refs|contradiction].
  - intros y J. destruct Hy as [->| ->]; [contradiction|]. destruct J as [<-|[]]. exists 0. split; [lia|]. exact Nd.
Qed.

Lemma oinv_app_action st b o caps : oinv st -> incl caps (w_held st) ->
  let n := length (w_heap st) in
  (o = ProvO n (S n) caps \/ (caps = [] /\ o = ConsO n (S n) [])) ->
  oinv (mkOwn (w_heap st ++ [SubO [S (S n)]; PubO (Some b); o]) (w_held st ++ [S (S n)])).
Proof.
  intros I R n Ho. assert (captures o = caps /\ refs o = n :: S n :: caps /\ o <> Dead /\ is_action o n (S n) /\ (forall s p, is_action o s p -> s = n /\ p = S n) /\ (forall f k ps, o <> BusO f k ps)) as (Cp & Rf & Nd & Ac & Un & Nb).
  { destruct Ho as [->|(-> & ->)]; simpl; (split; [reflexivity|]; split; [reflexivity|]; split; [discriminate|]; split; [unfold is_action; eauto|]; split; [|discriminate]);
      intros s p [(c & X)|(c & X)]; inversion X; auto. }
  assert (forall y, In y (w_held st) -> y < n) as Lh by (intros y J; apply get_live, (oi_ref _ I); auto).
  assert (forall i, get (n + i) (w_heap st ++ [SubO [S (S n)]; PubO (Some b); o]) = get i [SubO [S (S n)]; PubO (Some b); o]) as G2 by (intros; apply get_app2).
  pose proof (G2 0) as G20. pose proof (G2 1) as G21. pose proof (G2 2) as G22. 
  change (get 0 [SubO [S (S n)]; PubO (Some b); o]) with (SubO [S (S n)]) in G20. change (get 1 [SubO [S (S n)]; PubO (Some b); o]) with (PubO (Some b)) in G21.
  change (get 2 [SubO [S (S n)]; PubO (Some b); o]) with o in G22.
  replace (n + 0) with n in G20 by lia. replace (n + 1) with (S n) in G21 by lia. replace (n + 2) with (S (S n)) in G22 by lia.
  apply oinv_app; auto; fold n.
  - intros i y J. destruct (three_cases (SubO [S (S n)]) (PubO (Some b)) o i) as [(E & _)|[(E & _)|[(E & _)|E]]]; rewrite E in J; simpl in J; try contradiction.
    + destruct J as [<-|[]]. congruence.
    + rewrite Rf in J. destruct J as [<-|[<-|J]]; [congruence|congruence|].
      assert (get y (w_heap st) <> Dead) as D by (apply (oi_ref _ I); auto). rewrite get_app1; auto.
  - intros i f k ps E. exfalso. destruct (three_cases (SubO [S (S n)]) (PubO (Some b)) o i) as [(E' & _)|[(E' & _)|[(E' & _)|E']]]; rewrite E' in E; try discriminate; try exact (Nb _ _ _ E).
  - intros i s p A. destruct (three_cases (SubO [S (S n)]) (PubO (Some b)) o i) as [(E & _)|[(E & _)|[(E & ->)|E]]]; rewrite E in A;
      try (destruct A as [(c & X)|(c & X)]; discriminate). apply Un in A as (-> & ->).
    exists 0, 1, b. split; [lia|]. split; [lia|]. split; [unfold get; simpl; repeat f_equal; lia|]. split; [reflexivity|].
    split; [intros [X|[]]; lia|]. split; [intros [X|[]]; lia|].
    intros i'. destruct (three_cases (SubO [S (S n)]) (PubO (Some b)) o i') as [(E' & _)|[(E' & _)|[(E' & _)|E']]]; rewrite E'; simpl; try tauto.
    + split; intros [X|[]]; lia.
    + rewrite Cp. split; intros J; apply R, Lh in J; lia.
  - intros i y J. destruct (three_cases (SubO [S (S n)]) (PubO (Some b)) o i) as [(E & _)|[(E & _)|[(E & _)|E]]]; rewrite E in J; simpl in J; try contradiction.
    + destruct J as [<-|[]]. right. lia.
    + rewrite Cp in J. auto.
  - intros y [<-|[]]. exists 2. split; [lia|]. exact Nd.
Qed.

(** Replacing an object that is not a bus. *)
Lemma oinv_set_part st x o : oinv st -> get x (w_heap st) <> Dead -> o <> Dead ->
  (In x (w_held st) \/ ~ (exists c, get x (w_heap st) = SubO c) /\ ~ (exists f, get x (w_heap st) = PubO f)) ->
  incl (captures o) (captures (get x (w_heap st)) ++ w_held st) ->
  incl (refs o) (refs (get x (w_heap st)) ++ w_held st) ->
  (forall s p, is_action o s p -> is_action (get x (w_heap st)) s p) ->
  (forall f k ps, get x (w_heap st) <> BusO f k ps) -> (forall f k ps, o <> BusO f k ps) ->
  oinv (mkOwn (list_set x o (w_heap st)) (w_held st)).
Proof.
  intros I L No Hx Hc Hr Ha Nb Nb'. apply oinv_set; auto.
  - intros y J. apply Hr, in_app_iff in J as [J|J]; apply (oi_ref _ I); eauto.
  - intros y J. now apply Hc, in_app_iff in J.
  - intros f k ps E. exfalso. eapply Nb; eauto.
  - intros f k ps E. exfalso. eapply Nb'; eauto.
Qed.

Lemma concat_del {A} (op : list (list A)) i : incl (concat (firstn i op ++ skipn (S i) op)) (concat op).
Proof.
  intros y J. apply in_concat in J as (c & J & K). apply in_concat. exists c. split; auto.
  apply in_app_iff in J as [J|J]; [rewrite <- (firstn_skipn i op); apply in_or_app; auto|rewrite <- (firstn_skipn (S i) op); apply in_or_app; auto].
Qed.

(** ** How objects change *)

(** An object that is not freed: buses only lose their function and gain children; publishers only lose their function;
    the subscriber and publisher of an action stay. *)
Definition evl (o o' : obj) : Prop :=
  match o, o' with
  | BusO f k _, BusO f' k' _ => (f' = f \/ f' = None) /\ incl k k'
  | SubO _, SubO _ => True
  | PubO f, PubO f' => f' = f \/ f' = None
  | ProvO s p _, ProvO s' p' _ => s' = s /\ p' = p
  | ConsO s p _, ConsO s' p' _ => s' = s /\ p' = p
  | Dead, Dead => True
  | _, _ => False
  end.
Lemma evl_refl o : evl o o.
Proof. destruct o; simpl; auto using incl_refl. Qed.
Lemma evl_trans a b c : evl a b -> evl b c -> evl a c.
Proof.
  destruct a, b; simpl; try contradiction; destruct c; simpl; try contradiction; auto.
  - intros (A & B) (C & D). split; [destruct C as [->| ->]; auto|]. eapply incl_tran; eauto.
  - intros A [->| ->]; auto.
  - intros (-> & ->) (-> & ->). auto.
  - intros (-> & ->) (-> & ->). auto.
Qed.
Definition grew (h h' : list obj) : Prop := length h <= length h' /\ forall x, x < length h -> evl (get x h) (get x h').
Lemma grew_refl h : grew h h.
Proof. split; auto. intros. apply evl_refl. Qed.
Lemma grew_trans a b c : grew a b -> grew b c -> grew a c.
Proof. intros (L1 & H1) (L2 & H2). split; [lia|]. intros x Lx. eapply evl_trans; [now apply H1|apply H2; lia]. Qed.
Lemma grew_set x o h : evl (get x h) o -> grew h (list_set x o h).
Proof.
  intros E. split; [now rewrite list_set_length|]. intros y Ly. rewrite get_list_set. destruct (Nat.eqb_spec x y) as [->|]; [|apply evl_refl].
  destruct (Nat.ltb_spec y (length h)); [auto|lia].
Qed.
Lemma grew_app h l : grew h (h ++ l).
Proof. split; [rewrite app_length; lia|]. intros x Lx. rewrite get_app1 by auto. apply evl_refl. Qed.
Lemma grew_weaker h h' : weaker h h' -> grew h h'.
Proof.
  intros (L & W). split; [lia|]. intros x _. destruct (W x) as [->|(f & k & ps & -> & ->)]; [apply evl_refl|]. simpl. auto using incl_refl.
Qed.
Lemma grew_part b l h : grew h (add_part b l h).
Proof. unfold add_part. destruct (get b h) eqn:E; try apply grew_refl. apply grew_set. rewrite E. simpl. auto using incl_refl. Qed.

(** A step: the objects change without being freed, then those without references may be freed. *)
Definition shape (st st' : own) : Prop :=
  exists st1, oinv st1 /\ grew (w_heap st) (w_heap st1) /\ (st' = st1 /\ settled st1 \/ st' = settle st1).
Lemma shape_now st st' : oinv st' /\ settled st' -> grew (w_heap st) (w_heap st') -> shape st st'.
Proof. intros (A & B) G. exists st'. auto. Qed.
Lemma shape_settle st st1 : oinv st1 -> grew (w_heap st) (w_heap st1) -> shape st (settle st1).
Proof. intros A G. exists st1. auto. Qed.

Lemma ostep_shape o st st' r : ostep o st = Some (st', r) -> oinv st -> settled st -> shape st st'.
Proof.
  intros H I Sd. assert (forall y, In y (w_held st) -> get y (w_heap st) <> Dead) as LH by (intros y J; apply (oi_ref _ I); auto).
  destruct o as [|b|b k|b|b caps|b caps|b|c caps|c i|s caps|x y|x|b s|b p|b|b|p|a|x|x]; simpl in H.
  - (* NewBus *) injection H as <- <-. apply shape_now; [|apply grew_app]. split.
    + apply oinv_app; auto.
      * intros i y J. destruct (sing_cases (BusO (Some (length (w_heap st))) [] []) i) as [(E & _)|E]; rewrite E in J; contradiction.
      * intros i f k ps E. destruct (sing_cases (BusO (Some (length (w_heap st))) [] []) i) as [(E' & ->)|E']; rewrite E' in E; [|discriminate].
        injection E as <- <- <-. split; [|split]; auto; f_equal; lia.
      * intros i s p A. exfalso. destruct (sing_cases (BusO (Some (length (w_heap st))) [] []) i) as [(E & _)|E]; rewrite E in A;
          destruct A as [(c & X)|(c & X)]; discriminate.
      * intros i y J. destruct (sing_cases (BusO (Some (length (w_heap st))) [] []) i) as [(E & _)|E]; rewrite E in J; contradiction.
      * intros y [<-|[]]. exists 0. split; [lia|discriminate].
    + apply settled_grow with (st := st); auto.
      * intros y z J. destruct (Nat.lt_ge_cases y (length (w_heap st))) as [Ly|Gy]; [now rewrite get_app1|]. unfold get in J. rewrite nth_overflow in J by auto. contradiction.
      * intros x J. apply in_or_app. auto.
      * intros x D L. left. apply in_or_app. right. simpl. left.
        destruct (Nat.lt_ge_cases x (length (w_heap st))) as [Lx|Gx]; [rewrite get_app1 in L by auto; contradiction|].
        replace x with (length (w_heap st) + (x - length (w_heap st))) in L by lia. rewrite get_app2 in L. apply get_live in L. simpl in L. lia.
  - (* NewChild *) destruct (is_bus b st); [|discriminate]. destruct (get b (w_heap st)) as [[r0|] k ps| | | | |] eqn:E; injection H as <- <-; try (apply shape_now; [auto|apply grew_refl]).
    apply shape_now; [now apply oinv_child|]. eapply grew_trans; [|apply grew_app]. apply grew_set. rewrite E. simpl. split; auto. now apply incl_appl, incl_refl.
  - (* FindChild *) destruct (is_bus b st); [|discriminate]. destruct (get b (w_heap st)) as [f ks ps| | | | |] eqn:E; try discriminate.
    destruct (mem k ks) eqn:M; injection H as <- <-; (apply shape_now; [|apply grew_refl]); auto. apply mem_in in M. split; [|now apply settled_hold].
    destruct (oi_kid _ I _ _ _ _ _ E M) as (f' & k' & ps' & E'). apply oinv_hold; auto; [congruence|].
    intros a s p A. destruct (oi_priv _ I _ _ _ A) as (Es & (q & Ep) & _). split; intros ->; congruence.
  - (* NewPub *) destruct (is_bus b st) eqn:B; [|discriminate]. injection H as <- <-. apply is_bus_get in B as (Hb & f & k & ps & E).
    apply shape_now; [|eapply grew_trans; [apply grew_part|apply grew_app]].
    apply (parts_ok st b [PubO (Some b)] [length (w_heap st)] f k ps); auto.
    + apply oinv_app_one; auto; try discriminate; [intros s p [(c & X)|(c & X)]; discriminate|intros y []].
    + intros i Li. simpl in *. left. lia.
    + intros j [<-|[]]. exists 0. split; [lia|discriminate].
  - (* NewSub *) destruct (is_bus b st) eqn:B; [|discriminate]. destruct (subset caps st) eqn:Su; [|discriminate]. injection H as <- <-. apply is_bus_get in B as (Hb & f & k & ps & E).
    apply shape_now; [|eapply grew_trans; [apply grew_part|apply grew_app]].
    apply (parts_ok st b [SubO caps] [length (w_heap st)] f k ps); auto.
    + apply oinv_app_one; auto; try discriminate; [intros s p [(c & X)|(c & X)]; discriminate|]. intros y J. eapply subset_in; eauto.
    + intros i Li. simpl in *. left. lia.
    + intros j [<-|[]]. exists 0. split; [lia|discriminate].
  - (* NewProv *) destruct (is_bus b st) eqn:B; [|discriminate]. destruct (subset caps st) eqn:Su; [|discriminate]. injection H as <- <-. apply is_bus_get in B as (Hb & f & k & ps & E).
    apply shape_now; [|eapply grew_trans; [apply grew_part|apply grew_app]].
    apply (parts_ok st b [SubO [S (S (length (w_heap st)))]; PubO (Some b); ProvO (length (w_heap st)) (S (length (w_heap st))) caps] [S (S (length (w_heap st)))] f k ps); auto.
    + apply (oinv_app_action st b _ caps); auto. intros y J. eapply subset_in; eauto.
    + intros i Li. simpl in *. destruct i as [|[|[|i]]]; [left|right; left|right; right; left|]; lia.
    + intros j [<-|[<-|[<-|[]]]]; [exists 0|exists 1|exists 2]; (split; [lia|discriminate]).
  - (* NewCons *) destruct (is_bus b st) eqn:B; [|discriminate]. injection H as <- <-. apply is_bus_get in B as (Hb & f & k & ps & E).
    apply shape_now; [|eapply grew_trans; [apply grew_part|apply grew_app]].
    apply (parts_ok st b [SubO [S (S (length (w_heap st)))]; PubO (Some b); ConsO (length (w_heap st)) (S (length (w_heap st))) []] [S (S (length (w_heap st)))] f k ps); auto.
    + apply (oinv_app_action st b _ []); auto. intros y [].
    + intros i Li. simpl in *. destruct i as [|[|[|i]]]; [right; left|left|right; right; left|]; lia.
    + intros j [<-|[<-|[<-|[]]]]; [exists 1|exists 0|exists 2]; (split; [lia|discriminate]).
  - (* Request *) destruct (holds c st) eqn:Hc; [|discriminate]. destruct (subset caps st) eqn:Su; [|discriminate]. simpl in H. apply holds_in in Hc.
    destruct (get c (w_heap st)) as [| | | |s p op|] eqn:E; try discriminate. injection H as <- <-. apply shape_now; [|apply grew_set; rewrite E; simpl; auto]. split.
    + apply oinv_set_part; auto; try rewrite E; try discriminate.
      * simpl. intros y J. rewrite concat_app, !in_app_iff in *. simpl in J. rewrite app_nil_r in J. destruct J as [J|J]; auto. right. eapply subset_in; eauto.
      * intros y J. simpl in *. rewrite concat_app in J. simpl in J. rewrite app_nil_r, !in_app_iff in *. destruct J as [J|[J|[J|J]]]; auto. right. right. right. eapply subset_in; eauto.
      * intros s' p' [(x & X)|(x & X)]; inversion X; subst. right. eauto.
    + apply settled_grow with (st := st); auto; [|apply incl_refl|].
      * intros y z J. rewrite get_list_set. destruct (Nat.eqb_spec c y) as [<-|Ne]; auto. rewrite E in J.
        destruct (Nat.ltb_spec c (length (w_heap st))) as [_|G]; [|exfalso; assert (c < length (w_heap st)) by (apply get_live; congruence); lia].
        simpl in *. rewrite concat_app, in_app_iff. tauto.
      * intros x D L. exfalso. rewrite get_list_set in L. destruct (Nat.eqb_spec c x) as [<-|Ne]; congruence.
  - (* Answer *) destruct (get c (w_heap st)) as [| | | |s p op|] eqn:E; try discriminate. injection H as <- <-. apply shape_settle; [|apply grew_set; rewrite E; simpl; auto].
    apply oinv_set_part; auto; try rewrite E; try discriminate.
    + right. split; intros (x & X); discriminate.
    + intros y J. apply in_or_app. left. exact (concat_del op i y J).
    + intros y [J|[J|J]]; simpl; auto. right. right. apply in_or_app. left. exact (concat_del op i y J).
    + intros s' p' [(x & X)|(x & X)]; inversion X; subst. right. eauto.
  - (* SetCallback *) destruct (holds s st) eqn:Hc; [|discriminate]. destruct (subset caps st) eqn:Su; [|discriminate]. simpl in H. apply holds_in in Hc.
    destruct (get s (w_heap st)) as [|c0| | | |] eqn:E; try discriminate. injection H as <- <-. apply shape_settle; [|apply grew_set; rewrite E; simpl; auto].
    apply oinv_set_part; auto; try rewrite E; try discriminate.
    + intros y J. apply in_or_app. right. eapply subset_in; eauto.
    + intros y J. apply in_or_app. right. eapply subset_in; eauto.
    + intros s' p' [(x & X)|(x & X)]; discriminate.
  - (* Take *) assert (exists u, In y (captures (get x (w_heap st))) /\ Some (mkOwn (w_heap st) (w_held st ++ [y]), u) = Some (st', r)) as (u & Hc & H').
    { destruct (get x (w_heap st)); try discriminate; simpl in *;
        match type of H with (if ?m then _ else _) = _ => destruct m eqn:M; [|discriminate] end; apply mem_in in M; eauto. }
    injection H' as <- <-. apply shape_now; [|apply grew_refl]. split; [|now apply settled_hold]. apply oinv_hold; auto.
    + apply (oi_ref _ I). right. exists x. now apply captures_refs.
    + intros a s p A. destruct (oi_priv _ I _ _ _ A) as (_ & _ & _ & _ & F). destruct (F x). split; intros ->; auto.
  - (* Reset *) destruct (holds x st) eqn:Hx; [|discriminate]. apply holds_in in Hx.
    destruct (get x (w_heap st)) as [|c0|f0|s p c0|s p op|] eqn:E; try discriminate; injection H as <- <-; try (apply shape_now; [auto|apply grew_refl]; fail).
    + apply shape_settle; [|apply grew_set; rewrite E; simpl; auto]. apply oinv_set_part; auto; try rewrite E; try discriminate; try solve [intros y []]. intros s' p' [(z & X)|(z & X)]; discriminate.
    + assert (x < length (w_heap st)) as Lx by (apply get_live; congruence). apply shape_now; [|apply grew_set; rewrite E; simpl; auto]. split.
      * apply oinv_set_part; auto; try rewrite E; try discriminate; try solve [intros y []]. intros s' p' [(z & X)|(z & X)]; discriminate.
      * apply settled_grow with (st := st); auto; [|apply incl_refl|].
        -- intros y z J. rewrite get_list_set. destruct (Nat.eqb_spec x y) as [<-|Ne]; auto. rewrite E in J. contradiction.
        -- intros z D L. exfalso. rewrite get_list_set in L. destruct (Nat.eqb_spec x z) as [<-|Ne]; congruence.
    + apply shape_settle; [|apply grew_set; rewrite E; simpl; auto]. apply oinv_set_part; auto; try rewrite E; try discriminate; try solve [intros y []].
      * simpl. intros y [J|[J|[]]]; subst; simpl; auto.
      * intros s' p' [(z & X)|(z & X)]; inversion X; subst. left. eauto.
  - (* DeleteSub *) destruct (is_bus b st) eqn:B; [|discriminate]. destruct (holds s st) eqn:Hs; [|discriminate]. simpl in H. apply holds_in in Hs. apply is_bus_get in B as (Hb & f & k & ps & E).
    rewrite E in H. destruct (get s (w_heap st)) as [|c0| | | |] eqn:Es; try discriminate. injection H as <- <-.
    assert (b <> s) as Nbs by (intros ->; congruence).
    apply shape_settle; [|eapply grew_trans; apply grew_set; [rewrite E; simpl; auto using incl_refl|rewrite get_list_set; destruct (Nat.eqb_spec b s); [congruence|]; rewrite Es; simpl; auto]].
    assert (b < length (w_heap st)) as Lb by (apply get_live; congruence).
    assert (oinv (mkOwn (list_set b (BusO f k (remove_all s ps)) (w_heap st)) (w_held st))) as I1.
    { apply oinv_set; auto; try rewrite E; try discriminate.
      - intros y J. apply (oi_ref _ I). right. exists b. rewrite E. simpl in *. rewrite in_app_iff in *. destruct J as [J|J]; auto. right. eapply remove_all_incl; eauto.
      - intros y [].
      - intros s' p' [(z & X)|(z & X)]; discriminate.
      - intros f' k' ps' X. injection X as <- <- <-. eexists. split; [reflexivity|]. intros y J. apply (oi_up _ I _ _ _ _ _ E). apply in_or_app. right. eapply remove_all_incl; eauto.
      - intros f' k' ps' X. injection X as <- <- <-. eauto. }
    assert (get s (list_set b (BusO f k (remove_all s ps)) (w_heap st)) = SubO c0) as Es1.
    { rewrite get_list_set. destruct (Nat.eqb_spec b s) as [->|]; auto. congruence. }
    apply (oinv_set_part (mkOwn (list_set b (BusO f k (remove_all s ps)) (w_heap st)) (w_held st)) s (SubO [])); simpl; try rewrite Es1; try discriminate; auto; try solve [intros y []].
    intros s' p' [(z & X)|(z & X)]; discriminate.
  - (* DeletePub *) destruct (is_bus b st) eqn:B; [|discriminate]. destruct (holds p st) eqn:Hs; [|discriminate]. simpl in H. apply holds_in in Hs. apply is_bus_get in B as (Hb & f & k & ps & E).
    rewrite E in H. destruct (get p (w_heap st)) as [| |c0| | |] eqn:Es; try discriminate. injection H as <- <-.
    assert (b <> p) as Nbs by (intros ->; congruence).
    apply shape_settle; [|eapply grew_trans; apply grew_set; [rewrite E; simpl; auto using incl_refl|rewrite get_list_set; destruct (Nat.eqb_spec b p); [congruence|]; rewrite Es; simpl; auto]].
    assert (b < length (w_heap st)) as Lb by (apply get_live; congruence).
    assert (oinv (mkOwn (list_set b (BusO f k (remove_all p ps)) (w_heap st)) (w_held st))) as I1.
    { apply oinv_set; auto; try rewrite E; try discriminate.
      - intros y J. apply (oi_ref _ I). right. exists b. rewrite E. simpl in *. rewrite in_app_iff in *. destruct J as [J|J]; auto. right. eapply remove_all_incl; eauto.
      - intros y [].
      - intros s' p' [(z & X)|(z & X)]; discriminate.
      - intros f' k' ps' X. injection X as <- <- <-. eexists. split; [reflexivity|]. intros y J. apply (oi_up _ I _ _ _ _ _ E). apply in_or_app. right. eapply remove_all_incl; eauto.
      - intros f' k' ps' X. injection X as <- <- <-. eauto. }
    assert (get p (list_set b (BusO f k (remove_all p ps)) (w_heap st)) = PubO c0) as Es1.
    { rewrite get_list_set. destruct (Nat.eqb_spec b p) as [->|]; auto. congruence. }
    apply (oinv_set_part (mkOwn (list_set b (BusO f k (remove_all p ps)) (w_heap st)) (w_held st)) p (PubO None)); simpl; try rewrite Es1; try discriminate; auto; try solve [intros y []].
    intros s' p' [(z & X)|(z & X)]; discriminate.
  - (* Detach *) destruct (is_bus b st); [|discriminate]. injection H as <- <-. apply shape_now; [now apply oinv_detach|]. apply grew_weaker. destruct (detach_spec (length (w_heap st)) b (w_heap st) (oi_upward _ I)) as (W & _); [lia|auto].
  - destruct (is_bus b st); [|discriminate]. injection H as <- <-. apply shape_now; [auto|apply grew_refl].
  - destruct (holds p st); [|discriminate]. destruct (get p (w_heap st)); try discriminate. injection H as <- <-. apply shape_now; [auto|apply grew_refl].
  - destruct (holds a st); [|discriminate]. destruct (get a (w_heap st)); try discriminate. injection H as <- <-. apply shape_now; [auto|apply grew_refl].
  - (* Copy *) destruct (holds x st) eqn:Hx; [|discriminate]. apply holds_in in Hx. injection H as <- <-. apply shape_now; [|apply grew_refl]. split; [|now apply settled_hold].
    apply oinv_hold; auto. now apply held_public.
  - (* Drop *) destruct (holds x st) eqn:Hx; [|discriminate]. injection H as <- <-. apply shape_settle; [|apply grew_refl]. apply oinv_less; auto. apply remove1_incl.
Qed.

Lemma ostep_ok o st st' r : ostep o st = Some (st', r) -> oinv st -> settled st -> oinv st' /\ settled st'.
Proof. intros H I Sd. destruct (ostep_shape _ _ _ _ H I Sd) as (st1 & I1 & _ & [(-> & S1)| ->]); auto. now apply settle_ok. Qed.

Lemma oinv0 : oinv own0 /\ settled own0.
Proof.
  split.
  - constructor; simpl.
    + intros x [[]|(y & J)]. unfold get in J. destruct y; contradiction.
    + intros x f k ps y E. unfold get in E. destruct x; discriminate.
    + intros x f k ps y E. unfold get in E. destruct x; discriminate.
    + intros p f k ps y r k' ps' E. unfold get in E. destruct p; discriminate.
    + intros y r k ps E. unfold get in E. destruct y; discriminate.
    + intros a s p A. exfalso. unfold get in A. destruct a; eapply not_action_dead; eauto.
  - intros x L. unfold get in L. destruct x; contradiction.
Qed.

Lemma oexec_ok os : forall st st', oexec os st = Some st' -> oinv st -> settled st -> oinv st' /\ settled st'.
Proof.
  induction os as [|o os IH]; intros st st' H I Sd; simpl in H; [injection H as <-; auto|].
  destruct (ostep o st) as [(st1, r)|] eqn:E; [|discriminate]. destruct (ostep_ok _ _ _ _ E I Sd). destruct r; try discriminate; eauto.
Qed.

(** ** Over executions *)

Definition evo (h h' : list obj) : Prop :=
  length h <= length h' /\ forall x, x < length h -> get x h' = Dead \/ evl (get x h) (get x h').
Lemma evo_trans a b c : evo a b -> evo b c -> evo a c.
Proof.
  intros (L1 & H1) (L2 & H2). split; [lia|]. intros x Lx. destruct (H2 x) as [->|E2]; [lia|auto|]. destruct (H1 x Lx) as [E1|E1].
  - rewrite E1 in E2. destruct (get x c); simpl in E2; try contradiction. auto.
  - right. eapply evl_trans; eauto.
Qed.
Lemma evl_action o o' s p : evl o o' -> is_action o s p -> is_action o' s p.
Proof.
  intros E [(c & ->)|(c & ->)]; destruct o'; simpl in E; try contradiction; destruct E as (-> & ->); [left|right]; eauto.
Qed.

Lemma collect_evo n : forall st, oinv st -> evo (w_heap st) (w_heap (collect n st)) /\
  (forall a s p, is_action (get a (w_heap st)) s p -> is_action (get a (w_heap (collect n st))) s p).
Proof.
  induction n as [|n IH]; intros st I; simpl; [split; [split; auto; intros; right; apply evl_refl|auto]|].
  destruct (garbage st) as [x|] eqn:G; [|split; [split; auto; intros; right; apply evl_refl|auto]].
  pose proof (garbage_some _ _ G) as (D & NH & NR). destruct (IH _ (oinv_free _ _ I G)) as (E & A). simpl in E, A.
  destruct (free_spec st x I D) as (h1 & Ef & W & _ & _).
  assert (forall y, y <> x -> evl (get y (w_heap st)) (get y (free x (w_heap st)))) as Ev.
  { intros y Ne. rewrite Ef, get_list_set. destruct (Nat.eqb_spec x y); [congruence|].
    destruct W as (_ & W). destruct (W y) as [->|(f & k & ps & -> & ->)]; [apply evl_refl|simpl; auto using incl_refl]. }
  assert (evo (w_heap st) (free x (w_heap st))) as E0.
  { split; [rewrite Ef, list_set_length; destruct W as (-> & _); auto|]. intros y Ly. destruct (Nat.eq_dec y x) as [->|Ne]; auto.
    left. rewrite Ef, get_list_set, Nat.eqb_refl. destruct (Nat.ltb x (length h1)); auto. }
  split; [eapply evo_trans; eauto|]. intros a s p Ac. apply A. eapply evl_action; [|exact Ac]. apply Ev. intros ->.
  destruct (oi_priv _ I _ _ _ Ac) as (Es & _). apply (NR s). rewrite Es. simpl. auto.
Qed.
Lemma grew_evo h h' : grew h h' -> evo h h'.
Proof. intros (L & H). split; auto. Qed.
Lemma action_lt a s p h : is_action (get a h) s p -> a < length h.
Proof. intros A. apply get_live. intros X. rewrite X in A. eapply not_action_dead; eauto. Qed.

Lemma ostep_evo o st st' r : ostep o st = Some (st', r) -> oinv st -> settled st -> evo (w_heap st) (w_heap st') /\
  (forall a s p, is_action (get a (w_heap st)) s p -> is_action (get a (w_heap st')) s p).
Proof.
  intros H I Sd. destruct (ostep_shape _ _ _ _ H I Sd) as (st1 & I1 & G & C).
  assert (forall a s p, is_action (get a (w_heap st)) s p -> is_action (get a (w_heap st1)) s p) as A1.
  { intros a s p A. eapply evl_action; [|exact A]. apply G. eapply action_lt; eauto. }
  destruct C as [(-> & _)| ->]; [split; auto using grew_evo|].
  destruct (collect_evo (length (w_heap st1)) st1 I1) as (E & A). split; [|intros; now apply A, A1]. eapply evo_trans; [apply grew_evo; eauto|exact E].
Qed.

Lemma evo_refl h : evo h h.
Proof. split; auto. intros. right. apply evl_refl. Qed.
Lemma oexec_evo os : forall st st', oexec os st = Some st' -> oinv st -> settled st -> evo (w_heap st) (w_heap st') /\
  (forall a s p, is_action (get a (w_heap st)) s p -> is_action (get a (w_heap st')) s p).
Proof.
  induction os as [|o os IH]; intros st st' H I Sd; simpl in H; [injection H as <-; split; auto using evo_refl|].
  destruct (ostep o st) as [(st1, r)|] eqn:E; [|discriminate]. destruct (ostep_ok _ _ _ _ E I Sd) as (I1 & S1). destruct (ostep_evo _ _ _ _ E I Sd) as (E1 & A1).
  assert (oexec os st1 = Some st') as H' by (destruct r; auto; discriminate). destruct (IH _ _ H' I1 S1) as (E2 & A2). split; [eapply evo_trans; eauto|auto].
Qed.
Lemma oexec_app os1 os2 st : oexec (os1 ++ os2) st = match oexec os1 st with Some st1 => oexec os2 st1 | None => None end.
Proof. revert st. induction os1 as [|o os IH]; intros st; simpl; auto. destruct (ostep o st) as [(st1, [])|]; auto. Qed.

(** ** The function of a publisher *)

Lemma detach_pub n : forall x h p f, get p h = PubO f -> get p (detach n x h) = PubO f.
Proof.
  induction n as [|n IH]; intros x h p f E; simpl; auto. destruct (get x h) as [g k ps| | | | |] eqn:Ex; auto.
  assert (get p (list_set x (BusO None k ps) h) = PubO f) as E1. { rewrite get_list_set. destruct (Nat.eqb_spec x p) as [->|]; [congruence|auto]. }
  revert E1. generalize (list_set x (BusO None k ps) h). clear -IH. induction k as [|z k IHk]; intros h E; simpl; auto.
Qed.
Lemma free_pub x h p f : get p h = PubO f -> get p (free x h) = Dead \/ get p (free x h) = PubO f.
Proof.
  intros E. unfold free. rewrite get_list_set. destruct (Nat.eqb x p); [left; destruct (Nat.ltb _ _); auto|]. right.
  destruct (get x h) as [g k ps| | | | |]; auto. generalize (length h). intros n. revert h E. induction k as [|z k IHk]; intros h E; simpl; auto.
  apply IHk. now apply detach_pub.
Qed.
Lemma free_dead x h p : get p h = Dead -> get p (free x h) = Dead.
Proof.
  intros E. unfold free. rewrite get_list_set. destruct (Nat.eqb x p); [destruct (Nat.ltb _ _); auto|].
  assert (forall n y h', get p h' = Dead -> get p (detach n y h') = Dead) as Dt.
  { clear. induction n as [|n IH]; intros y h' E; simpl; auto. destruct (get y h') as [g k ps| | | | |] eqn:Ey; auto.
    assert (get p (list_set y (BusO None k ps) h') = Dead) as E1. { rewrite get_list_set. destruct (Nat.eqb_spec y p) as [->|]; [congruence|auto]. }
    revert E1. generalize (list_set y (BusO None k ps) h'). clear -IH. induction k as [|z k IHk]; intros h E; simpl; auto. }
  destruct (get x h) as [g k ps| | | | |]; auto. generalize (length h). intros n. revert h E. induction k as [|z k IHk]; intros h E; simpl; auto.
Qed.
Lemma collect_pub n : forall st p f, get p (w_heap st) = PubO f ->
  get p (w_heap (collect n st)) = Dead \/ get p (w_heap (collect n st)) = PubO f.
Proof.
  assert (forall n st p, get p (w_heap st) = Dead -> get p (w_heap (collect n st)) = Dead) as Cd.
  { clear. induction n as [|n IH]; intros st p E; simpl; auto. destruct (garbage st); auto. apply IH. simpl. now apply free_dead. }
  induction n as [|n IH]; intros st p f E; simpl; auto. destruct (garbage st) as [x|]; auto. destruct (free_pub x _ _ _ E) as [D|D]; [left; now apply Cd|]. now apply IH.
Qed.

Definition touches (o : oop) (p : nat) : Prop := o = Reset p \/ exists b, o = DeletePub b p.
Lemma ostep_pub o st st' r p f : ostep o st = Some (st', r) -> get p (w_heap st) = PubO f -> ~ touches o p ->
  get p (w_heap st') = Dead \/ get p (w_heap st') = PubO f.
Proof.
  intros H E NT. assert (p < length (w_heap st)) as Lp by (apply get_live; congruence).
  assert (forall l o' y, (forall g, get y (w_heap st) <> PubO g) -> get p (list_set y o' (w_heap st) ++ l) = PubO f) as Ls.
  { intros l o' y N. rewrite get_app1 by now rewrite list_set_length. rewrite get_list_set. destruct (Nat.eqb_spec y p) as [->|]; auto. exfalso. eapply N; eauto. }
  assert (forall o' y, (forall g, get y (w_heap st) <> PubO g) -> get p (list_set y o' (w_heap st)) = PubO f) as Ls0.
  { intros o' y N. specialize (Ls [] o' y N). now rewrite app_nil_r in Ls. }
  assert (forall l, get p (w_heap st ++ l) = PubO f) as La by (intros l; rewrite get_app1; auto).
  assert (forall b l l', get p (add_part b l (w_heap st) ++ l') = PubO f) as Lp'.
  { intros b l l'. unfold add_part. destruct (get b (w_heap st)) eqn:Eb; auto. apply Ls. congruence. }
  destruct o as [|b|b k|b|b caps|b caps|b|c caps|c i|s caps|x y|x|b s|b q|b|b|q|a|x|x]; simpl in H.
  - injection H as <- <-. simpl. auto.
  - destruct (is_bus b st); [|discriminate]. destruct (get b (w_heap st)) as [[r0|] k ps| | | | |] eqn:Eb; injection H as <- <-; auto. right. apply Ls. congruence.
  - destruct (is_bus b st); [|discriminate]. destruct (get b (w_heap st)); try discriminate. destruct (mem k kids); injection H as <- <-; auto.
  - destruct (is_bus b st); [|discriminate]. injection H as <- <-. simpl. auto.
  - destruct (is_bus b st && subset caps st); [|discriminate]. injection H as <- <-. simpl. auto.
  - destruct (is_bus b st && subset caps st); [|discriminate]. injection H as <- <-. simpl. auto.
  - destruct (is_bus b st); [|discriminate]. injection H as <- <-. simpl. auto.
  - destruct (holds c st && subset caps st); [|discriminate]. destruct (get c (w_heap st)) eqn:Ec; try discriminate. injection H as <- <-. right. apply Ls0. congruence.
  - destruct (get c (w_heap st)) eqn:Ec; try discriminate. injection H as <- <-. apply collect_pub. apply Ls0. congruence.
  - destruct (holds s st && subset caps st); [|discriminate]. destruct (get s (w_heap st)) eqn:Ec; try discriminate. injection H as <- <-. apply collect_pub. apply Ls0. congruence.
  - match type of H with (if ?m then _ else _) = _ => destruct m; [|discriminate] end. injection H as <- <-. auto.
  - destruct (holds x st); [|discriminate]. destruct (get x (w_heap st)) eqn:Ex; try discriminate; injection H as <- <-; auto.
    + apply collect_pub. apply Ls0. congruence.
    + right. simpl. rewrite get_list_set. destruct (Nat.eqb_spec x p) as [->|]; auto. exfalso. apply NT. left. reflexivity.
    + apply collect_pub. apply Ls0. congruence.
  - destruct (is_bus b st && holds s st); [|discriminate]. destruct (get b (w_heap st)) eqn:Eb; try discriminate. destruct (get s (w_heap st)) eqn:Es; try discriminate.
    injection H as <- <-. apply collect_pub. simpl. rewrite get_list_set. destruct (Nat.eqb_spec s p) as [->|]; [congruence|]. apply Ls0. congruence.
  - destruct (is_bus b st && holds q st); [|discriminate]. destruct (get b (w_heap st)) eqn:Eb; try discriminate. destruct (get q (w_heap st)) eqn:Es; try discriminate.
    injection H as <- <-. apply collect_pub. simpl. rewrite get_list_set. destruct (Nat.eqb_spec q p) as [->|]; [exfalso; apply NT; right; eauto|]. apply Ls0. congruence.
  - destruct (is_bus b st); [|discriminate]. injection H as <- <-. right. now apply detach_pub.
  - destruct (is_bus b st); [|discriminate]. injection H as <- <-. auto.
  - destruct (holds q st); [|discriminate]. destruct (get q (w_heap st)); try discriminate. injection H as <- <-. auto.
  - destruct (holds a st); [|discriminate]. destruct (get a (w_heap st)); try discriminate. injection H as <- <-. auto.
  - destruct (holds x st); [|discriminate]. injection H as <- <-. auto.
  - destruct (holds x st); [|discriminate]. injection H as <- <-. now apply collect_pub.
Qed.
Lemma ostep_touch o st st' r p f : ostep o st = Some (st', r) -> get p (w_heap st) = PubO f -> touches o p ->
  get p (w_heap st') = Dead \/ get p (w_heap st') = PubO None.
Proof.
  intros H E T. assert (p < length (w_heap st)) as Lp by (apply get_live; congruence). destruct T as [->|(b & ->)]; simpl in H.
  - destruct (holds p st); [|discriminate]. rewrite E in H. injection H as <- <-. right. simpl. rewrite get_list_set, Nat.eqb_refl. destruct (Nat.ltb_spec p (length (w_heap st))); [auto|lia].
  - destruct (is_bus b st && holds p st); [|discriminate]. destruct (get b (w_heap st)) eqn:Eb; try discriminate. rewrite E in H. injection H as <- <-.
    apply collect_pub. simpl. rewrite get_list_set, Nat.eqb_refl, list_set_length. destruct (Nat.ltb_spec p (length (w_heap st))); [auto|lia].
Qed.

Definition touch (os : list oop) (p : nat) : Prop := exists o, In o os /\ touches o p.
Lemma touches_dec o p : touches o p \/ ~ touches o p.
Proof.
  destruct o as [| | | | | | | | | | |x| |b q| | | | | |]; try (right; intros [X|(b' & X)]; discriminate).
  - destruct (Nat.eq_dec x p) as [->|N]; [left; now left|right; intros [X|(b' & X)]; congruence].
  - destruct (Nat.eq_dec q p) as [->|N]; [left; right; eauto|right; intros [X|(b' & X)]; congruence].
Qed.
Lemma evo_dead h h' x : evo h h' -> x < length h -> get x h = Dead -> get x h' = Dead.
Proof. intros (_ & H) L E. destruct (H x L) as [D|D]; auto. rewrite E in D. destruct (get x h'); simpl in D; try contradiction. auto. Qed.
Lemma oexec_pub os : forall st st' p f, oexec os st = Some st' -> oinv st -> settled st -> get p (w_heap st) = PubO f -> get p (w_heap st') <> Dead ->
  (touch os p -> get p (w_heap st') = PubO None) /\ (~ touch os p -> get p (w_heap st') = PubO f).
Proof.
  induction os as [|o os IH]; intros st st' p f H I Sd E L; simpl in H.
  - injection H as <-. split; auto. intros (o & [] & _).
  - destruct (ostep o st) as [(st1, r)|] eqn:Eo; [|discriminate]. destruct (ostep_ok _ _ _ _ Eo I Sd) as (I1 & S1).
    assert (oexec os st1 = Some st') as H' by (destruct r; auto; discriminate). destruct (oexec_evo _ _ _ H' I1 S1) as (Ev & _).
    destruct (ostep_evo _ _ _ _ Eo I Sd) as ((Le & _) & _).
    assert (p < length (w_heap st)) as Lp by (apply get_live; congruence).
    assert (get p (w_heap st1) <> Dead) as L1 by (intros D; apply L; eapply evo_dead; eauto; lia).
    destruct (touches_dec o p) as [T|T].
    + destruct (ostep_touch _ _ _ _ _ _ Eo E T) as [D|E1]; [contradiction|]. destruct (IH _ _ _ _ H' I1 S1 E1 L) as (A & B). split.
      * intros _. destruct (Ev) as (_ & Ev'). destruct (Ev' p) as [D|D]; [lia|contradiction|]. rewrite E1 in D.
        destruct (get p (w_heap st')); simpl in D; try contradiction. destruct D; subst; auto.
      * intros N. exfalso. apply N. exists o. split; simpl; auto.
    + destruct (ostep_pub _ _ _ _ _ _ Eo E T) as [D|E1]; [contradiction|]. destruct (IH _ _ _ _ H' I1 S1 E1 L) as (A & B). split.
      * intros (o' & [<-|J] & T'); [contradiction|]. apply A. exists o'. auto.
      * intros N. apply B. intros (o' & J & T'). apply N. exists o'. simpl. auto.
Qed.
(** The publisher of an action cannot be touched. *)
Lemma oexec_action_pub os : forall st st' a s p b, oexec os st = Some st' -> oinv st -> settled st ->
  is_action (get a (w_heap st)) s p -> get p (w_heap st) = PubO (Some b) -> is_action (get a (w_heap st')) s p /\ get p (w_heap st') = PubO (Some b).
Proof.
  induction os as [|o os IH]; intros st st' a s p b H I Sd A E; simpl in H; [injection H as <-; auto|].
  destruct (ostep o st) as [(st1, r)|] eqn:Eo; [|discriminate]. destruct (ostep_ok _ _ _ _ Eo I Sd) as (I1 & S1).
  assert (oexec os st1 = Some st') as H' by (destruct r; auto; discriminate).
  destruct (ostep_evo _ _ _ _ Eo I Sd) as (_ & A1). specialize (A1 _ _ _ A). eapply IH; eauto.
  destruct (oi_priv _ I1 _ _ _ A1) as (_ & (b1 & E1) & _).
  assert (~ touches o p) as NT.
  { destruct (oi_priv _ I _ _ _ A) as (_ & _ & _ & NH & _). intros [->|(b' & ->)]; simpl in Eo.
    - destruct (holds p st) eqn:Hp; [apply holds_in in Hp; contradiction|discriminate].
    - destruct (is_bus b' st && holds p st) eqn:Hp; [|discriminate]. apply andb_prop in Hp as (_ & Hp). apply holds_in in Hp. contradiction. }
  destruct (ostep_pub _ _ _ _ _ _ Eo E NT) as [D|D]; congruence.
Qed.

(** ** The root of a live bus is live *)
Lemma root_live st : oinv st -> forall b r k ps, get b (w_heap st) = BusO (Some r) k ps -> get r (w_heap st) <> Dead.
Proof.
  intros I. induction b as [b IH] using (well_founded_induction lt_wf). intros r k ps E. destruct (oi_par _ I _ _ _ _ E) as [<-|(p & f & k' & ps' & Ep & J)]; [congruence|].
  pose proof (oi_fn _ I _ _ _ _ _ _ _ _ Ep J E) as ->. eapply IH; [|exact Ep]. apply (oi_up _ I _ _ _ _ _ Ep). apply in_or_app. auto.
Qed.
Lemma publish_bus_spec st b : oinv st -> (publish_bus (w_heap st) b = Undef <-> ~ exists f k ps, get b (w_heap st) = BusO f k ps).
Proof.
  intros I. unfold publish_bus. destruct (get b (w_heap st)) as [[r|] k ps| | | | |] eqn:E; try (split; [intros _ (f & k' & ps' & X); discriminate|reflexivity]).
  - pose proof (root_live _ I _ _ _ _ E) as L. apply allocated_get in L. rewrite L. split; [discriminate|]. intros N. exfalso. eauto.
  - split; [discriminate|]. intros N. exfalso. eauto.
Qed.

(** ** What callbacks captured *)

(** Calls that let go of what a callback of [x] captured. *)
Definition releases (o : oop) (x : nat) : Prop :=
  (exists i, o = Answer x i) \/ (exists caps, o = SetCallback x caps) \/ o = Reset x \/ (exists b, o = DeleteSub b x).
Lemma captures_app x h l : get x h <> Dead -> captures (get x (h ++ l)) = captures (get x h).
Proof. intros L. rewrite get_app1; auto. now apply get_live. Qed.
Lemma captures_set_other x y o h : x <> y -> captures (get x (list_set y o h)) = captures (get x h).
Proof. intros N. rewrite get_list_set. destruct (Nat.eqb_spec y x); congruence. Qed.
Lemma captures_set_bus x b o h f k ps : get b h = BusO f k ps -> captures o = [] -> incl (captures (get x h)) (captures (get x (list_set b o h))).
Proof. intros E C. destruct (Nat.eq_dec x b) as [->|N]; [rewrite E; intros z []|rewrite captures_set_other by auto; apply incl_refl]. Qed.
Lemma captures_detach n : forall b h x, incl (captures (get x h)) (captures (get x (detach n b h))).
Proof.
  induction n as [|n IH]; intros b h x; simpl; [apply incl_refl|]. destruct (get b h) as [f k ps| | | | |] eqn:E; try apply incl_refl.
  eapply incl_tran; [apply (captures_set_bus x b (BusO None k ps) h f k ps E); reflexivity|]. generalize (list_set b (BusO None k ps) h). clear -IH.
  induction k as [|z k IHk]; intros h; simpl; [apply incl_refl|]. eapply incl_tran; [|apply IHk]. apply IH.
Qed.
Lemma part_captures x b l l' h : get x h <> Dead -> incl (captures (get x h)) (captures (get x (add_part b l h ++ l'))).
Proof.
  intros L. unfold add_part. destruct (get b h) as [f k ps| | | | |] eqn:E; try (rewrite captures_app by auto; apply incl_refl).
  rewrite get_app1 by (rewrite list_set_length; now apply get_live). eapply captures_set_bus; eauto.
Qed.

Lemma free_captures x y h : y <> x -> incl (captures (get y h)) (captures (get y (free x h))).
Proof.
  intros Ne. unfold free. rewrite captures_set_other by auto. destruct (get x h) as [f k ps| | | | |]; try apply incl_refl.
  generalize (length h). intros n. revert h. induction k as [|z k IHk]; intros h; simpl; [apply incl_refl|]. eapply incl_tran; [|apply IHk]. apply captures_detach.
Qed.
Lemma free_self x h : get x (free x h) = Dead.
Proof. unfold free. rewrite get_list_set, Nat.eqb_refl. now destruct (Nat.ltb _ _). Qed.
Lemma collect_dead n : forall st p, get p (w_heap st) = Dead -> get p (w_heap (collect n st)) = Dead.
Proof. induction n as [|n IH]; intros st p E; simpl; auto. destruct (garbage st); auto. apply IH. simpl. now apply free_dead. Qed.
Lemma collect_captures n : forall st y, get y (w_heap (collect n st)) <> Dead ->
  incl (captures (get y (w_heap st))) (captures (get y (w_heap (collect n st)))).
Proof.
  induction n as [|n IH]; intros st y L; simpl in *; [apply incl_refl|]. destruct (garbage st) as [x|]; [|apply incl_refl].
  destruct (Nat.eq_dec y x) as [->|Ne]; [exfalso; apply L; apply collect_dead; simpl; apply free_self|].
  eapply incl_tran; [exact (free_captures x y (w_heap st) Ne)|]. exact (IH (mkOwn (free x (w_heap st)) (w_held st)) y L).
Qed.

Lemma ostep_captures o st st' r x : ostep o st = Some (st', r) -> get x (w_heap st) <> Dead -> get x (w_heap st') <> Dead -> ~ releases o x ->
  incl (captures (get x (w_heap st))) (captures (get x (w_heap st'))).
Proof.
  intros H L0 L NR. assert (x < length (w_heap st)) as Lx by now apply get_live.
  assert (forall h held, get x (w_heap (settle (mkOwn h held))) <> Dead -> incl (captures (get x (w_heap st))) (captures (get x h)) ->
    incl (captures (get x (w_heap st))) (captures (get x (w_heap (settle (mkOwn h held)))))) as Se.
  { intros h held D In. eapply incl_tran; [exact In|]. now apply (collect_captures _ (mkOwn h held)). }
  assert (forall y o', x <> y -> incl (captures (get x (w_heap st))) (captures (get x (list_set y o' (w_heap st))))) as So.
  { intros y o' N. rewrite captures_set_other by auto. apply incl_refl. }
  destruct o as [|b|b k|b|b caps|b caps|b|c caps|c i|s caps|y z|y|b s|b q|b|b|q|a|y|y]; simpl in H.
  - injection H as <- <-. simpl. rewrite captures_app by auto. apply incl_refl.
  - destruct (is_bus b st); [|discriminate]. destruct (get b (w_heap st)) as [[r0|] k ps| | | | |] eqn:Eb; injection H as <- <-; try apply incl_refl.
    simpl. rewrite get_app1 by (rewrite list_set_length; auto). eapply captures_set_bus; eauto.
  - destruct (is_bus b st); [|discriminate]. destruct (get b (w_heap st)); try discriminate. destruct (mem k kids); injection H as <- <-; apply incl_refl.
  - destruct (is_bus b st); [|discriminate]. injection H as <- <-. now apply part_captures.
  - destruct (is_bus b st && subset caps st); [|discriminate]. injection H as <- <-. now apply part_captures.
  - destruct (is_bus b st && subset caps st); [|discriminate]. injection H as <- <-. now apply part_captures.
  - destruct (is_bus b st); [|discriminate]. injection H as <- <-. now apply part_captures.
  - destruct (holds c st && subset caps st); [|discriminate]. destruct (get c (w_heap st)) as [| | | |s p op|] eqn:Ec; try discriminate. injection H as <- <-. simpl.
    destruct (Nat.eq_dec x c) as [->|N]; [|now apply So]. rewrite get_list_set, Nat.eqb_refl, Ec. destruct (Nat.ltb_spec c (length (w_heap st))); [|lia].
    simpl. rewrite concat_app. apply incl_appl, incl_refl.
  - destruct (get c (w_heap st)) as [| | | |s p op|] eqn:Ec; try discriminate. injection H as <- <-. apply Se; auto. apply So. intros ->. apply NR. left. eauto.
  - destruct (holds s st && subset caps st); [|discriminate]. destruct (get s (w_heap st)) eqn:Ec; try discriminate. injection H as <- <-. apply Se; auto. apply So.
    intros ->. apply NR. right. left. eauto.
  - match type of H with (if ?m then _ else _) = _ => destruct m; [|discriminate] end. injection H as <- <-. apply incl_refl.
  - assert (x <> y) as N by (intros ->; apply NR; right; right; left; reflexivity).
    destruct (holds y st); [|discriminate]. destruct (get y (w_heap st)) eqn:Ex; try discriminate; injection H as <- <-; [apply Se; auto|simpl; auto|apply Se; auto|apply incl_refl].
  - destruct (is_bus b st && holds s st); [|discriminate]. destruct (get b (w_heap st)) eqn:Eb; try discriminate. destruct (get s (w_heap st)) eqn:Es; try discriminate.
    injection H as <- <-. apply Se; auto. rewrite captures_set_other by (intros ->; apply NR; right; right; right; eauto). eapply captures_set_bus; eauto.
  - destruct (is_bus b st && holds q st); [|discriminate]. destruct (get b (w_heap st)) eqn:Eb; try discriminate. destruct (get q (w_heap st)) eqn:Es; try discriminate.
    injection H as <- <-. apply Se; auto. destruct (Nat.eq_dec x q) as [->|N]; [rewrite Es; intros z []|]. rewrite captures_set_other by auto. eapply captures_set_bus; eauto.
  - destruct (is_bus b st); [|discriminate]. injection H as <- <-. apply captures_detach.
  - destruct (is_bus b st); [|discriminate]. injection H as <- <-. apply incl_refl.
  - destruct (holds q st); [|discriminate]. destruct (get q (w_heap st)); try discriminate. injection H as <- <-. apply incl_refl.
  - destruct (holds a st); [|discriminate]. destruct (get a (w_heap st)); try discriminate. injection H as <- <-. apply incl_refl.
  - destruct (holds y st); [|discriminate]. injection H as <- <-. apply incl_refl.
  - destruct (holds y st); [|discriminate]. injection H as <- <-. apply Se; auto. apply incl_refl.
Qed.
Lemma oexec_captures os : forall st st' x, oexec os st = Some st' -> oinv st -> settled st -> get x (w_heap st) <> Dead -> get x (w_heap st') <> Dead ->
  (forall o, In o os -> ~ releases o x) -> incl (captures (get x (w_heap st))) (captures (get x (w_heap st'))).
Proof.
  induction os as [|o os IH]; intros st st' x H I Sd L0 L NR; simpl in H; [injection H as <-; apply incl_refl|].
  destruct (ostep o st) as [(st1, r)|] eqn:E; [|discriminate]. destruct (ostep_ok _ _ _ _ E I Sd) as (I1 & S1). destruct (ostep_evo _ _ _ _ E I Sd) as ((Le & _) & _).
  assert (oexec os st1 = Some st') as H' by (destruct r; auto; discriminate). destruct (oexec_evo _ _ _ H' I1 S1) as (Ev & _).
  assert (x < length (w_heap st)) by now apply get_live.
  assert (get x (w_heap st1) <> Dead) as L1 by (intros D; apply L; eapply evo_dead; eauto; lia).
  eapply incl_tran; [apply (ostep_captures _ _ _ _ _ E); auto; apply NR; simpl; auto|]. apply IH; auto. intros o' J. apply NR. simpl. auto.
Qed.

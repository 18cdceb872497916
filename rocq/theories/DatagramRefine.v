(** Refinement of heap statements to tree statements. *)
From Coq Require Import String Ascii List Arith ZArith NArith Bool Lia Sorting.
From Verif Require Import Prelude OMap DatagramModel DatagramSpec DatagramHeap DatagramProofs DatagramEq DatagramStmt.
Import ListNotations.
Open Scope list_scope.

(** ** Splitting sorted maps *)

Lemma oinsert_new_split {V W} k (m : omap V) (n : omap W) :
  okeys m = okeys n -> olookup k m = None ->
  exists m1 m2 n1 n2, m = m1 ++ m2 /\ n = n1 ++ n2 /\ okeys m1 = okeys n1 /\ okeys m2 = okeys n2 /\
    (forall v, oinsert k v m = m1 ++ (k, v) :: m2) /\ (forall w, oinsert k w n = n1 ++ (k, w) :: n2).
Proof.
  unfold okeys. revert n. induction m as [|[k0 v0] m IH]; intros [|[k1 w0] n] Hk HL; try discriminate.
  - exists [], [], [], []. simpl. repeat split; auto.
  - injection Hk as -> Hk. simpl in HL. destruct (String.eqb_spec k k1) as [|Hne]; [discriminate|].
    destruct (String.compare k k1) eqn:E.
    + apply scompare_eq in E. congruence.
    + exists [], ((k1, v0) :: m), [], ((k1, w0) :: n). simpl. rewrite E. repeat split; auto. simpl. f_equal; auto.
    + destruct (IH n Hk HL) as (m1 & m2 & n1 & n2 & -> & -> & H1 & H2 & H3 & H4).
      exists ((k1, v0) :: m1), m2, ((k1, w0) :: n1), n2. simpl. rewrite E.
      repeat split; auto; try (simpl; f_equal; auto; fail).
      * intros v. now rewrite H3.
      * intros w. now rewrite H4.
Qed.

Lemma olookup_split {V W} k (m : omap V) (n : omap W) v0 :
  osorted m -> okeys m = okeys n -> olookup k m = Some v0 ->
  exists m1 m2 n1 n2 w0, m = m1 ++ (k, v0) :: m2 /\ n = n1 ++ (k, w0) :: n2 /\
    okeys m1 = okeys n1 /\ okeys m2 = okeys n2 /\ olookup k n = Some w0 /\
    (forall v, oinsert k v m = m1 ++ (k, v) :: m2) /\ (forall w, oinsert k w n = n1 ++ (k, w) :: n2).
Proof.
  unfold okeys. revert n. induction m as [|[k0 x0] m IH]; intros [|[k1 w0] n] Hs Hk HL; try discriminate.
  injection Hk as -> Hk. simpl in HL. destruct (String.eqb_spec k k1) as [->|Hne].
  - injection HL as ->. exists [], m, [], n, w0. simpl. rewrite scompare_refl, String.eqb_refl. repeat split; auto.
  - assert (Hgt : String.compare k k1 = Gt).
    { apply scompare_gt. unfold osorted in Hs; simpl in Hs. apply StronglySorted_inv in Hs. destruct Hs as [_ Hf].
      rewrite Forall_forall in Hf. apply Hf. apply olookup_some_iff_key. congruence. }
    destruct (IH n (osorted_tail _ _ Hs) Hk HL) as (m1 & m2 & n1 & n2 & w1 & -> & -> & H1 & H2 & HL' & H3 & H4).
    exists ((k1, x0) :: m1), m2, ((k1, w0) :: n1), n2, w1. simpl. rewrite Hgt.
    repeat split; auto; try (simpl; f_equal; auto; fail).
    + destruct (String.eqb_spec k k1); congruence.
    + intros v. now rewrite H3.
    + intros w. now rewrite H4.
Qed.

(** ** What a step may do to the heap *)

(** Only nodes of the footprint [F] change; the new footprint [F'] consists of
    nodes of [F] and new nodes. *)
Record step_ok (h h' : heap) (F F' : list loc) : Prop := mkStepOk {
  so_len : length h <= length h';
  so_frame : forall x, x < length h -> ~ In x F -> nth_error h' x = nth_error h x;
  so_foot : forall x, In x F' -> In x F \/ length h <= x
}.

Lemma step_ok_refl h F : step_ok h h F F.
Proof. constructor; auto. Qed.

Lemma step_ok_trans h1 h2 h3 F1 F2 F3 :
  step_ok h1 h2 F1 F2 -> step_ok h2 h3 F2 F3 -> step_ok h1 h3 F1 F3.
Proof.
  intros [L1 E1 G1] [L2 E2 G2]. constructor; [lia| |].
  - intros x Hx HF. rewrite E2; [auto|lia|]. intros Hi. apply G1 in Hi. destruct Hi; [auto|lia].
  - intros x Hx. apply G2 in Hx. destruct Hx as [Hx|Hx]; [auto|right; lia].
Qed.

Lemma step_ok_set h l n F : In l F -> step_ok h (list_set l n h) F F.
Proof.
  intros Hl. constructor; auto; [now rewrite list_set_length|].
  intros x _ Hx. apply list_set_ne. intros ->. auto.
Qed.

(** ** Inverting ownership of a node seen as a dictionary or a list *)

Lemma own_node h l t F : own h l t F -> exists n, nth_error h l = Some n /\ nd_type n = dg_type t /\
   nd_val n = match t with Val d => Some d | _ => None end.
Proof. intros H; inversion H; subst; eauto. Qed.

Lemma own_as_dict h l t F :
  own h l t F -> exists m F', nth_error h l = Some (mkNode m (match t with Lst _ => nd_list (nth l h empty_node) | _ => [] end)
       (match t with Val d => Some d | _ => None end) (dg_type t)) /\
    osorted m /\ okeys m = okeys (kids_dict t) /\ owns h (map snd m) (map snd (kids_dict t)) F' /\
    (forall x, In x F' -> In x F) /\ (NoDup F -> NoDup (l :: F')) /\
    nth_error h l <> None.
Proof.
  intros H; inversion H as [? Hn|? d Hn|? ps ts F0 Hn HO|? m kvs F0 Hn Hs Hk HO]; subst; simpl.
  - exists [], []. rewrite Hn. repeat split; simpl; auto; try tauto; try congruence; repeat constructor; auto.
  - exists [], []. rewrite Hn. repeat split; simpl; auto; try tauto; try congruence; repeat constructor; auto.
  - exists [], []. assert (E : nd_list (nth l h empty_node) = ps) by (erewrite nth_error_nth by eauto; reflexivity).
    rewrite E, Hn. repeat split; simpl; auto; try tauto; try congruence; repeat constructor; auto.
  - exists m, F0. rewrite Hn. repeat split; auto; try congruence.
Qed.

Lemma NoDup_mid {A} (a b c : list A) x : NoDup (a ++ c) -> ~ In x (a ++ c) -> b = [x] -> NoDup (a ++ b ++ c).
Proof.
  intros H Hx ->. simpl. apply NoDup_Add with (a := x) (l := a ++ c); [apply Add_app|]. auto.
Qed.

Lemma in_mid {A} (a b c : list A) x : In x (a ++ b ++ c) <-> In x a \/ In x b \/ In x c.
Proof. rewrite !in_app_iff. tauto. Qed.

(** Subscript by key: the node becomes a dictionary with an entry under [k]. *)
Lemma view_key_own h l t F k :
  own h l t F -> NoDup F ->
  let kvs := kids_dict t in
  let tc := match olookup k kvs with Some u => u | None => Emp end in
  exists h1 c m1 m2 n1 n2 Fa Fc Fb,
    dg_view_key l k h = (h1, Ok c) /\
    nth_error h1 l = Some (mkNode (m1 ++ (k, Some c) :: m2) [] None TDict) /\
    osorted (m1 ++ (k, Some c) :: m2) /\
    okeys m1 = okeys n1 /\ okeys m2 = okeys n2 /\
    (forall w, oinsert k w kvs = n1 ++ (k, w) :: n2) /\
    owns h1 (map snd m1) (map snd n1) Fa /\ own h1 c tc Fc /\ owns h1 (map snd m2) (map snd n2) Fb /\
    NoDup (l :: Fa ++ Fc ++ Fb) /\ step_ok h h1 F (l :: Fa ++ Fc ++ Fb).
Proof.
  intros HO HN kvs tc.
  pose proof (own_in_head _ _ _ _ HO) as HlF.
  destruct (own_as_dict _ _ _ _ HO) as (m & F' & Hn & Hs & Hk & HOs & HF' & HN' & _).
  specialize (HN' HN). inversion HN' as [|? ? HlF' HNF']; subst.
  fold kvs in Hk, HOs.
  unfold dg_view_key. pose proof (raw_get_key_eq h l k _ Hn) as E. simpl nd_dict in E.
  pose proof (nth_lt _ _ _ Hn) as Hlt.
  destruct (olookup k m) as [p|] eqn:L.
  - (* entry present: t is a dictionary *)
    assert (Ht : exists kv, t = Dct kv).
    { destruct t as [| | |kv]; eauto; simpl in Hk; unfold kvs in *; simpl in *; destruct m; discriminate. }
    destruct Ht as [kv ->]. simpl in kvs. subst kvs.
    destruct (olookup_split k m kv p Hs Hk L) as (m1 & m2 & n1 & n2 & w0 & -> & En & K1 & K2 & L' & I1 & I2).
    unfold tc. rewrite L'. clear tc.
    assert (HOs2 := HOs). rewrite En in HOs2. rewrite !map_app in HOs2. simpl in HOs2.
    destruct (owns_split _ _ _ _ _ HOs2) as (ts1 & ts2 & Fa & F2 & Ets & EF & Hl1 & Oa & O2).
    inversion O2 as [|c ps' u us Fc Fb Oc Ob]; subst.
    assert (ts1 = map snd n1 /\ w0 = u /\ map snd n2 = us) as (-> & <- & <-).
    { apply (f_equal (@length string)) in K1. unfold okeys in K1. rewrite !map_length in K1.
      rewrite map_length in Hl1.
      assert (Hlen : length (map snd n1) = length ts1) by (rewrite map_length; congruence).
      clear - Ets Hlen. revert ts1 Ets Hlen. induction (map snd n1) as [|x l IH]; intros [|y ts1] Ets Hlen; try discriminate; simpl in *.
      - injection Ets as -> ->. auto.
      - injection Ets as -> Ets. injection Hlen as Hlen. destruct (IH _ Ets Hlen) as (-> & -> & ->). auto. }
    assert (Eh : list_set l (as_dict (mkNode (m1 ++ (k, Some c) :: m2) [] None TDict)) h = h).
    { apply list_set_same. exact Hn. }
    simpl in E. rewrite Eh in E. rewrite (bind_ok _ _ _ _ _ E).
    exists h, c, m1, m2, n1, n2, Fa, Fc, Fb. repeat split; auto.
    intros x [<-|Hx]; auto.
  - (* entry missing *)
    set (n0 := mkNode m (match t with Lst _ => nd_list (nth l h empty_node) | _ => [] end)
                 (match t with Val d => Some d | _ => None end) (dg_type t)) in *.
    assert (Ead : forall v, set_dict (oinsert k v m) (as_dict n0) = mkNode (oinsert k v m) [] None TDict).
    { intros v. unfold set_dict, as_dict, n0. destruct t; reflexivity. }
    change (nd_dict n0) with m in E. rewrite Ead in E. rewrite (bind_ok _ _ _ _ _ E).
    destruct (oinsert_new_split k m kvs Hk L) as (m1 & m2 & n1 & n2 & Em & En & K1 & K2 & I1 & I2).
    assert (L' : olookup k kvs = None).
    { apply olookup_not_in. rewrite <- Hk. intros Hi. apply olookup_some_iff_key in Hi. congruence. }
    unfold tc. rewrite L'. clear tc.
    rewrite Em, En, !map_app in HOs.
    destruct (owns_split _ _ _ _ _ HOs) as (ts1 & ts2 & Fa & Fb & Ets & EF & Hl1 & Oa & Ob).
    assert (ts1 = map snd n1 /\ ts2 = map snd n2) as [-> ->].
    { apply (f_equal (@length string)) in K1. unfold okeys in K1. rewrite !map_length in K1.
      rewrite map_length in Hl1.
      assert (Hlen : length (map snd n1) = length ts1) by (rewrite map_length; congruence).
      clear - Ets Hlen. revert ts1 Ets Hlen. induction (map snd n1) as [|x l IH]; intros [|y ts1] Ets Hlen; try discriminate; simpl in *; auto.
      injection Ets as -> Ets. injection Hlen as Hlen. destruct (IH _ Ets Hlen) as (-> & ->). auto. }
    subst F'.
    pose proof (owns_valid _ _ _ _ HOs) as V. rewrite Forall_forall in V.
    set (h1 := list_set l (mkNode (oinsert k (Some (length h)) m) [] None TDict) (h ++ [empty_node])).
    assert (Hfr : forall x, In x (Fa ++ Fb) -> nth_error h1 x = nth_error h x).
    { intros x Hx. unfold h1. rewrite list_set_ne by (intros ->; auto).
      apply nth_error_app1. apply V; auto. }
    exists h1, (length h), m1, m2, n1, n2, Fa, [length h], Fb. rewrite <- I1.
    split; [reflexivity|]. split.
    { unfold h1. apply list_set_eq. rewrite app_length; simpl; lia. }
    split; [now apply osorted_insert|]. split; [auto|]. split; [auto|]. split; [auto|].
    split; [eapply owns_frame; eauto; intros; apply Hfr, in_app_iff; auto|].
    split.
    { constructor. unfold h1. rewrite list_set_ne by lia. apply nth_error_app_new. }
    split; [eapply owns_frame; eauto; intros; apply Hfr, in_app_iff; auto|].
    split.
    { constructor.
      - rewrite in_mid. rewrite in_app_iff in HlF'. intros [Hi|[[Hi|[]]|Hi]]; try tauto. lia.
      - apply NoDup_mid with (x := length h); auto.
        intros Hi. apply V in Hi. lia. }
    constructor.
    + unfold h1. rewrite list_set_length, app_length. lia.
    + intros x Hx HxF. unfold h1. rewrite list_set_ne by (intros ->; auto). now apply nth_error_app1.
    + intros x Hx. destruct Hx as [Hx|Hx]; [subst x; auto|]. rewrite in_mid in Hx.
      destruct Hx as [Hx|[[<-|[]]|Hx]]; auto; left; apply HF', in_app_iff; auto.
Qed.

Lemma own_as_list h l t F :
  own h l t F -> exists n F', nth_error h l = Some n /\
    as_list n = mkNode [] (nd_list n) None TList /\
    owns h (nd_list n) (kids_list t) F' /\
    (forall x, In x F' -> In x F) /\ (NoDup F -> NoDup (l :: F')).
Proof.
  intros H; inversion H as [? Hn|? d Hn|? ps ts F0 Hn HO|? m kvs F0 Hn Hs Hk HO]; subst; simpl;
    eexists.
  - exists []. rewrite Hn. repeat split; simpl; auto; try tauto; repeat constructor; auto.
  - exists []. rewrite Hn. repeat split; simpl; auto; try tauto; repeat constructor; auto.
  - exists F0. rewrite Hn. repeat split; auto.
  - exists []. rewrite Hn. repeat split; simpl; auto; try tauto; repeat constructor; auto.
Qed.

(** Subscript by index. *)
Lemma view_idx_own h l t F i :
  own h l t F -> NoDup F ->
  let ts := kids_list t in
  exists h1 ps F1,
    nth_error h1 l = Some (mkNode [] ps None TList) /\
    owns h1 ps ts F1 /\ NoDup (l :: F1) /\ step_ok h h1 F (l :: F1) /\
    match nth_error ts i with
    | None => dg_view_idx l i h = (h1, Throw (IndexOutOfBounds i))
    | Some u =>
      exists c ps1 ps2 ts1 ts2 Fa Fc Fb,
        dg_view_idx l i h = (h1, Ok c) /\ ps = ps1 ++ Some c :: ps2 /\ ts = ts1 ++ u :: ts2 /\
        length ts1 = i /\ F1 = Fa ++ Fc ++ Fb /\
        owns h1 ps1 ts1 Fa /\ own h1 c u Fc /\ owns h1 ps2 ts2 Fb
    end.
Proof.
  intros HO HN ts.
  pose proof (own_in_head _ _ _ _ HO) as HlF.
  destruct (own_as_list _ _ _ _ HO) as (n & F' & Hn & Ha & HOs & HF' & HN').
  specialize (HN' HN). inversion HN' as [|? ? HlF' HNF']; subst. fold ts in HOs.
  set (h1 := list_set l (as_list n) h).
  assert (Hn1 : nth_error h1 l = Some (mkNode [] (nd_list n) None TList)).
  { rewrite <- Ha. unfold h1. eapply nth_set_eq; eauto. }
  assert (HOs1 : owns h1 (nd_list n) ts F').
  { eapply owns_frame; eauto. intros x Hx. unfold h1. apply list_set_ne. intros ->; auto. }
  exists h1, (nd_list n), F'. split; [auto|]. split; [auto|]. split; [auto|]. split.
  { constructor.
    - unfold h1. now rewrite list_set_length.
    - intros x _ Hx. unfold h1. apply list_set_ne. intros ->; auto.
    - intros x [<-|Hx]; auto. }
  unfold dg_view_idx, bind. rewrite (raw_get_idx_eq _ _ _ _ Hn). fold h1.
  destruct (nth_error ts i) as [u|] eqn:Eu.
  - destruct (nth_error (nd_list n) i) as [p|] eqn:Ep.
    2:{ apply nth_error_None in Ep. rewrite (owns_length _ _ _ _ HOs) in Ep.
        apply nth_error_None in Ep. congruence. }
    destruct (nth_error_split _ _ Ep) as (ps1 & ps2 & Eps & Hl1).
    rewrite Eps in HOs1 |- *.
    destruct (owns_split _ _ _ _ _ HOs1) as (ts1 & ts2' & Fa & F2 & Ets & EF & Hlt & Oa & O2).
    inversion O2 as [|c ps' u' us Fc Fb Oc Ob]; subst.
    assert (u' = u) as ->.
    { rewrite Ets in Eu. rewrite nth_error_app2 in Eu by lia.
      replace (length ps1 - length ts1) with 0 in Eu by lia. simpl in Eu. congruence. }
    exists c, ps1, ps2, ts1, us, Fa, Fc, Fb. repeat split; auto.
  - destruct (nth_error (nd_list n) i) as [p|] eqn:Ep; auto.
    apply nth_lt in Ep. rewrite (owns_length _ _ _ _ HOs) in Ep.
    apply nth_error_Some in Ep. congruence.
Qed.

(** ** Paths *)

Definition spec_focus (p : list sel) (t : dg) : dg * res dg := spec_at p (fun u => (u, Ok u)) t.
Definition spec_plug (p : list sel) (u : dg) (t : dg) : dg := fst (spec_at p (fun _ => (u, Ok tt)) t).

Lemma spec_at_focus {A} p (f : dg -> dg * res A) : forall t,
  match spec_focus p t with
  | (t1, Ok u) => spec_at p f t = (spec_plug p (fst (f u)) t, snd (f u)) /\ t1 = spec_plug p u t
  | (t1, Throw e) => spec_at p f t = (t1, Throw e)
  | _ => False
  end.
Proof.
  unfold spec_focus, spec_plug.
  induction p as [|[k|i] p IH]; intros t; simpl.
  - now destruct (f t).
  - specialize (IH (match olookup k (kids_dict t) with Some c => c | None => Emp end)).
    destruct (spec_at p (fun u => (u, Ok u)) _) as [t1 [u|e| |]].
    + destruct IH as [IH1 IH2]. rewrite IH1.
      destruct (spec_at p (fun _ => (fst (f u), Ok tt)) _) as [x y] eqn:Ex.
      destruct (spec_at p (fun _ => (u, Ok tt)) _) as [x' y'] eqn:Ex'. simpl in *. subst; auto.
    + rewrite IH. auto.
    + tauto.
    + tauto.
  - destruct (nth_error (kids_list t) i) as [c|]; auto.
    specialize (IH c).
    destruct (spec_at p (fun u => (u, Ok u)) _) as [t1 [u|e| |]].
    + destruct IH as [IH1 IH2]. rewrite IH1.
      destruct (spec_at p (fun _ => (fst (f u), Ok tt)) _) as [x y] eqn:Ex.
      destruct (spec_at p (fun _ => (u, Ok tt)) _) as [x' y'] eqn:Ex'. simpl in *. subst; auto.
    + rewrite IH. auto.
    + tauto.
    + tauto.
Qed.

(** Re-running the same subscripts after they succeeded changes nothing more. *)
Lemma spec_at_again {A} p (f : dg -> dg * res A) : forall t u,
  snd (spec_focus p t) = Ok u -> spec_at p f (fst (spec_focus p t)) = spec_at p f t.
Proof.
  unfold spec_focus. induction p as [|[k|i] p IH]; intros t u; simpl; auto.
  - set (c := match olookup k (kids_dict t) with Some c => c | None => Emp end).
    specialize (IH c).
    destruct (spec_at p (fun u => (u, Ok u)) c) as [c1 r] eqn:E. simpl in *. intros ->.
    rewrite olookup_insert_eq', (IH u eq_refl).
    destruct (spec_at p f c). now rewrite oinsert_insert'.
  - destruct (nth_error (kids_list t) i) as [c|] eqn:En; simpl; [|discriminate].
    specialize (IH c).
    destruct (spec_at p (fun u => (u, Ok u)) c) as [c1 r] eqn:E. simpl in *. intros ->.
    rewrite (nth_set_eq _ _ _ _ En). rewrite (IH u eq_refl).
    destruct (spec_at p f c). now rewrite list_set_set.
Qed.

Lemma path_focus p : forall h l t F, own h l t F -> NoDup F ->
  exists h1 F1, own h1 l (fst (spec_focus p t)) F1 /\ NoDup F1 /\ step_ok h h1 F F1 /\
  match snd (spec_focus p t) with
  | Ok u => exists c Fa Fc Fb, h_path p l h = (h1, Ok c) /\ F1 = Fa ++ Fc ++ Fb /\ own h1 c u Fc /\
      forall h2 u' Fc', own h2 c u' Fc' ->
        (forall x, In x Fa \/ In x Fb -> nth_error h2 x = nth_error h1 x) ->
        own h2 l (spec_plug p u' t) (Fa ++ Fc' ++ Fb)
  | Throw e => h_path p l h = (h1, Throw e)
  | _ => False
  end.
Proof.
  unfold spec_focus, spec_plug. induction p as [|[k|i] p IH]; intros h l t F HO HN; simpl.
  - exists h, F. split; [auto|]. split; [auto|]. split; [apply step_ok_refl|].
    exists l, [], F, []. rewrite app_nil_r. repeat split; auto.
    intros. rewrite app_nil_r. simpl. auto.
  - destruct (view_key_own h l t F k HO HN) as
      (h1 & c & m1 & m2 & n1 & n2 & Fa & Fc & Fb & E1 & Hn1 & Hs1 & K1 & K2 & I & Oa & Oc & Ob & HN1 & S1).
    set (tc := match olookup k (kids_dict t) with Some u => u | None => Emp end) in *.
    inversion HN1 as [|? ? Hl HNd]; subst.
    destruct (NoDup_app_inv _ _ HNd) as (HNa & HNd' & Dac). destruct (NoDup_app_inv _ _ HNd') as (HNc & HNb & Dcb).
    destruct (IH h1 c tc Fc Oc HNc) as (h2 & Fc1 & O2 & HN2 & S2 & Hr).
    destruct (spec_at p (fun u => (u, Ok u)) tc) as [tc1 r] eqn:Er. simpl in O2, Hr.
    (* nodes outside Fc are kept by the inner walk *)
    pose proof (owns_valid _ _ _ _ Oa) as Va. pose proof (owns_valid _ _ _ _ Ob) as Vb.
    rewrite Forall_forall in Va, Vb.
    assert (Kl : nth_error h2 l = nth_error h1 l).
    { apply (so_frame _ _ _ _ S2); [now apply nth_lt in Hn1|]. intros Hi. apply Hl. apply in_mid; auto. }
    assert (Ka : forall x, In x Fa -> nth_error h2 x = nth_error h1 x).
    { intros x Hx. apply (so_frame _ _ _ _ S2); auto. intros Hi. apply (Dac x Hx). apply in_app_iff; auto. }
    assert (Kb : forall x, In x Fb -> nth_error h2 x = nth_error h1 x).
    { intros x Hx. apply (so_frame _ _ _ _ S2); auto. intros Hi. apply (Dcb x Hi Hx). }
    assert (Hfresh : forall x, In x Fc1 -> ~ In x (l :: Fa ++ Fb)).
    { intros x Hx Hi. apply (so_foot _ _ _ _ S2) in Hx. destruct Hx as [Hx|Hx].
      - simpl in Hi. rewrite in_app_iff in Hi. destruct Hi as [<-|[Hi|Hi]].
        + apply Hl. apply in_mid; auto.
        + apply (Dac x Hi). apply in_app_iff; auto.
        + apply (Dcb x Hx Hi).
      - simpl in Hi. rewrite in_app_iff in Hi. destruct Hi as [<-|[Hi|Hi]].
        + apply nth_lt in Hn1. lia.
        + apply Va in Hi. lia.
        + apply Vb in Hi. lia. }
    assert (Rebuild : forall h3 u' Fc', own h3 c u' Fc' ->
              (forall x, In x (l :: Fa) \/ In x Fb -> nth_error h3 x = nth_error h2 x) ->
              own h3 l (Dct (oinsert k u' (kids_dict t))) (l :: Fa ++ Fc' ++ Fb)).
    { intros h3 u' Fc' Ou Hfr. rewrite I. econstructor.
      - rewrite Hfr by (simpl; auto). rewrite Kl. exact Hn1.
      - exact Hs1.
      - unfold okeys in *. rewrite !map_app. simpl. congruence.
      - rewrite !map_app. simpl. apply owns_app.
        + eapply owns_frame; [exact Oa|]. intros x Hx. rewrite Hfr by (simpl; auto). auto.
        + constructor; auto. eapply owns_frame; [exact Ob|]. intros x Hx. rewrite Hfr by (simpl; auto). auto. }
    assert (HNnew : NoDup (l :: Fa ++ Fc1 ++ Fb)).
    { constructor.
      - rewrite in_mid. intros [Hi|[Hi|Hi]].
        + apply Hl, in_mid; auto.
        + apply (Hfresh l Hi). simpl; auto.
        + apply Hl, in_mid; auto.
      - apply NoDup_app_intro; auto.
        + apply NoDup_app_intro; auto. intros x Hx Hi. apply (Hfresh x Hx). simpl. rewrite in_app_iff; auto.
        + intros x Hx Hi. apply in_app_iff in Hi. destruct Hi as [Hi|Hi].
          * apply (Hfresh x Hi). simpl. rewrite in_app_iff; auto.
          * apply (Dac x Hx), in_app_iff; auto. }
    assert (S12 : step_ok h1 h2 (l :: Fa ++ Fc ++ Fb) (l :: Fa ++ Fc1 ++ Fb)).
    { constructor.
      - apply S2.
      - intros x Hx Hi. apply (so_frame _ _ _ _ S2); auto. intros Hc. apply Hi. simpl. rewrite in_mid; auto.
      - intros x Hx. simpl in *. rewrite in_mid in *. destruct Hx as [<-|[Hx|[Hx|Hx]]]; auto.
        apply (so_foot _ _ _ _ S2) in Hx. destruct Hx; auto. }
    exists h2, (l :: Fa ++ Fc1 ++ Fb).
    split; [now apply Rebuild|]. split; [auto|]. split; [eapply step_ok_trans; eauto|].
    simpl. rewrite (bind_ok _ _ _ _ _ E1).
    destruct r as [u|e| |]; auto.
    destruct Hr as (c' & Fa' & Fc' & Fb' & Ep & EF & Oc' & Hplug).
    exists c', (l :: Fa ++ Fa'), Fc', (Fb' ++ Fb).
    split; [exact Ep|]. split. { rewrite EF. simpl. now rewrite <- !app_assoc. }
    split; [auto|].
    intros h3 u' Fc'' Ou Hfr.
    specialize (Hplug h3 u' Fc'' Ou).
    destruct (spec_at p (fun _ => (u', Ok tt)) tc) as [tcu ru] eqn:Etu. simpl in Hplug |- *.
    replace (l :: (Fa ++ Fa') ++ Fc'' ++ Fb' ++ Fb) with (l :: Fa ++ (Fa' ++ Fc'' ++ Fb') ++ Fb) by (now rewrite <- !app_assoc).
    apply Rebuild.
    + apply Hplug. intros x Hx. apply Hfr. simpl. rewrite !in_app_iff. tauto.
    + intros x Hx. apply Hfr. simpl in *. rewrite !in_app_iff. tauto.
  - destruct (view_idx_own h l t F i HO HN) as (h1 & ps & F1 & Hn1 & Os & HN1 & S1 & Hi).
    destruct (nth_error (kids_list t) i) as [tc|] eqn:En.
    2:{ exists h1, (l :: F1). simpl. split; [econstructor; eauto|]. split; [auto|]. split; [auto|].
        unfold bind. now rewrite Hi. }
    destruct Hi as (c & ps1 & ps2 & ts1 & ts2 & Fa & Fc & Fb & E1 & -> & Ets & Hlen & -> & Oa & Oc & Ob).
    inversion HN1 as [|? ? Hl HNd]; subst.
    destruct (NoDup_app_inv _ _ HNd) as (HNa & HNd' & Dac). destruct (NoDup_app_inv _ _ HNd') as (HNc & HNb & Dcb).
    destruct (IH h1 c tc Fc Oc HNc) as (h2 & Fc1 & O2 & HN2 & S2 & Hr).
    destruct (spec_at p (fun u => (u, Ok u)) tc) as [tc1 r] eqn:Er. simpl in O2, Hr.
    pose proof (owns_valid _ _ _ _ Oa) as Va. pose proof (owns_valid _ _ _ _ Ob) as Vb.
    rewrite Forall_forall in Va, Vb.
    assert (Kl : nth_error h2 l = nth_error h1 l).
    { apply (so_frame _ _ _ _ S2); [now apply nth_lt in Hn1|]. intros Hi. apply Hl. apply in_mid; auto. }
    assert (Ka : forall x, In x Fa -> nth_error h2 x = nth_error h1 x).
    { intros x Hx. apply (so_frame _ _ _ _ S2); auto. intros Hi. apply (Dac x Hx). apply in_app_iff; auto. }
    assert (Kb : forall x, In x Fb -> nth_error h2 x = nth_error h1 x).
    { intros x Hx. apply (so_frame _ _ _ _ S2); auto. intros Hi. apply (Dcb x Hi Hx). }
    assert (Hfresh : forall x, In x Fc1 -> ~ In x (l :: Fa ++ Fb)).
    { intros x Hx Hi. apply (so_foot _ _ _ _ S2) in Hx. destruct Hx as [Hx|Hx].
      - simpl in Hi. rewrite in_app_iff in Hi. destruct Hi as [<-|[Hi|Hi]].
        + apply Hl. apply in_mid; auto.
        + apply (Dac x Hi). apply in_app_iff; auto.
        + apply (Dcb x Hx Hi).
      - simpl in Hi. rewrite in_app_iff in Hi. destruct Hi as [<-|[Hi|Hi]].
        + apply nth_lt in Hn1. lia.
        + apply Va in Hi. lia.
        + apply Vb in Hi. lia. }
    assert (Rebuild : forall h3 u' Fc', own h3 c u' Fc' ->
              (forall x, In x (l :: Fa) \/ In x Fb -> nth_error h3 x = nth_error h2 x) ->
              own h3 l (Lst (list_set (length ts1) u' (kids_list t))) (l :: Fa ++ Fc' ++ Fb)).
    { intros h3 u' Fc' Ou Hfr.
      assert (Els : list_set (length ts1) u' (kids_list t) = ts1 ++ u' :: ts2).
      { rewrite Ets. clear. induction ts1; simpl; congruence. }
      rewrite Els. econstructor.
      - rewrite Hfr by (simpl; auto). rewrite Kl. exact Hn1.
      - apply owns_app.
        + eapply owns_frame; [exact Oa|]. intros x Hx. rewrite Hfr by (simpl; auto). auto.
        + constructor; auto. eapply owns_frame; [exact Ob|]. intros x Hx. rewrite Hfr by (simpl; auto). auto. }
    assert (HNnew : NoDup (l :: Fa ++ Fc1 ++ Fb)).
    { constructor.
      - rewrite in_mid. intros [Hi|[Hi|Hi]].
        + apply Hl, in_mid; auto.
        + apply (Hfresh l Hi). simpl; auto.
        + apply Hl, in_mid; auto.
      - apply NoDup_app_intro; auto.
        + apply NoDup_app_intro; auto. intros x Hx Hi. apply (Hfresh x Hx). simpl. rewrite in_app_iff; auto.
        + intros x Hx Hi. apply in_app_iff in Hi. destruct Hi as [Hi|Hi].
          * apply (Hfresh x Hi). simpl. rewrite in_app_iff; auto.
          * apply (Dac x Hx), in_app_iff; auto. }
    assert (S12 : step_ok h1 h2 (l :: Fa ++ Fc ++ Fb) (l :: Fa ++ Fc1 ++ Fb)).
    { constructor.
      - apply S2.
      - intros x Hx Hi. apply (so_frame _ _ _ _ S2); auto. intros Hc. apply Hi. simpl. rewrite in_mid; auto.
      - intros x Hx. simpl in *. rewrite in_mid in *. destruct Hx as [<-|[Hx|[Hx|Hx]]]; auto.
        apply (so_foot _ _ _ _ S2) in Hx. destruct Hx; auto. }
    exists h2, (l :: Fa ++ Fc1 ++ Fb).
    split; [now apply Rebuild|]. split; [auto|]. split; [eapply step_ok_trans; eauto|].
    simpl. rewrite (bind_ok _ _ _ _ _ E1).
    destruct r as [u|e| |]; auto.
    destruct Hr as (c' & Fa' & Fc' & Fb' & Ep & EF & Oc' & Hplug).
    exists c', (l :: Fa ++ Fa'), Fc', (Fb' ++ Fb).
    split; [exact Ep|]. split. { rewrite EF. simpl. now rewrite <- !app_assoc. }
    split; [auto|].
    intros h3 u' Fc'' Ou Hfr.
    specialize (Hplug h3 u' Fc'' Ou).
    destruct (spec_at p (fun _ => (u', Ok tt)) tc) as [tcu ru] eqn:Etu. simpl in Hplug |- *.
    replace (l :: (Fa ++ Fa') ++ Fc'' ++ Fb' ++ Fb) with (l :: Fa ++ (Fa' ++ Fc'' ++ Fb') ++ Fb) by (now rewrite <- !app_assoc).
    apply Rebuild.
    + apply Hplug. intros x Hx. apply Hfr. simpl. rewrite !in_app_iff. tauto.
    + intros x Hx. apply Hfr. simpl in *. rewrite !in_app_iff. tauto.
Qed.

(** ** Path lookup *)

Lemma split_on_cons c s : exists x xs, split_on c s = x :: xs.
Proof.
  induction s as [|a s (x & xs & E)]; simpl; eauto.
  destruct (Ascii.eqb a c); eauto. rewrite E. eauto.
Qed.

Lemma drop_final_cons x y l : drop_final_empty (x :: y :: l) = x :: drop_final_empty (y :: l).
Proof. simpl. destruct x; reflexivity. Qed.

Lemma path_keys_split s : s <> EmptyString ->
  path_keys s = fst (split_slash s) :: path_keys (snd (split_slash s)).
Proof.
  unfold path_keys. induction s as [|c s IH]; intros Hs; [congruence|].
  simpl. destruct (Ascii.eqb c "/"%char) eqn:E.
  - destruct (split_on_cons "/"%char s) as (x & xs & Ex). cbn [fst snd]. rewrite Ex.
    apply drop_final_cons.
  - destruct s as [|a s]; [reflexivity|].
    specialize (IH ltac:(discriminate)).
    destruct (split_slash (String a s)) as [tok rest] eqn:Es. simpl fst in *; simpl snd in *.
    destruct (split_on_cons "/"%char (String a s)) as (x & xs & Ex). rewrite Ex in IH |- *.
    destruct xs as [|y xs].
    + destruct x; simpl in IH; [discriminate|]. injection IH as <- IH. simpl. now rewrite IH.
    + rewrite drop_final_cons in IH |- *.
      pose proof (f_equal (hd EmptyString) IH) as E1. pose proof (f_equal (@tl string) IH) as E2.
      cbn [hd tl] in E1, E2. now rewrite E1, E2.
Qed.

Lemma split_slash_length s : s <> EmptyString -> String.length (snd (split_slash s)) < String.length s.
Proof.
  induction s as [|c s IH]; intros Hs; [congruence|].
  simpl. destruct (Ascii.eqb c "/"%char); simpl; [lia|].
  destruct s as [|a s]; [simpl; lia|].
  specialize (IH ltac:(discriminate)). destruct (split_slash (String a s)). simpl in *. lia.
Qed.

Lemma raw_path_spec f : forall h l t ty path def,
  denotes h l t -> String.length path < f ->
  raw_path f h l ty path def = Ok (spec_path t ty path def).
Proof.
  induction f as [|f IH]; intros h l t ty path def [F HO] Hf; [lia|].
  simpl. destruct path as [|c path'].
  - inversion HO; subst;
      match goal with E : nth_error h l = _ |- _ => rewrite E end; simpl; auto.
    unfold spec_path. simpl. now destruct (vty_eqb (data_ty d) ty).
  - set (path := String c path') in *.
    assert (Hne : path <> EmptyString) by discriminate.
    pose proof (path_keys_split path Hne) as Ek. pose proof (split_slash_length path Hne) as El.
    destruct (split_slash path) as [tok rest] eqn:Es. simpl fst in Ek; simpl snd in Ek, El.
    unfold spec_path. rewrite Ek.
    inversion HO as [? Hn|? d Hn|? ps ts F0 Hn HOs|? m kvs F0 Hn Hs Hk HOs]; subst;
      rewrite Hn; cbn [nd_type nd_dict nd_val nd_list]; auto.
    simpl dg_find.
    pose proof (owns_lookup _ _ _ _ tok Hk HOs) as HL.
    destruct (olookup tok m) as [[l'|]|], (olookup tok kvs) as [t'|]; try tauto.
    rewrite (IH h l' t'); auto. lia.
Qed.

Lemma dg_path_spec h l t ty path def :
  denotes h l t -> dg_path h l ty path def = Ok (spec_path t ty path def).
Proof. intros H. apply raw_path_spec; auto. Qed.

(** ** Single operations *)

Lemma own_set_leaf h l t F n t' :
  own h l t F -> (forall h', nth_error h' l = Some n -> own h' l t' [l]) ->
  own (list_set l n h) l t' [l] /\ NoDup [l] /\ step_ok h (list_set l n h) F [l].
Proof.
  intros HO Hn. pose proof (own_in_head _ _ _ _ HO) as Hl.
  destruct (own_node _ _ _ _ HO) as (n0 & Hn0 & _).
  repeat split.
  - apply Hn. eapply nth_set_eq; eauto.
  - repeat constructor; auto.
  - now rewrite list_set_length.
  - intros x _ Hx. apply list_set_ne. intros ->; auto.
  - intros x [<-|[]]; auto.
Qed.

Lemma owns_del h ps ts F i :
  owns h ps ts F -> i < length ts ->
  exists F', owns h (list_del i ps) (firstn i ts ++ skipn (S i) ts) F' /\
    (forall x, In x F' -> In x F) /\ (NoDup F -> NoDup F').
Proof.
  intros HO. revert i. induction HO as [|p ps t ts F1 F2 Hp HO IH]; intros i Hi; simpl in Hi; [lia|].
  destruct i as [|i].
  - simpl. exists F2. split; auto. split; [intros; apply in_app_iff; auto|].
    intros HN. now apply NoDup_app_inv in HN.
  - destruct (IH i) as (F' & O' & I' & N'); [lia|].
    exists (F1 ++ F'). split; [simpl; now constructor|]. split.
    + intros x Hx. apply in_app_iff in Hx. apply in_app_iff. destruct Hx; auto.
    + intros HN. apply NoDup_app_inv in HN. destruct HN as (N1 & N2 & D).
      apply NoDup_app_intro; auto. intros x Hx Hx'. apply (D x Hx). auto.
Qed.

Lemma oremove_split {V W} k (m : omap V) (n : omap W) v0 :
  okeys m = okeys n -> olookup k m = Some v0 ->
  exists m1 m2 n1 n2 w0, m = m1 ++ (k, v0) :: m2 /\ n = n1 ++ (k, w0) :: n2 /\
    okeys m1 = okeys n1 /\ okeys m2 = okeys n2 /\ olookup k n = Some w0 /\
    oremove k m = m1 ++ m2 /\ oremove k n = n1 ++ n2.
Proof.
  unfold okeys. revert n. induction m as [|[k0 x0] m IH]; intros [|[k1 w0] n] Hk HL; try discriminate.
  injection Hk as -> Hk. simpl in HL. destruct (String.eqb_spec k k1) as [->|Hne].
  - injection HL as ->. exists [], m, [], n, w0. simpl. rewrite String.eqb_refl. repeat split; auto.
  - destruct (IH n Hk HL) as (m1 & m2 & n1 & n2 & w1 & -> & -> & H1 & H2 & HL' & H3 & H4).
    exists ((k1, x0) :: m1), m2, ((k1, w0) :: n1), n2, w1. simpl.
    destruct (String.eqb_spec k k1); [congruence|].
    repeat split; auto; simpl; f_equal; auto.
Qed.

Lemma owns_mid_inv h ps1 p ps2 ts F n1 (w0 : dg) n2 :
  owns h (ps1 ++ p :: ps2) ts F -> ts = n1 ++ w0 :: n2 -> length ps1 = length n1 ->
  exists c Fa Fc Fb, p = Some c /\ F = Fa ++ Fc ++ Fb /\
    owns h ps1 n1 Fa /\ own h c w0 Fc /\ owns h ps2 n2 Fb.
Proof.
  intros HO Ets Hl. destruct (owns_split _ _ _ _ _ HO) as (ts1 & ts2 & Fa & F2 & E & EF & Hl1 & Oa & O2).
  inversion O2 as [|c ps' u us Fc Fb Oc Ob]; subst.
  assert (n1 = ts1 /\ w0 = u /\ n2 = us) as (-> & -> & ->).
  { assert (Hlen : length n1 = length ts1) by congruence. clear - E Hlen.
    revert ts1 E Hlen. induction n1 as [|x l IH]; intros [|y ts1] E Hlen; try discriminate; simpl in *.
    - injection E as -> ->. auto.
    - injection E as -> E. injection Hlen as Hlen. destruct (IH _ E Hlen) as (-> & -> & ->). auto. }
  exists c, Fa, Fc, Fb. auto.
Qed.

Lemma bind_ret_unit (m : M unit) h h' r :
  m h = (h', r) -> (m ;;; ret RUnit) h = (h', res_map (fun _ => RUnit) r).
Proof. intros E. unfold bind. rewrite E. destruct r as [[]| | |]; reflexivity. Qed.

(** A fresh node appended to the list of [l]. *)
Lemma add_own h l t F c u Fc :
  own h l t F -> NoDup F -> own h c u Fc -> NoDup Fc -> (forall x, In x Fc -> ~ In x F) ->
  exists h' F', raw_add l (Some c) h = (h', Ok tt) /\
    own h' l (Lst (kids_list t ++ [u])) F' /\ NoDup F' /\
    length h' = length h /\
    (forall x, ~ In x F -> nth_error h' x = nth_error h x) /\
    (forall x, In x F' -> In x F \/ In x Fc).
Proof.
  intros HO HN HOc HNc HD.
  pose proof (own_in_head _ _ _ _ HO) as HlF.
  destruct (own_as_list _ _ _ _ HO) as (n & F' & Hn & Ha & HOs & HF' & HN').
  specialize (HN' HN). inversion HN' as [|? ? HlF' HNF']; subst.
  rewrite (raw_add_eq _ _ _ _ Hn). rewrite Ha. unfold set_list; cbn [nd_dict nd_val nd_type].
  assert (Hlc : ~ In l Fc) by (intros Hi; apply (HD l Hi); auto).
  eexists _, (l :: F' ++ Fc). split; [reflexivity|]. repeat split.
  - econstructor.
    + eapply nth_set_eq; eauto.
    + apply owns_app.
      * eapply owns_frame; eauto. intros x Hx. apply list_set_ne. intros ->; auto.
      * apply owns_one. eapply own_frame; eauto. intros x Hx. apply list_set_ne. intros ->; auto.
  - constructor.
    + rewrite in_app_iff. tauto.
    + apply NoDup_app_intro; auto. intros x Hx Hx'. apply (HD x Hx'). auto.
  - apply list_set_length.
  - intros x Hx. apply list_set_ne. intros ->; auto.
  - intros x [<-|Hx]; auto. apply in_app_iff in Hx. destruct Hx; auto.
Qed.

Lemma op_sim o h l t F :
  own h l t F -> NoDup F ->
  exists h' F', h_op o l h = (h', snd (spec_op o t)) /\
    own h' l (fst (spec_op o t)) F' /\ NoDup F' /\ step_ok h h' F F'.
Proof.
  intros HO HN. pose proof (own_in_head _ _ _ _ HO) as HlF.
  assert (Keep : forall r, h_op o l h = (h, r) -> fst (spec_op o t) = t -> r = snd (spec_op o t) ->
     exists h' F', h_op o l h = (h', snd (spec_op o t)) /\
       own h' l (fst (spec_op o t)) F' /\ NoDup F' /\ step_ok h h' F F').
  { intros r E1 E2 ->. exists h, F. rewrite E2. repeat split; auto. }
  destruct (own_node _ _ _ _ HO) as (n0 & Hn0 & Ht0 & Hv0).
  destruct o as [d|d|k|i| | | | |k|ty|ty p def].
  - (* OSet *)
    simpl. unfold dg_assign_val, raw_set_value.
    rewrite (bind_ret_unit _ _ _ _ (raw_set_data_eq _ _ _ _ Hn0)). simpl.
    eexists _, [l]. split; [reflexivity|].
    apply own_set_leaf with t; auto. intros h' Hn'. constructor. rewrite Hn'. f_equal.
    unfold value_node. rewrite Ht0.
    inversion HO as [? Hn|? d' Hn|? ps ts F0 Hn HOs|? m kvs F0 Hn Hs Hk HOs]; subst; simpl; auto.
    rewrite Hn0 in Hn. injection Hn as ->. reflexivity.
  - (* OAddNew *)
    set (u := match d with None => Emp | Some v => Val v end).
    assert (E : exists nn, (match d with None => raw_new | Some v => raw_new_val v end) h = (h ++ [nn], Ok (length h)) /\
               own (h ++ [nn]) (length h) u [length h]).
    { unfold u. destruct d as [v|]; eexists; (split; [reflexivity|]);
        constructor; apply nth_error_app_new. }
    destruct E as (nn & E & Oc).
    pose proof (own_valid _ _ _ _ HO) as V. rewrite Forall_forall in V.
    assert (HO1 : own (h ++ [nn]) l t F) by (eapply own_extends; eauto using extends_app).
    destruct (add_own (h ++ [nn]) l t F (length h) u [length h]) as (h' & F' & E' & O' & N' & L' & Fr & Ft); auto.
    { repeat constructor; auto. }
    { intros x [<-|[]] Hi. apply V in Hi. lia. }
    exists h', F'. simpl. rewrite (bind_ok _ _ _ _ _ E). rewrite (bind_ret_unit _ _ _ _ E'). simpl.
    repeat split; auto.
    + rewrite L', app_length. lia.
    + intros x Hx HxF. rewrite Fr by auto. now apply nth_error_app1.
    + intros x Hx. apply Ft in Hx. destruct Hx as [Hx|[<-|[]]]; auto.
  - (* ORemoveKey *)
    simpl. rewrite (bind_ret_unit _ _ _ _ (surjective_pairing _)).
    rewrite (raw_remove_key_eq _ _ _ _ Hn0).
    inversion HO as [? Hn|? d' Hn|? ps ts F0 Hn HOs|? m kvs F0 Hn Hs Hk HOs]; subst;
      rewrite Hn0 in Hn; injection Hn as ->; cbn [nd_type nd_dict nd_list nd_val];
      try (exists h; eexists; repeat split; eauto; fail).
    pose proof (owns_lookup _ _ _ _ k Hk HOs) as HL.
    destruct (olookup k m) as [p|] eqn:L.
    2:{ destruct (olookup k kvs); [tauto|]. simpl. exists h; eexists; repeat split; eauto. }
    destruct (oremove_split k m kvs p Hk L) as (m1 & m2 & n1 & n2 & w0 & Em & En & K1 & K2 & L' & R1 & R2).
    rewrite L'. cbn [fst snd res_map].
    assert (Hlen : length m1 = length n1).
    { apply (f_equal (@length string)) in K1. unfold okeys in K1. now rewrite !map_length in K1. }
    assert (HOs' := HOs). rewrite Em, map_app in HOs'. simpl in HOs'.
    destruct (owns_mid_inv h (map snd m1) p (map snd m2) (map snd kvs) F0 (map snd n1) w0 (map snd n2) HOs')
      as (c & Fa & Fc & Fb & -> & -> & Oa & Oc & Ob).
    { rewrite En, map_app. reflexivity. }
    { now rewrite !map_length. }
    inversion HN as [|? ? Hl HNd]; subst.
    destruct (NoDup_app_inv _ _ HNd) as (HNa & HNd' & Dac). destruct (NoDup_app_inv _ _ HNd') as (HNc & HNb & Dcb).
    rewrite in_mid in Hl.
    eexists _, (l :: Fa ++ Fb). split; [reflexivity|]. repeat split.
    + econstructor.
      * eapply nth_set_eq; eauto.
      * now apply osorted_remove.
      * rewrite R1, R2. unfold okeys in *. rewrite !map_app. congruence.
      * rewrite R1, R2, !map_app. apply owns_app; (eapply owns_frame; [eassumption|]);
          intros x Hx; apply list_set_ne; intros ->; tauto.
    + constructor.
      * rewrite in_app_iff. tauto.
      * apply NoDup_app_intro; auto. intros x Hx Hx'. apply (Dac x Hx), in_app_iff; auto.
    + now rewrite list_set_length.
    + intros x _ Hx. apply list_set_ne. intros ->; apply Hx; simpl; auto.
    + intros x [<-|Hx]; [left; simpl; auto|]. left. simpl. right. rewrite in_mid. apply in_app_iff in Hx. tauto.
  - (* ORemoveIdx *)
    simpl. rewrite (bind_ret_unit _ _ _ _ (surjective_pairing _)).
    rewrite (raw_remove_idx_eq _ _ _ _ Hn0).
    inversion HO as [? Hn|? d' Hn|? ps ts F0 Hn HOs|? m kvs F0 Hn Hs Hk HOs]; subst;
      rewrite Hn0 in Hn; injection Hn as ->; cbn [nd_type nd_dict nd_list nd_val];
      try (exists h; eexists; repeat split; eauto; fail).
    pose proof (owns_length _ _ _ _ HOs) as Hlen.
    destruct (nth_error ps i) as [p|] eqn:Ep.
    + destruct (nth_error ts i) as [u|] eqn:Eu.
      2:{ apply nth_error_None in Eu. apply nth_lt in Ep. lia. }
      cbn [fst snd res_map].
      destruct (owns_del h ps ts F0 i HOs) as (F' & O' & I' & N'); [now apply nth_lt in Eu|].
      inversion HN as [|? ? Hl HNd]; subst.
      eexists _, (l :: F'). split; [reflexivity|]. repeat split.
      * econstructor; [eapply nth_set_eq; eauto|].
        eapply owns_frame; [eassumption|]. intros x Hx. apply list_set_ne. intros ->. auto.
      * constructor; auto.
      * now rewrite list_set_length.
      * intros x _ Hx. apply list_set_ne. intros ->; apply Hx; simpl; auto.
      * intros x [<-|Hx]; left; simpl; auto.
    + destruct (nth_error ts i) as [u|] eqn:Eu.
      { apply nth_error_None in Ep. apply nth_lt in Eu. lia. }
      cbn [fst snd res_map]. exists h; eexists; repeat split; eauto.
  - (* OClear *)
    simpl. rewrite (bind_ret_unit _ _ _ _ (surjective_pairing _)).
    rewrite (raw_clear_eq _ _ _ Hn0).
    inversion HO as [? Hn|? d' Hn|? ps ts F0 Hn HOs|? m kvs F0 Hn Hs Hk HOs]; subst;
      rewrite Hn0 in Hn; injection Hn as ->; cbn [nd_type nd_dict nd_list nd_val fst snd res_map];
      try (exists h; eexists; repeat split; eauto; fail).
    + eexists _, [l]. split; [reflexivity|]. eapply own_set_leaf; [exact HO|].
      intros h' Hn'. eapply own_lst; [exact Hn'|constructor].
    + eexists _, [l]. split; [reflexivity|]. eapply own_set_leaf; [exact HO|].
      intros h' Hn'. eapply own_dct; [exact Hn'|constructor|reflexivity|constructor].
  - (* OType *)
    eapply Keep; [|reflexivity|].
    { simpl. unfold raw_get_type, bind, load. rewrite Hn0. reflexivity. }
    simpl. now rewrite Ht0.
  - (* OIsEmpty *)
    eapply Keep; [|reflexivity|].
    { simpl. unfold dg_is_empty, raw_get_type, bind, load. rewrite Hn0. reflexivity. }
    simpl. rewrite Ht0. now destruct t.
  - (* OCount *)
    eapply Keep; [|reflexivity|].
    { simpl. unfold raw_get_count, bind, load. rewrite Hn0. rewrite Ht0.
      instantiate (1 := match dg_type t with
                        | TList => Ok (RCount (to_unsigned (length (nd_list n0))))
                        | TDict => Ok (RCount (to_unsigned (length (nd_dict n0))))
                        | _ => Throw InvalidOperation end).
      destruct (dg_type t); reflexivity. }
    inversion HO as [? Hn|? d' Hn|? ps ts F0 Hn HOs|? m kvs F0 Hn Hs Hk HOs]; subst; simpl; auto;
      rewrite Hn0 in Hn; injection Hn as ->; cbn [nd_list nd_dict].
    + now rewrite (owns_length _ _ _ _ HOs).
    + apply (f_equal (@length string)) in Hk. unfold okeys in Hk. rewrite !map_length in Hk. now rewrite Hk.
  - (* OExists *)
    eapply Keep; [|reflexivity|].
    { simpl. unfold raw_key_exists, bind, load. rewrite Hn0. reflexivity. }
    simpl.
    inversion HO as [? Hn|? d' Hn|? ps ts F0 Hn HOs|? m kvs F0 Hn Hs Hk HOs]; subst; simpl;
      rewrite Hn0 in Hn; injection Hn as ->; cbn [nd_list nd_dict]; auto.
    pose proof (owns_lookup _ _ _ _ k Hk HOs) as HL.
    destruct (olookup k m) as [[|]|], (olookup k kvs); tauto.
  - (* ORead *)
    eapply Keep; [|reflexivity|].
    { simpl. unfold raw_read, bind, load. rewrite Hn0. rewrite Hv0.
      instantiate (1 := match t with
                        | Val d => if vty_eqb (data_ty d) ty then Ok (RData d) else Throw InvalidOperation
                        | _ => Throw InvalidOperation end).
      destruct t as [|d| |]; try reflexivity. destruct (vty_eqb (data_ty d) ty); reflexivity. }
    reflexivity.
  - (* OPath *)
    eapply Keep; [reflexivity|reflexivity|]. simpl.
    rewrite (dg_path_spec h l t) by (eexists; eauto). reflexivity.
Qed.

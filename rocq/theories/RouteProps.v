(** C67: where publications go in an arbitrary network of linked nodes. *)
From Coq Require Import String Ascii List Arith ZArith Bool Lia Permutation.
From Verif Require Import Prelude BusModel BusOnce LinkModel NodeModel NetModel NodeProps NetProps DatagramModel DatagramSpec.
Import ListNotations.
Open Scope string_scope.
Open Scope list_scope.

(** ** Vocabulary *)

(** The (node, link) pairs that receive what link [k] of node [i] sends. *)
Definition peers (n : net) (i k : nat) : list (nat * nat) :=
  match nth_error (nt_links n i) k with
  | Some lk => (if lk_socket lk ServerPub then nt_wires n i k Server else []) ++ (if lk_socket lk ClientPub then nt_wires n i k Client else [])
  | None => []
  end.

(** Leaving by link [fst h] and arriving at node [fst (snd h)] over its link [snd (snd h)]. *)
Notation hop := (nat * (nat * nat))%type.

(** A route from node [i]: it never leaves a node by the link over which it arrived. [a]: the link over which [i] was reached. *)
Inductive route (n : net) : nat -> option nat -> list hop -> Prop :=
| route_nil i a : route n i a []
| route_cons i a k j l r : In (j, l) (peers n i k) -> a <> Some k -> route n j (Some l) r -> route n i a ((k, (j, l)) :: r).

Fixpoint end_of (i : nat) (r : list hop) : nat := match r with [] => i | h :: r' => end_of (fst (snd h)) r' end.

Definition id_of (n : net) (i k : nat) : string := match nth_error (nt_links n i) k with Some lk => lk_id lk | None => "" end.

(** The message after travelling along [r]. *)
Fixpoint carried (n : net) (m : bmsg) (r : list hop) : bmsg :=
  match r with [] => m | h :: r' => carried n (mark (id_of n (fst (snd h)) (snd (snd h))) m) r' end.

(** The links of a node have distinct names without slashes, as PluginTemplate.cpp:26-34 makes them; connections end at existing
    links and there is at most one between two links. *)
Record well_formed (n : net) : Prop := {
  wf_free : forall i, Forall (fun lk => slash_free (lk_id lk)) (nt_links n i);
  wf_dup : forall i, NoDup (map lk_id (nt_links n i));
  wf_end : forall i k j l, In (j, l) (peers n i k) -> l < length (nt_links n j);
  wf_once : forall i k, NoDup (peers n i k)
}.

(** Not marked by any link of the node. *)
Definition unmarked (n : net) (i : nat) (m : bmsg) : Prop := forall lk, In lk (nt_links n i) -> ~ marked (lk_id lk) m.

(** ** Forwarding follows routes *)

Definition eqo (a : option nat) (k : nat) : bool := match a with Some x => Nat.eqb x k | None => false end.
Definition hops (n : net) (i : nat) (a : option nat) : list hop :=
  flat_map (fun k => if eqo a k then [] else map (pair k) (peers n i k)) (seq 0 (length (nt_links n i))).

Definition from (n : net) (i : nat) (m : bmsg) : option nat :=
  hd_error (filter (fun k => markedb (id_of n i k) m) (seq 0 (length (nt_links n i)))).

Lemma eqo_spec a k : reflect (a = Some k) (eqo a k).
Proof. destruct a as [x|]; cbn; [destruct (Nat.eqb_spec x k); constructor; congruence|constructor; discriminate]. Qed.

Lemma in_hops n i a k j l : In (k, (j, l)) (hops n i a) <-> In (j, l) (peers n i k) /\ a <> Some k.
Proof.
  unfold hops. rewrite in_flat_map. split.
  - intros (k' & _ & I). destruct (eqo_spec a k') as [|D]; [destruct I|]. apply in_map_iff in I as (w & E & I). injection E as -> ->. auto.
  - intros (I & D). exists k. split.
    + apply in_seq. unfold peers in I. destruct (nth_error (nt_links n i) k) as [lk|] eqn:N; [|destruct I]. apply nth_error_Some_lt in N. lia.
    + destruct (eqo_spec a k); [congruence|]. now apply in_map.
Qed.

Lemma hops_nodup n i a : well_formed n -> NoDup (hops n i a).
Proof.
  intros W. unfold hops. pose proof (seq_NoDup (length (nt_links n i)) 0) as D. induction D as [|k l Nk D IH]; [constructor|]. cbn [flat_map].
  assert (forall k', In k' (map fst (flat_map (fun k => if eqo a k then [] else map (pair k) (peers n i k)) l)) -> In k' l) as F.
  { intros k' I. apply in_map_iff in I as (h & <- & I). apply in_flat_map in I as (k2 & I2 & I). destruct (eqo a k2); [destruct I|]. apply in_map_iff in I as (w & <- & _). exact I2. }
  destruct (eqo a k); [exact IH|]. pose proof (wf_once _ W i k) as P. induction P as [|w ws Nw P IHP]; [exact IH|]. cbn [map app]. constructor.
  - intros I. apply in_app_iff in I as [I|I].
    + apply in_map_iff in I as (w' & E & I). injection E as ->. auto.
    + apply Nk. apply F. apply in_map_iff. exists (k, w). auto.
  - exact IHP.
Qed.

Lemma id_unique n i k k' m : well_formed n -> k < length (nt_links n i) -> k' < length (nt_links n i) ->
  markedb (id_of n i k) m = true -> markedb (id_of n i k') m = true -> k = k'.
Proof.
  intros W L L' M M'. apply markedb_iff in M as (x & M). apply markedb_iff in M' as (y & M'). rewrite M in M'.
  destruct (nth_error (nt_links n i) k) as [lk|] eqn:N; [|apply nth_error_None in N; lia]. destruct (nth_error (nt_links n i) k') as [lk'|] eqn:N'; [|apply nth_error_None in N'; lia].
  unfold id_of in M'. rewrite N, N' in M'. pose proof (wf_free _ W i) as F. rewrite Forall_forall in F.
  apply head_unique in M'; try (apply F; eapply nth_error_In; eauto).
  pose proof (wf_dup _ W i) as D. rewrite NoDup_nth_error in D. apply D; [rewrite map_length; exact L|]. now rewrite (map_nth_error _ _ _ N), (map_nth_error _ _ _ N'), M'.
Qed.

Lemma from_spec n i m k : well_formed n -> k < length (nt_links n i) -> markedb (id_of n i k) m = eqo (from n i m) k.
Proof.
  intros W L. unfold from. destruct (filter _ _) as [|k' l] eqn:F; cbn [hd_error eqo].
  - destruct (markedb (id_of n i k) m) eqn:M; auto. exfalso. assert (In k []) as []. rewrite <- F. apply filter_In. split; auto. apply in_seq. lia.
  - assert (In k' (filter (fun k => markedb (id_of n i k) m) (seq 0 (length (nt_links n i))))) as I by (rewrite F; now left). apply filter_In in I as (I & M'). apply in_seq in I.
    destruct (Nat.eqb_spec k' k) as [->|D]; [exact M'|]. destruct (markedb (id_of n i k) m) eqn:M; auto. exfalso. apply D. eapply id_unique; eauto. lia.
Qed.

Lemma from_unmarked n i m : well_formed n -> unmarked n i m -> from n i m = None.
Proof.
  intros W U. unfold from. destruct (filter _ _) as [|k' l] eqn:F; [reflexivity|]. exfalso.
  assert (In k' (filter (fun k => markedb (id_of n i k) m) (seq 0 (length (nt_links n i))))) as I by (rewrite F; now left). apply filter_In in I as (I & M'). apply in_seq in I.
  destruct (nth_error (nt_links n i) k') as [lk|] eqn:N; [|apply nth_error_None in N; lia]. unfold id_of in M'. rewrite N in M'. apply (U lk); [eapply nth_error_In; eauto|]. now apply markedb_iff.
Qed.

Lemma from_mark n i k m : well_formed n -> k < length (nt_links n i) -> from n i (mark (id_of n i k) m) = Some k.
Proof. intros W L. pose proof (from_spec n i (mark (id_of n i k) m) k W L) as F. rewrite mark_marked in F. symmetry in F. destruct (eqo_spec (from n i (mark (id_of n i k) m)) k); congruence. Qed.

Lemma indexed_flat {A B} (g : nat -> A -> list B) (l : list A) : forall s,
  flat_map (fun x => g (fst x) (snd x)) (combine (seq s (length l)) l) = flat_map (fun k => match nth_error l (k - s) with Some x => g k x | None => [] end) (seq s (length l)).
Proof.
  induction l as [|a l IH]; intros s; [reflexivity|]. cbn [length seq combine flat_map fst snd]. rewrite Nat.sub_diag. cbn [nth_error]. f_equal. rewrite IH.
  rewrite !flat_map_concat_map. f_equal. apply map_ext_in. intros k I. apply in_seq in I. replace (k - s) with (S (k - S s)) by lia. reflexivity.
Qed.

Lemma forward_hops n i m : well_formed n -> forward n i m = map (fun h => Arrive (fst (snd h)) (snd (snd h)) m) (hops n i (from n i m)).
Proof.
  intros W. unfold forward, hops, indexed.
  rewrite (indexed_flat (fun k lk => flat_map (fun r => map (fun w => Arrive (fst w) (snd w) m) (nt_wires n i k r)) (on_message lk m))).
  rewrite (flat_map_concat_map _ (seq 0 _)), (flat_map_concat_map _ (seq 0 _)), concat_map, map_map. f_equal. apply map_ext_in. intros k I. apply in_seq in I. rewrite Nat.sub_0_r.
  rewrite <- from_spec by (auto; lia). unfold id_of, peers. destruct (nth_error (nt_links n i) k) as [lk|] eqn:N; [|apply nth_error_None in N; lia].
  unfold on_message. rewrite sent_by_marked. destruct (markedb (lk_id lk) m); [reflexivity|]. rewrite !map_app, flat_map_app.
  f_equal; [destruct (lk_socket lk ServerPub)|destruct (lk_socket lk ClientPub)]; cbn [flat_map map]; rewrite ?app_nil_r, ?map_map; reflexivity.
Qed.

(** ** All routes up to a length *)

Fixpoint routes (n : net) (d i : nat) (a : option nat) : list (list hop) :=
  [] :: match d with
        | 0 => []
        | S d' => flat_map (fun h : hop => map (fun r : list hop => h :: r) (routes n d' (fst (snd h)) (Some (snd (snd h))))) (hops n i a)
        end.
Definition bounded (n : net) (d i : nat) (a : option nat) : Prop := forall r, route n i a r -> length r <= d.

Lemma route_inv n i a h r : route n i a (h :: r) <-> In h (hops n i a) /\ route n (fst (snd h)) (Some (snd (snd h))) r.
Proof.
  destruct h as (k & j & l). rewrite in_hops. split.
  - intros H. inversion H; subst. auto.
  - intros ((I & D) & R). now constructor.
Qed.

Lemma in_routes n d : forall i a r, In r (routes n d i a) <-> route n i a r /\ length r <= d.
Proof.
  induction d as [|d IH]; intros i a r; cbn [routes].
  - split; [intros [<-|[]]; split; [constructor|auto]|]. intros (_ & L). destruct r; [now left|cbn in L; lia].
  - cbn [In]. rewrite in_flat_map. split.
    + intros [<-|(h & I & J)]; [split; [constructor|cbn; lia]|]. apply in_map_iff in J as (r' & <- & J). apply IH in J as (J & L). split; [apply route_inv; auto|cbn; lia].
    + intros (R & L). destruct r as [|h r]; [now left|right]. apply route_inv in R as (I & R). exists h. split; auto. apply in_map, IH. split; auto. cbn in L. lia.
Qed.

Lemma routes_nodup n d : well_formed n -> forall i a, NoDup (routes n d i a).
Proof.
  intros W. induction d as [|d IH]; intros i a; cbn [routes]; [repeat constructor; auto|]. constructor.
  - intros I. apply in_flat_map in I as (h & _ & I). apply in_map_iff in I as (r & E & _). discriminate.
  - pose proof (hops_nodup n i a W) as D. induction D as [|h l Nh D IHD]; [constructor|]. cbn [flat_map].
    pose proof (IH (fst (snd h)) (Some (snd (snd h)))) as P. induction P as [|r rs Nr P IHP]; [exact IHD|]. cbn [map app]. constructor.
    + intros I. apply in_app_iff in I as [I|I].
      * apply in_map_iff in I as (r' & E & I). injection E as ->. auto.
      * apply in_flat_map in I as (h' & I' & I). apply in_map_iff in I as (r' & E & _). injection E as -> _. auto.
    + exact IHP.
Qed.

Lemma bounded_hop n d i a h : bounded n (S d) i a -> In h (hops n i a) -> bounded n d (fst (snd h)) (Some (snd (snd h))).
Proof. intros B I r R. assert (route n i a (h :: r)) as R' by (apply route_inv; auto). specialize (B _ R'). cbn in B. lia. Qed.

Lemma bounded_zero n i a : bounded n 0 i a -> hops n i a = [].
Proof.
  intros B. destruct (hops n i a) as [|h l] eqn:H; auto. assert (route n i a [h]) as R by (apply route_inv; rewrite H; split; [now left|constructor]).
  specialize (B _ R). cbn in B. lia.
Qed.

Lemma routes_stable n d : forall i a, bounded n d i a -> routes n (S d) i a = routes n d i a.
Proof.
  induction d as [|d IH]; intros i a B.
  - cbn [routes]. now rewrite (bounded_zero _ _ _ B).
  - change (routes n (S (S d)) i a) with ([] :: flat_map (fun h : hop => map (fun r : list hop => h :: r) (routes n (S d) (fst (snd h)) (Some (snd (snd h))))) (hops n i a)).
    change (routes n (S d) i a) with ([] :: flat_map (fun h : hop => map (fun r : list hop => h :: r) (routes n d (fst (snd h)) (Some (snd (snd h))))) (hops n i a)).
    f_equal. rewrite !flat_map_concat_map. f_equal. apply map_ext_in. intros h I. rewrite IH; auto. eapply bounded_hop; eauto.
Qed.

(** ** Accounting *)

Section Routes.
  Variable n : net.
  Hypothesis W : well_formed n.
  Variable d : nat.

  Definition arrivals (i : nat) (m : bmsg) (rs : list (list hop)) : list delivery := map (fun r => (end_of i r, carried n m r)) rs.
  Definition rt_out (x : item) : list delivery :=
    match x with
    | Dist i m => arrivals i m (routes n d i (from n i m))
    | Arrive i k m => arrivals i (mark (id_of n i k) m) (routes n d i (Some k))
    end.
  Definition rt_cost (x : item) : nat :=
    match x with
    | Dist i m => 2 * length (routes n d i (from n i m)) - 1
    | Arrive i k m => 2 * length (routes n d i (Some k))
    end.
  Definition rt_good (x : item) : Prop :=
    match x with
    | Dist i m => bounded n d i (from n i m)
    | Arrive i k m => k < length (nt_links n i) /\ bounded n d i (Some k)
    end.

  Lemma bounded_hop' i a h : bounded n d i a -> In h (hops n i a) -> bounded n d (fst (snd h)) (Some (snd (snd h))).
  Proof.
    intros B I. intros r R. destruct d as [|d']; [rewrite (bounded_zero _ _ _ B) in I; destruct I|]. pose proof (bounded_hop _ _ _ _ _ B I _ R). lia.
  Qed.

  Lemma arrive_process i k m : k < length (nt_links n i) -> process n (Arrive i k m) = ([], [Dist i (mark (id_of n i k) m)]).
  Proof. intros L. cbn [process]. unfold id_of. destruct (nth_error (nt_links n i) k) eqn:N; [reflexivity|]. apply nth_error_None in N. lia. Qed.

  Lemma hop_end i a h : In h (hops n i a) -> snd (snd h) < length (nt_links n (fst (snd h))).
  Proof. destruct h as (k & j & l). intros I. apply in_hops in I as (I & _). eapply wf_end; eauto. Qed.

  Lemma rt_closed x : rt_good x -> Forall rt_good (snd (process n x)).
  Proof.
    destruct x as [i m|i k m]; cbn [rt_good].
    - intros B. cbn [process snd]. rewrite forward_hops by exact W. apply Forall_forall. intros x I. apply in_map_iff in I as (h & <- & I). cbn [rt_good].
      split; [eapply hop_end; eauto|eapply bounded_hop'; eauto].
    - intros (L & B). rewrite arrive_process by exact L. cbn [snd]. apply Forall_cons; [|constructor]. cbn [rt_good]. now rewrite from_mark.
  Qed.

  Lemma routes_unfold i a : bounded n d i a ->
    routes n d i a = [] :: flat_map (fun h : hop => map (fun r : list hop => h :: r) (routes n d (fst (snd h)) (Some (snd (snd h))))) (hops n i a).
  Proof.
    intros B. rewrite <- routes_stable by exact B. reflexivity.
  Qed.

  Lemma rt_out_ok x : rt_good x -> Permutation (rt_out x) (fst (process n x) ++ flat_map rt_out (snd (process n x))).
  Proof.
    destruct x as [i m|i k m]; cbn [rt_good].
    - intros B. assert (forall l, map (fun r => (end_of i r, carried n m r)) (flat_map (fun h : hop => map (fun r : list hop => h :: r) (routes n d (fst (snd h)) (Some (snd (snd h))))) l) =
        flat_map rt_out (map (fun h : hop => Arrive (fst (snd h)) (snd (snd h)) m) l)) as Q.
      { induction l as [|h l IH]; [reflexivity|]. simpl. rewrite map_app, IH, map_map. reflexivity. }
      cbn [process fst snd rt_out]. rewrite forward_hops by exact W. rewrite routes_unfold by exact B. unfold arrivals. rewrite map_cons, Q. reflexivity.
    - intros (L & B). rewrite arrive_process by exact L. cbn [fst snd app flat_map rt_out]. rewrite from_mark by auto. now rewrite app_nil_r.
  Qed.

  Lemma rt_cost_ok x : rt_good x -> rt_cost x = S (list_sum (map rt_cost (snd (process n x)))).
  Proof.
    destruct x as [i m|i k m]; cbn [rt_good].
    - intros B. cbn [process fst snd rt_cost]. rewrite forward_hops by exact W. rewrite routes_unfold by exact B. rewrite map_map. cbn [length rt_cost].
      assert (forall l, list_sum (map (fun h : hop => 2 * length (routes n d (fst (snd h)) (Some (snd (snd h))))) l) =
        2 * length (flat_map (fun h : hop => map (fun r : list hop => h :: r) (routes n d (fst (snd h)) (Some (snd (snd h))))) l)) as Q.
      { induction l as [|h l IH]; [reflexivity|]. unfold list_sum in *. cbn [map fold_right flat_map]. rewrite IH, app_length, map_length. lia. }
      rewrite Q. lia.
    - intros (L & B). rewrite arrive_process by exact L. cbn [snd map rt_cost]. rewrite from_mark by auto. rewrite routes_unfold by exact B. unfold list_sum. cbn [fold_right length]. lia.
  Qed.
End Routes.

(** Boundedness, backwards along an execution. *)
Definition ends (n : net) (x : item) : Prop :=
  match x with
  | Dist i m => exists d, bounded n d i (from n i m)
  | Arrive i k m => k < length (nt_links n i) -> exists d, bounded n d i (Some k)
  end.

Lemma ends_back n x : well_formed n -> Forall (ends n) (snd (process n x)) -> ends n x.
Proof.
  intros W. destruct x as [i m|i k m].
  - cbn [process snd ends]. rewrite forward_hops by exact W. intros F.
    assert (forall l, incl l (hops n i (from n i m)) -> Forall (ends n) (map (fun h => Arrive (fst (snd h)) (snd (snd h)) m) l) ->
      exists d, forall h, In h l -> bounded n d (fst (snd h)) (Some (snd (snd h)))) as Q.
    { induction l as [|h l IH]; intros C F'; [exists 0; intros h []|]. cbn [map] in F'. inversion F' as [|? ? E1 E2]; subst. destruct IH as (d1 & H1); [intros y I; apply C; now right|exact E2|].
      destruct E1 as (d2 & H2); [eapply hop_end; eauto; apply C; now left|]. exists (d1 + d2). intros h' [<-|I] r R; [specialize (H2 _ R)|specialize (H1 _ I _ R)]; lia. }
    destruct (Q _ (incl_refl _) F) as (d & H). exists (S d). intros r R. destruct r as [|h r]; [cbn; lia|]. apply route_inv in R as (I & R). specialize (H _ I _ R). cbn. lia.
  - intros F L. rewrite arrive_process in F by exact L. cbn [snd] in F. inversion F as [|? ? E1 _]; subst. cbn [ends] in E1. now rewrite from_mark in E1.
Qed.

Lemma ends_exec n ls : well_formed n -> forall pend dels pend' dels', wexec n ls (pend, dels) = Some (pend', dels') -> Forall (ends n) pend' -> Forall (ends n) pend /\ Forall (fun p => ends n (Dist (fst p) (snd p))) (published ls).
Proof.
  intros W. induction ls as [|l ls IH]; cbn [wexec]; intros pend dels pend' dels' X F; [injection X as <- <-; split; [exact F|constructor]|].
  destruct (wstep n l (pend, dels)) as [[p1 d1]|] eqn:E; [|discriminate]. destruct (IH _ _ _ _ X F) as (A & B). destruct l as [i m|p]; cbn [wstep fst snd] in E.
  - injection E as <- <-. apply Forall_app in A as (A1 & A2). split; [exact A1|]. cbn [published flat_map app]. constructor; [inversion A2; auto|exact B].
  - destruct (take p pend) as [[x rest]|] eqn:T; [|discriminate]. pose proof (take_perm _ _ _ _ T) as Q. pose proof (ends_back n x W) as Bk. destruct (process n x) as [ds xs]. injection E as <- <-.
    apply Forall_app in A as (A1 & A2). split; [|exact B]. apply (Permutation_Forall (Permutation_sym Q)). constructor; auto.
Qed.

Lemma published_takes l : published (map WTake l) = [].
Proof. induction l; auto. Qed.
Lemma taken_takes l : taken (map WTake l) = length l.
Proof. unfold taken. induction l; cbn; auto. Qed.

(** ** C67 *)

(** In every order of processing: when nothing is pending any more, an unmarked publication has been delivered exactly once for
    every route from its node, at the route's end, with the names of the links it passed in front of its sender. *)
Theorem C67_delivers : forall n ls dels (R : nat -> list (list hop)),
  well_formed n -> wexec n ls ([], []) = Some ([], dels) ->
  (forall i m, In (WPublish i m) ls -> unmarked n i m) ->
  (forall i m, In (WPublish i m) ls -> NoDup (R i) /\ forall r, In r (R i) <-> route n i None r) ->
  Permutation dels (flat_map (fun p => map (fun r => (end_of (fst p) r, carried n (snd p) r)) (R (fst p))) (published ls)).
Proof.
  intros n ls dels R W X U HR.
  assert (forall p, In p (published ls) -> In (WPublish (fst p) (snd p)) ls) as PL.
  { intros p I. unfold published in I. apply in_flat_map in I as (l & Il & I). destruct l as [i m|]; [|destruct I]. destruct I as [<-|[]]. exact Il. }
  assert (exists d, Forall (fun p => bounded n d (fst p) None) (published ls)) as (d & B).
  { destruct (ends_exec n ls W _ _ _ _ X (Forall_nil _)) as (_ & E). clear X. induction (published ls) as [|p l IH]; [exists 0; constructor|]. inversion E as [|? ? (d1 & E1) E2]; subst.
    destruct IH as (d2 & H2); [intros q I; apply PL; now right|exact E2|]. exists (d1 + d2). rewrite from_unmarked in E1 by (auto; eapply U; apply PL; now left). constructor.
    - intros r Rt. specialize (E1 _ Rt). lia.
    - eapply Forall_impl; [|exact H2]. intros q Bq r Rt. specialize (Bq _ Rt). lia. }
  destruct (account n (rt_good n d) (rt_out n d) (rt_cost n d) (rt_closed n W d) (rt_out_ok n W d) (rt_cost_ok n W d) _ _ _ _ _ X) as (_ & A & _).
  - constructor.
  - apply Forall_forall. intros p I. rewrite Forall_forall in B. cbn [rt_good]. rewrite from_unmarked; auto.
  - cbn [flat_map app] in A. rewrite app_nil_r in A. rewrite A. clear A X. induction (published ls) as [|p l IH]; [reflexivity|]. cbn [flat_map]. apply Permutation_app.
    + cbn [rt_out]. rewrite from_unmarked by (auto; eapply U; apply PL; now left). unfold arrivals. apply Permutation_map. destruct (HR _ _ (PL p (or_introl eq_refl))) as (D & S1).
      apply NoDup_Permutation; [apply routes_nodup; exact W|exact D|]. intros r. rewrite in_routes, S1. split; [tauto|]. intros Rt. split; auto.
      inversion B as [|? ? B1 B2]; subst. apply B1. exact Rt.
    + apply IH; [intros q I; apply PL; now right|inversion B; auto].
Qed.
Print Assumptions C67_delivers.

(** A publication's exchange can come to an end exactly if there is a longest route from its node; then every order of processing
    ends. Otherwise something is pending for ever. *)
Theorem C67_stops : forall n i m, well_formed n -> unmarked n i m ->
  ((exists takes dels, wexec n (WPublish i m :: map WTake takes) ([], []) = Some ([], dels)) <->
   (exists d, forall r, route n i None r -> length r <= d)) /\
  ((exists d, forall r, route n i None r -> length r <= d) ->
   exists k, forall takes pend dels, wexec n (WPublish i m :: map WTake takes) ([], []) = Some (pend, dels) -> length takes + length pend <= k).
Proof.
  intros n i m W U. assert ((exists d, bounded n d i None) -> exists k, forall takes pend dels, wexec n (WPublish i m :: map WTake takes) ([], []) = Some (pend, dels) -> length takes + length pend <= k) as K.
  { intros (d & B). exists (rt_cost n d (Dist i m)). intros takes pend dels X.
    destruct (account n (rt_good n d) (rt_out n d) (rt_cost n d) (rt_closed n W d) (rt_out_ok n W d) (rt_cost_ok n W d) _ _ _ _ _ X) as (G & _ & A).
    - constructor.
    - cbn [published flat_map app]. fold (published (map WTake takes)). rewrite published_takes. constructor; [|constructor]. cbn [rt_good fst snd]. now rewrite from_unmarked.
    - cbn [published flat_map app] in A. fold (published (map WTake takes)) in A. rewrite published_takes in A. unfold taken in A. cbn [filter] in A. fold (taken (map WTake takes)) in A. rewrite taken_takes in A.
      unfold list_sum in A. cbn [map fold_right fst snd] in A.
      assert (length pend <= fold_right Nat.add 0 (map (rt_cost n d) pend)); [|lia].
      clear - G. induction G as [|x l Gx G IH]; [constructor|]. cbn [length map fold_right]. assert (1 <= rt_cost n d x); [|lia].
      destruct x; cbn [rt_cost]; destruct d; cbn [routes length]; lia. }
  split; [|exact K]. split.
  - intros (takes & dels & X). destruct (ends_exec n _ W _ _ _ _ X (Forall_nil _)) as (_ & E). cbn [published flat_map app] in E. inversion E as [|? ? E1 _]; subst. cbn [ends fst snd] in E1. now rewrite from_unmarked in E1.
  - intros B. destruct (K B) as (k & H). 
    assert (forall j, (exists takes dels, length takes <= j /\ wexec n (WPublish i m :: map WTake takes) ([], []) = Some ([], dels)) \/
                      (exists takes pend dels, length takes = j /\ wexec n (WPublish i m :: map WTake takes) ([], []) = Some (pend, dels))) as Q.
    { induction j as [|j IH]; [right; exists []; do 2 eexists; split; reflexivity|]. destruct IH as [(t & ds & L & X)|(t & pend & ds & L & X)]; [left; exists t, ds; split; auto; lia|].
      destruct pend as [|x pend]; [left; exists t, ds; split; auto; lia|]. right. exists (t ++ [0]). destruct (C60_live n (x :: pend) ds) as ([p2 d2] & S1); [discriminate|]. exists p2, d2.
      rewrite app_length. split; [cbn; lia|]. rewrite map_app. change (WPublish i m :: map WTake t ++ map WTake [0]) with ((WPublish i m :: map WTake t) ++ map WTake [0]).
      assert (forall ls1 ls2 s, wexec n (ls1 ++ ls2) s = match wexec n ls1 s with Some s' => wexec n ls2 s' | None => None end) as WA.
      { clear. intros ls1. induction ls1 as [|l ls1 IH']; intros ls2 s; [reflexivity|]. cbn [app wexec]. destruct (wstep n l s); auto. }
      rewrite WA, X. cbn [map wexec]. now rewrite S1. }
    destruct (Q (S k)) as [(t & ds & _ & X)|(t & pend & ds & L & X)]; [eauto|]. specialize (H _ _ _ X). lia.
Qed.
Print Assumptions C67_stops.

Lemma finite_max (P : nat -> nat -> Prop) N : (forall x d d', P x d -> d <= d' -> P x d') -> (forall x, x < N -> exists d, P x d) -> exists d, forall x, x < N -> P x d.
Proof.
  intros M. induction N as [|N IH]; intros H; [exists 0; lia|]. destruct IH as (d1 & H1); [intros; apply H; lia|]. destruct (H N) as (d2 & H2); [lia|].
  exists (d1 + d2). intros x L. destruct (Nat.eq_dec x N) as [->|]; [eapply M; [exact H2|lia]|eapply M; [apply H1; lia|lia]].
Qed.

Lemma route_end n N : (forall i k j l, i < N -> In (j, l) (peers n i k) -> j < N) -> forall i a r, route n i a r -> i < N -> end_of i r < N.
Proof. intros H i a r R. induction R; intros L; cbn [end_of fst snd]; [exact L|]. apply IHR. eapply H; eauto. Qed.

Lemma carried_payload n r : forall m, bm_topic (carried n m r) = bm_topic m /\ bm_data (carried n m r) = bm_data m.
Proof. induction r as [|h r IH]; intros m; cbn [carried]; [auto|]. destruct (IH (mark (id_of n (fst (snd h)) (snd (snd h))) m)) as (-> & ->). auto. Qed.

(** Nodes joined in a tree - there is exactly one route from any node to any other. Then the exchange stops and every unmarked
    publication is delivered exactly once on every node, with its topic and its data. *)
Definition tree (n : net) (N : nat) : Prop :=
  (forall i k j l, i < N -> In (j, l) (peers n i k) -> j < N) /\
  (forall i j, i < N -> j < N -> exists! r, route n i None r /\ end_of i r = j).

Lemma tree_bound n N : tree n N -> exists d, forall i, i < N -> bounded n d i None.
Proof.
  intros (C & T). apply (finite_max (fun i d => bounded n d i None)).
  - intros i d d' B L r R. specialize (B _ R). lia.
  - intros i Li. destruct (finite_max (fun j d => forall r, route n i None r -> end_of i r = j -> length r <= d) N) as (d & H).
    + intros j d d' B L r R E. specialize (B _ R E). lia.
    + intros j Lj. destruct (T i j Li Lj) as (r0 & (R0 & E0) & Un). exists (length r0). intros r R E. rewrite (Un r); auto.
    + exists d. intros r R. apply (H (end_of i r)); auto. eapply route_end; eauto.
Qed.

Theorem C67_tree : forall n N ls dels, well_formed n -> tree n N ->
  wexec n ls ([], []) = Some ([], dels) -> (forall i m, In (WPublish i m) ls -> i < N /\ unmarked n i m) ->
  Permutation (map (fun d => (fst d, bm_topic (snd d), bm_data (snd d))) dels)
    (flat_map (fun p => map (fun j => (j, bm_topic (snd p), bm_data (snd p))) (seq 0 N)) (published ls)).
Proof.
  intros n N ls dels W T X U. destruct (tree_bound _ _ T) as (d & B). destruct T as (C & T).
  assert (forall i, i < N -> Permutation (map (end_of i) (routes n d i None)) (seq 0 N)) as Q.
  { intros i Li. apply NoDup_Permutation.
    - pose proof (routes_nodup n d W i None) as D.
      assert (forall r r', In r (routes n d i None) -> In r' (routes n d i None) -> end_of i r = end_of i r' -> r = r') as J.
      { intros r r' I I' E. apply in_routes in I as (R & _). apply in_routes in I' as (R' & _). destruct (T i (end_of i r) Li) as (r0 & _ & Un); [eapply route_end; eauto|].
        transitivity r0; [symmetry|]; apply Un; auto. }
      clear - D J. induction D as [|r l Nr D IH]; [constructor|]. cbn [map]. constructor.
      + intros I. apply in_map_iff in I as (r' & E & I). apply Nr. rewrite <- (J r' r); auto; [now right|now left].
      + apply IH. intros; apply J; auto; now right.
    - apply seq_NoDup.
    - intros j. rewrite in_map_iff, in_seq. split.
      + intros (r & <- & I). apply in_routes in I as (R & _). split; [lia|]. eapply route_end; eauto.
      + intros (_ & Lj). destruct (T i j Li Lj) as (r0 & (R0 & E0) & _). exists r0. split; auto. apply in_routes. split; auto. now apply (B i). }
  assert (forall p, In p (published ls) -> In (WPublish (fst p) (snd p)) ls) as PL.
  { intros p I. unfold published in I. apply in_flat_map in I as (l & Il & I). destruct l as [i m|]; [|destruct I]. destruct I as [<-|[]]. exact Il. }
  rewrite (Permutation_map _ (C67_delivers n ls dels (fun i => routes n d i None) W X (fun i m I => proj2 (U i m I))
    (fun i m I => conj (routes_nodup n d W i None) (fun r => conj (fun J => proj1 (proj1 (in_routes n d i None r) J)) (fun R => proj2 (in_routes n d i None r) (conj R (B i (proj1 (U i m I)) r R))))))).
  clear X. induction (published ls) as [|(i & m) l IH]; [reflexivity|]. simpl. rewrite map_app. apply Permutation_app; [|apply IH; intros q I; apply PL; now right].
  rewrite map_map. cbn [fst snd]. rewrite (map_ext _ (fun r => (fun j => (j, bm_topic m, bm_data m)) (end_of i r))).
  - rewrite <- (map_map (end_of i) (fun j => (j, bm_topic m, bm_data m))). apply Permutation_map, Q. apply (U i m). apply (PL (i, m)). now left.
  - intros r. destruct (carried_payload n r m) as (-> & ->). reflexivity.
Qed.
Print Assumptions C67_tree.

Theorem C67_tree_stops : forall n N i m, well_formed n -> tree n N -> i < N -> unmarked n i m ->
  exists k, forall takes pend dels, wexec n (WPublish i m :: map WTake takes) ([], []) = Some (pend, dels) -> length takes + length pend <= k.
Proof. intros n N i m W T L U. destruct (tree_bound _ _ T) as (d & B). apply C67_stops; auto. exists d. now apply B. Qed.
Print Assumptions C67_tree_stops.

(** If there are routes of every length, something is pending for ever. *)
Theorem C67_cycle : forall n i m, well_formed n -> unmarked n i m ->
  (forall d, exists r, route n i None r /\ length r = d) ->
  forall takes pend dels, wexec n (WPublish i m :: map WTake takes) ([], []) = Some (pend, dels) -> pend <> [].
Proof.
  intros n i m W U H takes pend dels X ->. destruct (proj1 (proj1 (C67_stops n i m W U))) as (d & B); [eauto|].
  destruct (H (S d)) as (r & R & L). specialize (B _ R). lia.
Qed.
Print Assumptions C67_cycle.

(** ** Concrete networks *)

(** Three nodes in a line 1 - 0 - 2: node 0 has a server link for each of the others. *)
Definition srv (id : string) : link := mkLink id 1 7 (fun k => match k with ServerPub | ServerSub => true | _ => false end).
Definition cli (id : string) : link := mkLink id 1 7 (fun k => match k with ClientPub | ClientSub => true | _ => false end).
Definition line : net :=
  mkNet (fun i => match i with 0 => [srv "Link0"; srv "Link1"] | 1 => [cli "Link0"] | 2 => [cli "Link0"] | _ => [] end)
        (fun i k r => match i, k, r with 0, 0, Server => [(1, 0)] | 0, 1, Server => [(2, 0)] | 1, 0, Client => [(0, 0)] | 2, 0, Client => [(0, 1)] | _, _, _ => [] end).
(** Three nodes in a ring: link 0 of each is a server for link 1 of the next. *)
Definition ring : net :=
  mkNet (fun i => match i with 0 | 1 | 2 => [srv "Link0"; cli "Link1"] | _ => [] end)
        (fun i k r => match i, k, r with
                      | 0, 0, Server => [(1, 1)] | 1, 0, Server => [(2, 1)] | 2, 0, Server => [(0, 1)]
                      | 1, 1, Client => [(0, 0)] | 2, 1, Client => [(1, 0)] | 0, 1, Client => [(2, 0)]
                      | _, _, _ => [] end).

Ltac no_slash := repeat constructor; intros I; cbn in I; repeat destruct I as [I|I]; discriminate || contradiction.

Lemma line_wf : well_formed line.
Proof.
  constructor.
  - intros [|[|[|]]]; cbn; no_slash.
  - intros [|[|[|]]]; cbn; repeat constructor; cbn; intros I; repeat destruct I as [I|I]; discriminate || contradiction.
  - intros [|[|[|]]] [|[|[|]]] j l; cbn; intros I; repeat destruct I as [I|I]; try contradiction; injection I as <- <-; cbn; lia.
  - intros [|[|[|]]] [|[|[|]]]; cbn; repeat constructor; auto.
Qed.
Lemma ring_wf : well_formed ring.
Proof.
  constructor.
  - intros [|[|[|]]]; cbn; no_slash.
  - intros [|[|[|]]]; cbn; repeat constructor; cbn; intros I; repeat destruct I as [I|I]; discriminate || contradiction.
  - intros [|[|[|]]] [|[|[|]]] j l; cbn; intros I; repeat destruct I as [I|I]; try contradiction; injection I as <- <-; cbn; lia.
  - intros [|[|[|]]] [|[|[|]]]; cbn; repeat constructor; auto.
Qed.

Lemma route_prefix n k : forall i a r, route n i a r -> route n i a (firstn k r).
Proof. induction k as [|k IH]; intros i a r R; [constructor|]. destruct R; cbn [firstn]; constructor; auto. Qed.
Lemma check_bound n d i a : forallb (fun r => Nat.leb (length r) d) (routes n (S d) i a) = true -> bounded n d i a.
Proof.
  intros F r R. rewrite forallb_forall in F. assert (In (firstn (S d) r) (routes n (S d) i a)) as I by (apply in_routes; split; [now apply route_prefix|apply firstn_le_length]).
  specialize (F _ I). apply Nat.leb_le in F. rewrite firstn_length in F. lia.
Qed.

Lemma line_tree : tree line 3.
Proof.
  split.
  - intros [|[|[|]]] [|[|[|]]] j l L; cbn; intros I; repeat destruct I as [I|I]; try contradiction; injection I as <- <-; lia.
  - assert (forall i r, i < 3 -> route line i None r -> In r (routes line 2 i None)) as RT.
    { intros i r L R. apply in_routes. split; auto. revert r R. apply (check_bound line 2 i None). destruct i as [|[|[|]]]; [reflexivity..|lia]. }
    assert (forall i r, In r (routes line 2 i None) -> route line i None r) as RT' by (intros i r I; now apply in_routes in I).
    intros i j Li Lj. destruct i as [|[|[|]]]; [| | |lia]; (destruct j as [|[|[|]]]; [| | |lia]);
      match goal with |- exists ! r, route line ?i None r /\ _ = ?j => 
        let l := eval vm_compute in (filter (fun r => Nat.eqb (end_of i r) j) (routes line 2 i None)) in
        match l with [?r0] => exists r0; split; [split; [apply RT'; vm_compute; repeat (first [left; reflexivity|right])|reflexivity]|] end end;
      intros r (R & E); (apply RT in R; [|lia]); vm_compute in R; repeat destruct R as [<-|R]; try reflexivity; try (vm_compute in E; discriminate); contradiction.
Qed.

Example C67_tree_case : well_formed line /\ tree line 3 /\ unmarked line 1 ex_m /\
  wexec line (WPublish 1 ex_m :: map WTake [0; 0; 0; 0; 0]) ([], []) =
  Some ([], [(1, ex_m); (0, mark "Link0" ex_m); (2, mark "Link0" (mark "Link0" ex_m))]).
Proof.
  split; [apply line_wf|]. split; [apply line_tree|]. split; [|vm_compute; reflexivity].
  intros lk [<-|[]] (r & E). discriminate.
Qed.

(** Round the ring, as long as one likes. *)
Fixpoint around (i d : nat) : list hop := match d with 0 => [] | S d' => let j := match i with 0 => 1 | 1 => 2 | _ => 0 end in (0, (j, 1)) :: around j d' end.
Example C67_cycle_case : well_formed ring /\ unmarked ring 0 ex_m /\ forall d, exists r, route ring 0 None r /\ length r = d.
Proof.
  split; [apply ring_wf|]. split; [intros lk [<-|[<-|[]]] (r & E); discriminate|]. intros d. exists (around 0 d).
  assert (forall d i a, i < 3 -> a <> Some 0 -> route ring i a (around i d) /\ length (around i d) = d) as Q; [|apply Q; [lia|discriminate]].
  clear. induction d as [|d IH]; intros i a L N; cbn [around]; [split; [constructor|reflexivity]|].
  destruct i as [|[|[|]]]; [| | |lia]; cbv zeta; match goal with |- route _ _ _ ((0, (?j, 1)) :: _) /\ _ => destruct (IH j (Some 1)) as (A & B); [lia|discriminate|] end;
    (split; [constructor; [cbn; auto|exact N|exact A]|cbn [length]; now rewrite B]).
Qed.

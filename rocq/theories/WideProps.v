(** C94: what is published on one process reaches the subscribers on all. *)
From Coq Require Import String List Arith ZArith Bool Lia Permutation.
From Verif Require Import Prelude OMap DatagramModel DatagramSpec NetProps BusModel BusSpec BusProofs LinkModel NodeModel NetModel NodeProps RouteProps ClusterModel ClusterSpec ClusterProofs ClusterProps SysInfoModel WideSpec WideProofs.
Import ListNotations.
Open Scope string_scope.
Open Scope list_scope.

(** On each process, a subscriber that is there from before the first distribution is called once for each message for its topic that the root bus
    accepted, in the order of acceptance; with the data, if SetDatagramCallback was called. *)
Theorem C94_order_data : forall n rt ls0 c0 T0 ls c T i b s topic u,
  cexec n ls0 cl_init = Some (c0, T0) -> cexec n ls c0 = Some (c, T) ->
  distributed T0 = [] -> one_root rt (T0 ++ T) -> at_rest c ->
  calways (subscribed i (rt i) b s topic (CbData (Some u))) n ls c0 ->
  calls (T0 ++ T) i s = map (fun m => CallData u (bm_data m)) (filter (fun m => wants topic (bm_topic m)) (queued (T0 ++ T) i (rt i))).
Proof.
  intros n rt ls0 c0 T0 ls c T i b s topic u X0 X Q R E S. eapply (calls_queued n rt ls0 ls c0 c T0 T X0 X Q R E i b s topic _ (fun m => CallData u (bm_data m))); [|exact S].
  intros st m N. unfold receive. now rewrite N.
Qed.
Print Assumptions C94_order_data.

(** With the message, if SetMessageCallback was called. *)
Theorem C94_order_message : forall n rt ls0 c0 T0 ls c T i b s topic u,
  cexec n ls0 cl_init = Some (c0, T0) -> cexec n ls c0 = Some (c, T) ->
  distributed T0 = [] -> one_root rt (T0 ++ T) -> at_rest c ->
  calways (subscribed i (rt i) b s topic (CbMsg u)) n ls c0 ->
  calls (T0 ++ T) i s = map (CallMsg u) (filter (fun m => wants topic (bm_topic m)) (queued (T0 ++ T) i (rt i))).
Proof.
  intros n rt ls0 c0 T0 ls c T i b s topic u X0 X Q R E S. eapply (calls_queued n rt ls0 ls c0 c T0 T X0 X Q R E i b s topic _ (CallMsg u)); [|exact S].
  intros st m N. unfold receive. now rewrite N.
Qed.
Print Assumptions C94_order_message.

Lemma filter_wants topic (l : list bmsg) (td : list (string * dg)) : map (fun m => (bm_topic m, bm_data m)) l = td ->
  map (fun m => (bm_topic m, bm_data m)) (filter (fun m => wants topic (bm_topic m)) l) = filter (fun x => wants topic (fst x)) td.
Proof. intros <-. induction l as [|m l IH]; [reflexivity|]. cbn [filter map fst]. destruct (wants topic (bm_topic m)); cbn [map]; now rewrite IH. Qed.
Lemma perm_filter {A} (f : A -> bool) l l' : Permutation l l' -> Permutation (filter f l) (filter f l').
Proof.
  induction 1 as [|x l l' P IH|x y l|l l' l'' P IH P' IH']; cbn [filter]; auto.
  - destruct (f x); auto.
  - destruct (f x), (f y); auto. constructor.
  - now transitivity (filter f l').
Qed.

Lemma tree_here n N rt pos ls0 c0 T0 ls c T i :
  cexec n ls0 cl_init = Some (c0, T0) -> cexec n ls c0 = Some (c, T) -> own_callbacks n (ls0 ++ ls) ->
  distributed T0 = [] -> calways (attached n rt pos) n ls c0 -> one_root rt (T0 ++ T) -> at_rest c ->
  well_formed n -> tree n N -> (forall j m, In (j, m) (local (T0 ++ T)) -> j < N /\ unmarked n j m) -> i < N ->
  Permutation (map (fun m => (bm_topic m, bm_data m)) (queued (T0 ++ T) i (rt i))) (map (fun p => (bm_topic (snd p), bm_data (snd p))) (local (T0 ++ T))).
Proof.
  intros X0 X O Q A R E W Tr L Li. pose proof (C91_tree _ _ _ _ _ _ _ _ _ _ X0 X O Q A R E W Tr L) as P.
  pose proof (here_queued n rt ls0 ls c0 c T0 T X0 X R E i) as H. apply (Permutation_map (fun m => (bm_topic m, bm_data m))) in H. rewrite <- H. clear H.
  apply (Permutation_flat_map (fun d : nat * string * dg => if Nat.eqb (fst (fst d)) i then [(snd (fst d), snd d)] else [])) in P.
  match type of P with Permutation ?a ?b => assert (a = map (fun m => (bm_topic m, bm_data m)) (here i (distributed (T0 ++ T)))) as Ea; [|assert (b = map (fun p => (bm_topic (snd p), bm_data (snd p))) (local (T0 ++ T))) as Eb; [|now rewrite <- Ea, <- Eb]] end.
  - clear. induction (distributed (T0 ++ T)) as [|(j & m) l IH]; [reflexivity|]. unfold here in *. cbn [map flat_map fst snd]. rewrite map_app, IH. destruct (Nat.eqb j i); reflexivity.
  - clear - Li. induction (local (T0 ++ T)) as [|(j & m) l IH]; [reflexivity|]. cbn [map flat_map fst snd]. rewrite flat_map_app, IH.
    enough (flat_map (fun d : nat * string * dg => if Nat.eqb (fst (fst d)) i then [(snd (fst d), snd d)] else []) (map (fun j0 => (j0, bm_topic m, bm_data m)) (seq 0 N)) = [(bm_topic m, bm_data m)]) as -> by reflexivity.
    replace N with (i + (1 + (N - S i))) by lia. rewrite seq_app, map_app, flat_map_app. cbn [Nat.add seq map flat_map fst snd]. rewrite Nat.eqb_refl.
    assert (forall a k, (i < a \/ a + k <= i) -> flat_map (fun d : nat * string * dg => if Nat.eqb (fst (fst d)) i then [(snd (fst d), snd d)] else []) (map (fun j0 => (j0, bm_topic m, bm_data m)) (seq a k)) = []) as Z.
    { intros a k. revert a. induction k as [|k IHk]; intros a H; [reflexivity|]. cbn [seq map flat_map fst snd]. rewrite (proj2 (Nat.eqb_neq a i)) by lia. cbn [app]. apply IHk. lia. }
    rewrite !Z by lia. reflexivity.
Qed.

(** Processes joined in a tree: every message published on any of them is handed exactly once to every subscriber for its topic on any of
    them, and nothing else is. *)
Theorem C94_tree_data : forall n N rt pos ls0 c0 T0 ls c T i b s topic u,
  cexec n ls0 cl_init = Some (c0, T0) -> cexec n ls c0 = Some (c, T) -> own_callbacks n (ls0 ++ ls) ->
  distributed T0 = [] -> calways (attached n rt pos) n ls c0 -> one_root rt (T0 ++ T) -> at_rest c ->
  well_formed n -> tree n N -> (forall j m, In (j, m) (local (T0 ++ T)) -> j < N /\ unmarked n j m) ->
  i < N -> calways (subscribed i (rt i) b s topic (CbData (Some u))) n ls c0 ->
  Permutation (calls (T0 ++ T) i s)
    (map (fun p => CallData u (bm_data (snd p))) (filter (fun p => wants topic (bm_topic (snd p))) (local (T0 ++ T)))).
Proof.
  intros n N rt pos ls0 c0 T0 ls c T i b s topic u X0 X O Q A R E W Tr L Li S. rewrite (C94_order_data _ _ _ _ _ _ _ _ _ _ _ _ _ X0 X Q R E S).
  pose proof (tree_here _ _ _ _ _ _ _ _ _ _ _ X0 X O Q A R E W Tr L Li) as P. apply (perm_filter (fun x => wants topic (fst x))) in P. apply (Permutation_map (fun x => CallData u (snd x))) in P.
  rewrite <- (filter_wants topic (queued (T0 ++ T) i (rt i)) _ eq_refl), map_map in P. cbn [snd] in P. rewrite P. apply Permutation_refl'.
  clear. induction (local (T0 ++ T)) as [|p l IH]; [reflexivity|]. cbn [filter map fst snd]. destruct (wants topic (bm_topic (snd p))); cbn [map snd]; now rewrite IH.
Qed.
Print Assumptions C94_tree_data.

Theorem C94_tree_message : forall n N rt pos ls0 c0 T0 ls c T i b s topic u,
  cexec n ls0 cl_init = Some (c0, T0) -> cexec n ls c0 = Some (c, T) -> own_callbacks n (ls0 ++ ls) ->
  distributed T0 = [] -> calways (attached n rt pos) n ls c0 -> one_root rt (T0 ++ T) -> at_rest c ->
  well_formed n -> tree n N -> (forall j m, In (j, m) (local (T0 ++ T)) -> j < N /\ unmarked n j m) ->
  i < N -> calways (subscribed i (rt i) b s topic (CbMsg u)) n ls c0 ->
  exists ms, calls (T0 ++ T) i s = map (CallMsg u) ms /\
    Permutation (map (fun m => (bm_topic m, bm_data m)) ms)
      (map (fun p => (bm_topic (snd p), bm_data (snd p))) (filter (fun p => wants topic (bm_topic (snd p))) (local (T0 ++ T)))).
Proof.
  intros n N rt pos ls0 c0 T0 ls c T i b s topic u X0 X O Q A R E W Tr L Li S. rewrite (C94_order_message _ _ _ _ _ _ _ _ _ _ _ _ _ X0 X Q R E S). eexists. split; [reflexivity|].
  pose proof (tree_here _ _ _ _ _ _ _ _ _ _ _ X0 X O Q A R E W Tr L Li) as P. apply (perm_filter (fun x => wants topic (fst x))) in P.
  rewrite <- (filter_wants topic (queued (T0 ++ T) i (rt i)) _ eq_refl) in P. rewrite P. apply Permutation_refl'.
  clear. induction (local (T0 ++ T)) as [|p l IH]; [reflexivity|]. cbn [filter map fst snd]. destruct (wants topic (bm_topic (snd p))); cbn [map snd]; now rewrite IH.
Qed.
Print Assumptions C94_tree_message.

(** ** A server and clients *)

(** What process [i] owes its subscribers: what is published on it, and what is published on its peers, marked. *)
Definition owed (name : string) (i : nat) (L : list delivery) : list bmsg :=
  flat_map (fun p => if Nat.eqb (fst p) i then [snd p]
                     else if markedb name (snd p) then []
                     else if Nat.eqb (fst p) 0 || Nat.eqb i 0 then [mkM (name ++ "/" ++ bm_sender (snd p)) (bm_topic (snd p)) (bm_data (snd p))] else []) L.

Definition star_owed (k : nat) (name : string) (p : delivery) : list delivery :=
  p :: (if markedb name (snd p) then [] else if Nat.eqb (fst p) 0 then map (fun j => (j, mark name (snd p))) (seq 1 k) else [(0, mark name (snd p))]).

Lemma owed_star k name i L : i <= k -> (forall j m, In (j, m) L -> j <= k) -> here i (flat_map (star_owed k name) L) = owed name i L.
Proof.
  intros Li H. rewrite here_flat_map. unfold owed. induction L as [|(j & m) L IH]; [reflexivity|]. cbn [flat_map]. rewrite IH by (intros; eapply H; right; eauto). f_equal. clear IH.
  assert (j <= k) as Lj by (eapply H; left; reflexivity). unfold star_owed, here. cbn [flat_map fst snd].
  assert (forall a q, flat_map (fun d : delivery => if Nat.eqb (fst d) i then [snd d] else []) (map (fun j0 => (j0, mark name m)) (seq a q)) = if Nat.leb a i && Nat.ltb i (a + q) then [mark name m] else []) as Z.
  { intros a q. revert a. induction q as [|q IH]; intros a; cbn [seq map flat_map fst snd].
    - destruct (Nat.leb_spec a i), (Nat.ltb_spec i (a + 0)); cbn; auto; lia.
    - rewrite IH. destruct (Nat.eqb_spec a i) as [->|]; cbn [app].
      + destruct (Nat.leb_spec (S i) i), (Nat.leb_spec i i), (Nat.ltb_spec i (i + S q)); cbn; auto; lia.
      + destruct (Nat.leb_spec (S a) i), (Nat.leb_spec a i), (Nat.ltb_spec i (S a + q)), (Nat.ltb_spec i (a + S q)); cbn; auto; lia. }
  destruct (Nat.eqb_spec j i) as [->|Nj]; cbn [app].
  - f_equal. destruct (markedb name m); [reflexivity|]. destruct (Nat.eqb_spec i 0) as [->|Ni]; [rewrite Z; reflexivity|].
    cbn [flat_map fst snd app]. rewrite (proj2 (Nat.eqb_neq 0 i)) by lia. reflexivity.
  - destruct (markedb name m); [reflexivity|]. destruct (Nat.eqb_spec j 0) as [->|Nj0]; cbn [orb].
    + rewrite Z. destruct (Nat.leb_spec 1 i), (Nat.ltb_spec i (1 + k)); try lia. reflexivity.
    + cbn [flat_map fst snd app]. rewrite Nat.eqb_sym. destruct (Nat.eqb_spec i 0); reflexivity.
Qed.

(** A server with [k] clients, whatever numbers their buses have: a subscriber gets every message published on its own process as it is, and every message published on a peer
    once, with the sender marked by the link; clients get nothing from other clients. *)
Theorem C94_star : forall k name n rt pos ls0 c0 T0 ls c T i b s topic u,
  a_star k name n ->
  cexec n ls0 cl_init = Some (c0, T0) -> cexec n ls c0 = Some (c, T) -> own_callbacks n (ls0 ++ ls) ->
  distributed T0 = [] -> calways (attached n rt pos) n ls c0 -> one_root rt (T0 ++ T) -> at_rest c ->
  (forall j m, In (j, m) (local (T0 ++ T)) -> j <= k) ->
  i <= k -> calways (subscribed i (rt i) b s topic (CbMsg u)) n ls c0 ->
  Permutation (calls (T0 ++ T) i s) (map (CallMsg u) (filter (fun m => wants topic (bm_topic m)) (owed name i (local (T0 ++ T))))).
Proof.
  intros k name n rt pos ls0 c0 T0 ls c T i b s topic u St X0 X O Q A R E L Li S. rewrite (C94_order_message _ _ _ _ _ _ _ _ _ _ _ _ _ X0 X Q R E S).
  apply Permutation_map, perm_filter. rewrite <- (here_queued n rt ls0 ls c0 c T0 T X0 X R E i). rewrite <- (owed_star k name i _ Li L). apply perm_here.
  destruct (C91_settles _ _ _ _ _ _ _ _ _ X0 X O Q A R E) as (ws & W & P). destruct (star_alike _ _ _ St) as (SL & SW). rewrite (alike_exec _ _ SL SW) in W. rewrite <- P in *.
  apply (C60_star _ _ _ _ W). intros j m I. apply (L j m). unfold published. apply in_flat_map. exists (WPublish j m). split; [exact I|now left].
Qed.
Print Assumptions C94_star.

(** With the data only. *)
Theorem C94_star_data : forall k name n rt pos ls0 c0 T0 ls c T i b s topic u,
  a_star k name n ->
  cexec n ls0 cl_init = Some (c0, T0) -> cexec n ls c0 = Some (c, T) -> own_callbacks n (ls0 ++ ls) ->
  distributed T0 = [] -> calways (attached n rt pos) n ls c0 -> one_root rt (T0 ++ T) -> at_rest c ->
  (forall j m, In (j, m) (local (T0 ++ T)) -> j <= k) ->
  i <= k -> calways (subscribed i (rt i) b s topic (CbData (Some u))) n ls c0 ->
  Permutation (calls (T0 ++ T) i s) (map (fun m => CallData u (bm_data m)) (filter (fun m => wants topic (bm_topic m)) (owed name i (local (T0 ++ T))))).
Proof.
  intros k name n rt pos ls0 c0 T0 ls c T i b s topic u St X0 X O Q A R E L Li S. rewrite (C94_order_data _ _ _ _ _ _ _ _ _ _ _ _ _ X0 X Q R E S).
  apply Permutation_map, perm_filter. rewrite <- (here_queued n rt ls0 ls c0 c T0 T X0 X R E i). rewrite <- (owed_star k name i _ Li L). apply perm_here.
  destruct (C91_settles _ _ _ _ _ _ _ _ _ X0 X O Q A R E) as (ws & W & P). destruct (star_alike _ _ _ St) as (SL & SW). rewrite (alike_exec _ _ SL SW) in W. rewrite <- P in *.
  apply (C60_star _ _ _ _ W). intros j m I. apply (L j m). unfold published. apply in_flat_map. exists (WPublish j m). split; [exact I|now left].
Qed.
Print Assumptions C94_star_data.

(** At every moment of every execution, whatever subscribers and callbacks come and go: no subscriber has been called for a message
    that it is not owed, or twice for one. *)
Theorem C94_most : forall k name n ls c T i s,
  a_star k name n -> cexec n ls cl_init = Some (c, T) -> own_callbacks n ls -> (forall j m, In (j, m) (local T) -> j <= k) -> i <= k ->
  exists rest, Permutation (heard T i s ++ rest) (owed name i (local T)).
Proof.
  intros k name n ls c T i s St X O L Li. destruct (heard_here _ _ _ _ i s X) as (r1 & P1). 
  destruct (C91_refines _ _ _ _ X O) as (ws & pend & W & P). destruct (star_alike _ _ _ St) as (SL & SW). rewrite (alike_exec _ _ SL SW) in W. rewrite <- P in *.
  destruct (account (star k name) (star_good k) (star_out k name) (star_cost k name) (star_closed k name) (star_out_ok k name) (star_cost_ok k name) _ _ _ _ _ W) as (_ & B & _); [constructor|apply Forall_forall; intros p _; exact I|].
  exists (r1 ++ here i (flat_map (star_out k name) pend)). rewrite app_assoc. rewrite P1, <- here_app, <- (owed_star k name i _ Li L). apply perm_here.
  cbn [flat_map app] in B. rewrite B. apply Permutation_refl'.
  clear - L. induction (published ws) as [|(j & m) l IH]; [reflexivity|]. cbn [flat_map]. rewrite IH by (intros a b J; apply (L a b); now right).
  f_equal. cbn [fst snd star_out]. replace (Nat.leb j k) with true by (symmetry; apply Nat.leb_le; apply (L j m); now left). reflexivity.
Qed.
Print Assumptions C94_most.

(** ** A concrete run: the two processes of the default configurations, a server and a client, each with SysInfo and Link on buses of their own; SysInfo of the client
    says hello, and both log it. *)

Definition wx_net : net :=
  mkNet (fun i => match i with
                  | 0 => [mkLink "Link0" 2 7 (fun k => match k with ServerPub | ServerSub => true | _ => false end)]
                  | 1 => [mkLink "Link0" 2 7 (fun k => match k with ClientPub | ClientSub => true | _ => false end)]
                  | _ => []
                  end)
        (fun i k r => match i, k, r with 0, 0, Server => [(1, 0)] | S _, 0, Client => [(0, 0)] | _, _, _ => [] end).
Definition wx_boot (i : nat) : list clabel :=
  map (CBus i) ([LNewRoot "root"; LChild 0 "SysInfo0"] ++ initialize 1 1 2 0 ++ [LChild 0 "Link0"; LSub 2 "/**/*" None; LSetMsg 2 (Some 7); LStart 0]).
Definition wx_set : list clabel := wx_boot 0 ++ wx_boot 1.
Definition wx_distribute (i : nat) : list clabel := map (CBus i) (repeat (LRun 0) 7 ++ [LReturn 0] ++ repeat (LRun 0) 5 ++ [LReturn 0] ++ repeat (LRun 0) 8).
Definition wx_run : list clabel := map (CBus 1) [LPublish 0 hello; LFly 0; LFly 0] ++ wx_distribute 1 ++ [CTake 0; CBus 0 (LFly 0)] ++ wx_distribute 0.

Definition wx_okb (st : state) : bool :=
  match s_buses st, nth_error (s_subs st) 0, nth_error (s_subs st) 2 with
  | [x; y; z], Some (mkSub t0 (Some (CbData (Some u)))), Some (mkSub t2 (Some (CbMsg v))) =>
      Nat.eqb u 1 && Nat.eqb v 7 && String.eqb t0 "/sysinfo" && String.eqb t2 "/**/*" &&
      b_run x && b_run y && b_run z && existsb (Nat.eqb 0) (b_subs y) && existsb (Nat.eqb 2) (b_subs z) && existsb (Nat.eqb 1) (map snd (b_kids x)) &&
      existsb (Nat.eqb 2) (map snd (b_kids x)) && match b_fn z with Some (ToQueue 0) => true | _ => false end
  | _, _, _ => false
  end.
Lemma wx_okb_ok st : wx_okb st = true ->
  (serving 0 2 2 st /\ nth_error (s_subs st) 2 = Some (mkSub "/**/*" (Some (CbMsg 7))) /\ exists x, get_bus st 2 = Some x /\ b_fn x = Some (ToQueue 0)) /\
  (serving 0 1 0 st /\ nth_error (s_subs st) 0 = Some (mkSub "/sysinfo" (Some (CbData (Some 1))))).
Proof.
  unfold wx_okb. intros H. destruct (s_buses st) as [|x [|y [|z [|]]]] eqn:Eb; try discriminate H.
  destruct (nth_error (s_subs st) 0) as [[t0 [[|[u|]| |]|]]|] eqn:N0; try discriminate H. destruct (nth_error (s_subs st) 2) as [[t2 [[v|[|]| |]|]]|] eqn:N2; try discriminate H.
  repeat (let H' := fresh in apply andb_true_iff in H as (H & H')).
  repeat match goal with E : existsb _ _ = true |- _ => let n := fresh in let I := fresh in let Q := fresh in apply existsb_exists in E as (n & I & Q); apply Nat.eqb_eq in Q; subst n end.
  repeat match goal with E : String.eqb _ _ = true |- _ => apply String.eqb_eq in E; subst | E : Nat.eqb _ _ = true |- _ => apply Nat.eqb_eq in E; subst end.
  destruct (b_fn z) as [[[|]|]|] eqn:Fz; try discriminate.
  assert (forall c xc, get_bus st c = Some xc -> b_run xc = true) as R.
  { intros c xc Gc. unfold get_bus in Gc. rewrite Eb in Gc. destruct c as [|[|[|[|]]]]; try discriminate; injection Gc as <-; auto. }
  assert (forall c, In c (map snd (b_kids x)) -> below st 0 c) as B.
  { intros c I. apply below_kid with 0; [constructor|]. exists x. unfold get_bus. rewrite Eb. auto. }
  split; [split; [split; [exists z; unfold get_bus; rewrite Eb; auto|split; eauto]|]|split; [split; [exists y; unfold get_bus; rewrite Eb; auto|split; eauto]|reflexivity]].
  split; [reflexivity|]. exists z. unfold get_bus. rewrite Eb. auto.
Qed.

Lemma calways_imp (P Q : cluster -> Prop) n ls : (forall c, P c -> Q c) -> forall c, calways P n ls c -> calways Q n ls c.
Proof. intros H. induction ls as [|l ls IH]; cbn; intros c (A & B); split; auto. destruct (cstep n l c) as [[c' e]|]; auto. Qed.

Example C94_case : exists c0 T0 c T,
  a_star 1 "Link0" wx_net /\
  cexec wx_net wx_set cl_init = Some (c0, T0) /\ cexec wx_net wx_run c0 = Some (c, T) /\ own_callbacks wx_net (wx_set ++ wx_run) /\
  distributed T0 = [] /\ calways (attached wx_net (fun _ => 0) (fun _ _ => (2, 2))) wx_net wx_run c0 /\ one_root (fun _ => 0) (T0 ++ T) /\ at_rest c /\
  local (T0 ++ T) = [(1, mkM "SysInfo0" "/sysinfo" hello)] /\
  (forall i, i <= 1 -> calways (subscribed i 0 1 0 "/sysinfo" (CbData (Some 1))) wx_net wx_run c0) /\
  calls (T0 ++ T) 0 0 = [CallData 1 hello] /\ calls (T0 ++ T) 1 0 = [CallData 1 hello] /\
  heard (T0 ++ T) 0 0 = [mkM "Link0/SysInfo0" "/sysinfo" hello].
Proof.
  destruct (cexec wx_net wx_set cl_init) as [[c0 T0]|] eqn:E0; [|exfalso; assert (option_map (fun _ => tt) (cexec wx_net wx_set cl_init) = Some tt) as K by (vm_compute; reflexivity); rewrite E0 in K; discriminate].
  destruct (cexec wx_net wx_run c0) as [[c T]|] eqn:E1.
  2: { exfalso. assert (option_map (fun _ => tt) (cexec wx_net (wx_set ++ wx_run) cl_init) = Some tt) as K by (vm_compute; reflexivity). rewrite cexec_app, E0, E1 in K. discriminate. }
  assert (cexec wx_net (wx_set ++ wx_run) cl_init = Some (c, T0 ++ T)) as E by (rewrite cexec_app, E0, E1; reflexivity).
  exists c0, T0, c, T.
  split. { split; [|intros [|i] [|j] [] _; reflexivity]. intros [|[|i]]; cbn; try lia; (split; [lia|split; [reflexivity|intros []; reflexivity]]). }
  split; [reflexivity|]. split; [exact E1|].
  split. { intros i k lk N. exists 2. intros s' I. vm_compute in I. destruct i as [|[|i]]; cbn in N; [| |destruct k; discriminate]; (destruct k as [|k]; [injection N as <-|destruct k; discriminate]); cbn in I; repeat (destruct I as [I|I]; [try discriminate I|]); try contradiction; now injection I. }
  split. { assert (option_map (fun x => distributed (snd x)) (cexec wx_net wx_set cl_init) = Some []) as K by (vm_compute; reflexivity). rewrite E0 in K. now injection K. }
  assert (calways (fun c => wx_okb (cl_nodes c 0) && wx_okb (cl_nodes c 1) = true) wx_net wx_run c0) as OK.
  { apply (calwaysb_ok (fun c => wx_okb (cl_nodes c 0) && wx_okb (cl_nodes c 1))); [auto|].
    assert (option_map (fun x => calwaysb (fun c => wx_okb (cl_nodes c 0) && wx_okb (cl_nodes c 1)) wx_net wx_run (fst x)) (cexec wx_net wx_set cl_init) = Some true) as K by (vm_compute; reflexivity). rewrite E0 in K. now injection K. }
  split. { eapply calways_imp; [|exact OK]. intros cc H. apply andb_true_iff in H as (H0 & H1). intros i k lk N. cbn [fst snd]. destruct i as [|[|i]]; cbn in N; [| |destruct k; discriminate];
    (destruct k as [|k]; [injection N as <-; cbn [lk_bus lk_cb]|destruct k; discriminate]); [apply (wx_okb_ok _ H0)|apply (wx_okb_ok _ H1)]. }
  split. { apply one_root_ok. assert (option_map (fun x => forallb one_rootb (snd x)) (cexec wx_net (wx_set ++ wx_run) cl_init) = Some true) as K by (vm_compute; reflexivity). rewrite E in K. now injection K. }
  split. { split.
    - assert (option_map (fun x => cl_wire (fst x)) (cexec wx_net (wx_set ++ wx_run) cl_init) = Some []) as K by (vm_compute; reflexivity). rewrite E in K. now injection K.
    - intros i. apply rest_okb_ok. destruct i as [|[|i]].
      + assert (option_map (fun x => rest_okb (cl_nodes (fst x) 0)) (cexec wx_net (wx_set ++ wx_run) cl_init) = Some true) as K by (vm_compute; reflexivity). rewrite E in K. now injection K.
      + assert (option_map (fun x => rest_okb (cl_nodes (fst x) 1)) (cexec wx_net (wx_set ++ wx_run) cl_init) = Some true) as K by (vm_compute; reflexivity). rewrite E in K. now injection K.
      + rewrite (unused _ _ _ _ (S (S i)) E); [reflexivity|reflexivity|]. intros l I. cbn in I. repeat (destruct I as [I|I]; [discriminate I|]). destruct I. }
  assert (option_map (fun x => (local (snd x), calls (snd x) 0 0, calls (snd x) 1 0, heard (snd x) 0 0)) (cexec wx_net (wx_set ++ wx_run) cl_init) =
    Some ([(1, mkM "SysInfo0" "/sysinfo" hello)], [CallData 1 hello], [CallData 1 hello], [mkM "Link0/SysInfo0" "/sysinfo" hello])) as K by (vm_compute; reflexivity).
  rewrite E in K. cbn [option_map snd] in K. injection K as K1 K2 K3 K4. rewrite K1, K2, K3, K4.
  split; [reflexivity|]. split; [|auto]. intros i Li. eapply calways_imp; [|exact OK]. intros cc H. apply andb_true_iff in H as (H0 & H1).
  destruct i as [|[|]]; [apply (wx_okb_ok _ H0)|apply (wx_okb_ok _ H1)|lia].
Qed.

(** The two are a tree. *)
Example C94_tree_case : well_formed wx_net /\ tree wx_net 2 /\ unmarked wx_net 1 (mkM "SysInfo0" "/sysinfo" hello).
Proof.
  split; [|split; [|intros lk [<-|[]] (r & E); discriminate]].
  - constructor.
    + intros [|[|i]]; cbn; [no_slash|no_slash|destruct i; constructor].
    + intros [|[|i]]; cbn; repeat constructor; cbn; intros []; discriminate || contradiction.
    + intros [|[|i]] [|[|k]] j l; cbn; intros I; repeat destruct I as [I|I]; try contradiction; injection I as <- <-; cbn; lia.
    + intros [|[|i]] [|[|k]]; cbn; repeat constructor; auto.
  - split.
    + intros [|[|i]] [|[|k]] j l L; cbn; intros I; repeat destruct I as [I|I]; try contradiction; injection I as <- <-; lia.
    + assert (forall i r, i < 2 -> route wx_net i None r -> In r (routes wx_net 1 i None)) as RT.
      { intros i r L R. apply in_routes. split; auto. revert r R. apply (check_bound wx_net 1 i None). destruct i as [|[|]]; [reflexivity..|lia]. }
      assert (forall i r, In r (routes wx_net 1 i None) -> route wx_net i None r) as RT' by (intros i r I; now apply in_routes in I).
      intros i j Li Lj. destruct i as [|[|]]; [| |lia]; (destruct j as [|[|]]; [| |lia]);
        match goal with |- exists ! r, route ?n ?i None r /\ _ = ?j =>
          let l := eval vm_compute in (filter (fun r => Nat.eqb (end_of i r) j) (routes n 1 i None)) in
          match l with [?r0] => exists r0; split; [split; [apply RT'; vm_compute; repeat (first [left; reflexivity|right])|reflexivity]|] end end;
        intros r (R & E); (apply RT in R; [|lia]); vm_compute in R; repeat destruct R as [<-|R]; try reflexivity; try (vm_compute in E; discriminate); contradiction.
Qed.

(** C91: several whole processes joined by links exchange messages as NetModel has it. *)
From Coq Require Import String List Arith ZArith Bool Lia Permutation.
From Verif Require Import Prelude OMap DatagramModel DatagramSpec NetProps BusModel BusSpec BusProofs LinkModel NodeModel NetModel NodeProps RouteProps ClusterModel ClusterSpec ClusterProofs.
Import ListNotations.
Open Scope string_scope.
Open Scope list_scope.

(** Whatever the threads of the processes do, in whatever order: the messages that the processes distribute, in order, are those of an
    execution of the message-by-message model in which the messages accepted from others than links are published, in
    the order of their acceptance. *)
Theorem C91_refines : forall n ls c T,
  cexec n ls cl_init = Some (c, T) -> own_callbacks n ls ->
  exists ws pend, wexec n ws ([], []) = Some (pend, distributed T) /\ published ws = local T.
Proof. intros n ls c T X O. destruct (refines n ls c T X O) as (ws & D & Q & pend & W & P & _). eauto. Qed.
Print Assumptions C91_refines.

(** If the links are on the air from before the first distribution, nothing is discarded, and all comes to rest, then nothing is pending
    in that execution either. *)
Theorem C91_settles : forall n rt pos ls0 c0 T0 ls c T,
  cexec n ls0 cl_init = Some (c0, T0) -> cexec n ls c0 = Some (c, T) -> own_callbacks n (ls0 ++ ls) ->
  distributed T0 = [] -> calways (attached n rt pos) n ls c0 -> one_root rt (T0 ++ T) -> at_rest c ->
  exists ws, wexec n ws ([], []) = Some ([], distributed (T0 ++ T)) /\ published ws = local (T0 ++ T).
Proof. intros. eapply settles; eauto. Qed.
Print Assumptions C91_settles.

(** A server process with [k] client processes: every message published on the server is distributed there and once on every
    client, every message published on a client there and once on the server, marked; nothing else is distributed. *)
Theorem C91_star : forall k name rt pos ls0 c0 T0 ls c T,
  cexec (star k name) ls0 cl_init = Some (c0, T0) -> cexec (star k name) ls c0 = Some (c, T) -> own_callbacks (star k name) (ls0 ++ ls) ->
  distributed T0 = [] -> calways (attached (star k name) rt pos) (star k name) ls c0 -> one_root rt (T0 ++ T) -> at_rest c ->
  (forall i m, In (i, m) (local (T0 ++ T)) -> i <= k) ->
  Permutation (distributed (T0 ++ T))
    (flat_map (fun p => p :: (if markedb name (snd p) then []
                              else if Nat.eqb (fst p) 0 then map (fun j => (j, mark name (snd p))) (seq 1 k)
                              else [(0, mark name (snd p))])) (local (T0 ++ T))).
Proof.
  intros k name rt pos ls0 c0 T0 ls c T X0 X O Q A R E L. destruct (C91_settles _ _ _ _ _ _ _ _ _ X0 X O Q A R E) as (ws & W & P).
  rewrite <- P. apply C60_star; [exact W|]. intros i m I. apply (L i m). rewrite <- P. unfold published. apply in_flat_map. exists (WPublish i m). split; [exact I|now left].
Qed.
Print Assumptions C91_star.

(** Processes joined in a tree: every message published on one of them, unmarked by its links, is distributed once on each. *)
Theorem C91_tree : forall n N rt pos ls0 c0 T0 ls c T,
  cexec n ls0 cl_init = Some (c0, T0) -> cexec n ls c0 = Some (c, T) -> own_callbacks n (ls0 ++ ls) ->
  distributed T0 = [] -> calways (attached n rt pos) n ls c0 -> one_root rt (T0 ++ T) -> at_rest c ->
  well_formed n -> tree n N -> (forall i m, In (i, m) (local (T0 ++ T)) -> i < N /\ unmarked n i m) ->
  Permutation (map (fun d => (fst d, bm_topic (snd d), bm_data (snd d))) (distributed (T0 ++ T)))
    (flat_map (fun p => map (fun j => (j, bm_topic (snd p), bm_data (snd p))) (seq 0 N)) (local (T0 ++ T))).
Proof.
  intros n N rt pos ls0 c0 T0 ls c T X0 X O Q A R E W Tr L. destruct (C91_settles _ _ _ _ _ _ _ _ _ X0 X O Q A R E) as (ws & We & P).
  rewrite <- P. apply (C67_tree n N ws _ W Tr We). intros i m I. apply (L i m). rewrite <- P. unfold published. apply in_flat_map. exists (WPublish i m). split; [exact I|now left].
Qed.
Print Assumptions C91_tree.

(** Processes joined in a cycle - there are routes of every length from process [i]: once a message is published there, unmarked by its
    links, the processes never come to rest again. *)
Theorem C91_cycle : forall n i m rt pos ls0 c0 T0 ls c T,
  cexec n ls0 cl_init = Some (c0, T0) -> cexec n ls c0 = Some (c, T) -> own_callbacks n (ls0 ++ ls) ->
  distributed T0 = [] -> calways (attached n rt pos) n ls c0 -> one_root rt (T0 ++ T) ->
  well_formed n -> unmarked n i m -> (forall d, exists r, route n i None r /\ length r = d) -> local (T0 ++ T) = [(i, m)] ->
  ~ at_rest c.
Proof.
  intros n i m rt pos ls0 c0 T0 ls c T X0 X O Q A R W U H L E. destruct (C91_settles _ _ _ _ _ _ _ _ _ X0 X O Q A R E) as (ws & We & P). rewrite L in P.
  assert (exists takes, ws = WPublish i m :: map WTake takes) as (takes & ->).
  { destruct ws as [|[i' m'|p] ws]; [discriminate P| |destruct p; discriminate We]. unfold published in P. cbn [flat_map app] in P. injection P as -> -> P. clear We.
    enough (exists takes, ws = map WTake takes) as (takes & ->) by eauto. induction ws as [|[i' m'|p] ws IH]; [now exists []|discriminate P|].
    destruct (IH P) as (takes & ->). now exists (p :: takes). }
  now apply (C67_cycle n i m W U H _ _ _ We).
Qed.
Print Assumptions C91_cycle.

(** At every moment of every execution, no message has been distributed that will not be owed in the end: nothing comes twice or to a
    wrong process. *)
Theorem C91_star_most : forall k name ls c T,
  cexec (star k name) ls cl_init = Some (c, T) -> own_callbacks (star k name) ls -> (forall i m, In (i, m) (local T) -> i <= k) ->
  exists rest, Permutation (distributed T ++ rest)
    (flat_map (fun p => p :: (if markedb name (snd p) then []
                              else if Nat.eqb (fst p) 0 then map (fun j => (j, mark name (snd p))) (seq 1 k)
                              else [(0, mark name (snd p))])) (local T)).
Proof.
  intros k name ls c T X O L. destruct (C91_refines _ _ _ _ X O) as (ws & pend & W & P). rewrite <- P in *.
  destruct (account (star k name) (star_good k) (star_out k name) (star_cost k name) (star_closed k name) (star_out_ok k name) (star_cost_ok k name) _ _ _ _ _ W) as (_ & B & _); [constructor|apply Forall_forall; intros p _; exact I|].
  exists (flat_map (star_out k name) pend). cbn [flat_map app] in B. rewrite B. apply Permutation_refl'.
  clear - L. induction (published ws) as [|(i & m) l IH]; [reflexivity|]. cbn [flat_map]. rewrite IH by (intros a b J; apply (L a b); now right).
  f_equal. cbn [fst snd star_out]. replace (Nat.leb i k) with true by (symmetry; apply Nat.leb_le; apply (L i m); now left). reflexivity.
Qed.
Print Assumptions C91_star_most.

(** Every process runs as a single one of NodeModel: C59 and all that is said of one bus holds of each. *)
Theorem C91_node : forall n ls c T i, cexec n ls cl_init = Some (c, T) ->
  exists nls, nexec (nt_links n i) nls init = Some (cl_nodes c i, flat_map (fun x => if Nat.eqb (fst x) i then [snd x] else []) T) /\
    (forall l, In (NBus l) nls -> In (CBus i l) ls).
Proof. intros n ls c T i X. apply (node_run _ _ _ _ X). Qed.
Print Assumptions C91_node.

(** ** A concrete run: a server and a client; each publishes one message. *)

Definition ex_boot (i : nat) : list clabel :=
  map (CBus i) [LNewRoot "r"; LChild 0 "L"; LSub 1 "/**/*" None; LSetMsg 0 (Some 7); LPub 0 "t"; LStart 0].
Definition ex_set : list clabel := ex_boot 0 ++ ex_boot 1.
(** A message is published; a message is distributed, with the callback of the link. *)
Definition ex_publish (i f : nat) (v : Z) : list clabel := map (CBus i) [LPublish 0 (Val (DInt v)); LFly f; LFly f].
Definition ex_distribute (i : nat) : list clabel := map (CBus i) (repeat (LRun 0) 7 ++ [LReturn 0] ++ repeat (LRun 0) 6).
Definition ex_run : list clabel :=
  ex_publish 0 0 5 ++ ex_publish 1 0 6 ++ ex_distribute 0 ++ ex_distribute 1 ++
  [CTake 0; CBus 1 (LFly 1); CTake 0; CBus 0 (LFly 1)] ++ ex_distribute 0 ++ ex_distribute 1.

Definition node_okb (st : state) : bool :=
  match s_buses st, s_subs st with
  | [x; y], [mkSub t (Some (CbMsg 7))] =>
      b_run x && b_run y && existsb (Nat.eqb 0) (b_subs y) && existsb (Nat.eqb 1) (map snd (b_kids x)) && String.eqb t "/**/*" &&
      match b_fn y with Some (ToQueue 0) => true | _ => false end
  | _, _ => false
  end.
Lemma node_okb_ok st : node_okb st = true ->
  serving 0 1 0 st /\ nth_error (s_subs st) 0 = Some (mkSub "/**/*" (Some (CbMsg 7))) /\ exists x, get_bus st 1 = Some x /\ b_fn x = Some (ToQueue 0).
Proof.
  unfold node_okb. destruct (s_buses st) as [|x [|y [|]]] eqn:Eb; try discriminate. destruct (s_subs st) as [|[t [[u|u|u|u]|]] [|q l]] eqn:Es; try discriminate.
  - do 7 (destruct u as [|u]; try discriminate). destruct u as [|u]; [|discriminate]. intros H.
    apply andb_true_iff in H as (H & H6). apply andb_true_iff in H as (H & H5). apply andb_true_iff in H as (H & H4). apply andb_true_iff in H as (H & H3). apply andb_true_iff in H as (H1 & H2).
    apply existsb_exists in H3 as (n & I & E). apply Nat.eqb_eq in E. subst n. apply existsb_exists in H4 as (n & I4 & E). apply Nat.eqb_eq in E. subst n. apply String.eqb_eq in H5. subst t.
    split; [|split; [reflexivity|]].
    + split; [exists y; unfold get_bus; rewrite Eb; auto|]. split.
      * apply below_kid with 0; [constructor|]. exists x. unfold get_bus. rewrite Eb. auto.
      * intros c xc _ Gc. unfold get_bus in Gc. rewrite Eb in Gc. destruct c as [|[|[|]]]; try discriminate; injection Gc as <-; auto.
    + exists y. unfold get_bus. rewrite Eb. split; [reflexivity|]. destruct (b_fn y) as [[[|]|]|]; try discriminate. reflexivity.
  - do 8 (destruct u as [|u]; try discriminate).
Qed.

Fixpoint calwaysb (p : cluster -> bool) (n : net) (ls : list clabel) (c : cluster) : bool :=
  p c && match ls with
         | [] => true
         | l :: ls' => match cstep n l c with Some (c', _) => calwaysb p n ls' c' | None => true end
         end.
Lemma calwaysb_ok p (P : cluster -> Prop) n : (forall c, p c = true -> P c) -> forall ls c, calwaysb p n ls c = true -> calways P n ls c.
Proof.
  intros Hp. induction ls as [|l ls IH]; intros c H; cbn [calwaysb calways] in *; apply andb_true_iff in H as (H1 & H2); split; auto.
  destruct (cstep n l c) as [[c1 e1]|]; auto.
Qed.
Lemma attached_ok c : node_okb (cl_nodes c 0) && node_okb (cl_nodes c 1) = true -> attached (star 1 "L") (fun _ => 0) (fun _ _ => (1, 0)) c.
Proof.
  intros H. apply andb_true_iff in H as (H0 & H1). intros i k lk N. cbn [fst snd]. destruct i as [|[|i]]; cbn in N; [| |destruct k; discriminate];
    (destruct k as [|k]; [injection N as <-; cbn [lk_bus lk_cb]|destruct k; discriminate]); apply node_okb_ok; assumption.
Qed.

Definition one_rootb (x : nat * nevent) : bool :=
  match x with (_, NEv (EvAccept r _ _)) => Nat.eqb r 0 | (_, NEv (EvDrop _ _)) | (_, NEv (EvLost _ _)) => false | _ => true end.
Lemma one_root_ok T : forallb one_rootb T = true -> one_root (fun _ => 0) T.
Proof.
  rewrite forallb_forall. intros H i r p. repeat split; try (intros I; specialize (H _ I); discriminate).
  intros f I. specialize (H _ I). cbn in H. now apply Nat.eqb_eq in H.
Qed.

Definition rest_okb (st : state) : bool :=
  forallb (fun f => match f with FlyDone => true | _ => false end) (s_flights st) &&
  forallb (fun x => match current x, pending x with [], [] => true | _, _ => false end) (s_buses st).
Lemma rest_okb_ok st : rest_okb st = true ->
  (forall f x, nth_error (s_flights st) f = Some x -> x = FlyDone) /\ (forall r x, get_bus st r = Some x -> current x = [] /\ pending x = []).
Proof.
  intros H. apply andb_true_iff in H as (H1 & H2). rewrite forallb_forall in H1, H2. split.
  - intros f x N. apply nth_error_In in N. specialize (H1 _ N). destruct x; try discriminate. reflexivity.
  - intros r x G. apply nth_error_In in G. specialize (H2 _ G). destruct (current x), (pending x); try discriminate. auto.
Qed.

Lemma unused n ls c T i : cexec n ls cl_init = Some (c, T) -> nt_links n i = [] -> (forall l, ~ In (CBus i l) ls) -> cl_nodes c i = init.
Proof.
  intros X E N. destruct (C91_node _ _ _ _ i X) as (nls & A & B). rewrite E in A. destruct nls as [|[l|k r m] nls].
  - cbn in A. now injection A.
  - destruct (N l). apply B. now left.
  - cbn in A. destruct k; discriminate.
Qed.

Example C91_case : exists c0 T0 c T,
  cexec (star 1 "L") ex_set cl_init = Some (c0, T0) /\ cexec (star 1 "L") ex_run c0 = Some (c, T) /\ own_callbacks (star 1 "L") (ex_set ++ ex_run) /\
  distributed T0 = [] /\ calways (attached (star 1 "L") (fun _ => 0) (fun _ _ => (1, 0))) (star 1 "L") ex_run c0 /\
  one_root (fun _ => 0) (T0 ++ T) /\ at_rest c /\
  local (T0 ++ T) = [(0, mkM "r" "t" (Val (DInt 5))); (1, mkM "r" "t" (Val (DInt 6)))] /\
  distributed (T0 ++ T) = [(0, mkM "r" "t" (Val (DInt 5))); (1, mkM "r" "t" (Val (DInt 6))); (0, mkM "L/r" "t" (Val (DInt 6))); (1, mkM "L/r" "t" (Val (DInt 5)))].
Proof.
  destruct (cexec (star 1 "L") ex_set cl_init) as [[c0 T0]|] eqn:E0; [|exfalso; assert (option_map (fun _ => tt) (cexec (star 1 "L") ex_set cl_init) = Some tt) as K by (vm_compute; reflexivity); rewrite E0 in K; discriminate].
  destruct (cexec (star 1 "L") ex_run c0) as [[c T]|] eqn:E1.
  2: { exfalso. assert (option_map (fun _ => tt) (cexec (star 1 "L") (ex_set ++ ex_run) cl_init) = Some tt) as K by (vm_compute; reflexivity). rewrite cexec_app, E0, E1 in K. discriminate. }
  assert (cexec (star 1 "L") (ex_set ++ ex_run) cl_init = Some (c, T0 ++ T)) as E by (rewrite cexec_app, E0, E1; reflexivity).
  exists c0, T0, c, T. split; [reflexivity|]. split; [exact E1|].
  split. { intros i k lk N. exists 0. intros s' I. vm_compute in I. destruct i as [|[|i]]; cbn in N; [| |destruct k; discriminate]; (destruct k as [|k]; [injection N as <-|destruct k; discriminate]); cbn in I; repeat (destruct I as [I|I]; [try discriminate I|]); try contradiction; now injection I. }
  split. { assert (option_map (fun x => distributed (snd x)) (cexec (star 1 "L") ex_set cl_init) = Some []) as K by (vm_compute; reflexivity). rewrite E0 in K. now injection K. }
  split. { apply (calwaysb_ok (fun c => node_okb (cl_nodes c 0) && node_okb (cl_nodes c 1))); [apply attached_ok|].
    assert (option_map (fun x => calwaysb (fun c => node_okb (cl_nodes c 0) && node_okb (cl_nodes c 1)) (star 1 "L") ex_run (fst x)) (cexec (star 1 "L") ex_set cl_init) = Some true) as K by (vm_compute; reflexivity). rewrite E0 in K. now injection K. }
  split. { apply one_root_ok. assert (option_map (fun x => forallb one_rootb (snd x)) (cexec (star 1 "L") (ex_set ++ ex_run) cl_init) = Some true) as K by (vm_compute; reflexivity). rewrite E in K. now injection K. }
  split. { split.
    - assert (option_map (fun x => cl_wire (fst x)) (cexec (star 1 "L") (ex_set ++ ex_run) cl_init) = Some []) as K by (vm_compute; reflexivity). rewrite E in K. now injection K.
    - intros i. apply rest_okb_ok. destruct i as [|[|i]].
      + assert (option_map (fun x => rest_okb (cl_nodes (fst x) 0)) (cexec (star 1 "L") (ex_set ++ ex_run) cl_init) = Some true) as K by (vm_compute; reflexivity). rewrite E in K. now injection K.
      + assert (option_map (fun x => rest_okb (cl_nodes (fst x) 1)) (cexec (star 1 "L") (ex_set ++ ex_run) cl_init) = Some true) as K by (vm_compute; reflexivity). rewrite E in K. now injection K.
      + rewrite (unused _ _ _ _ (S (S i)) E); [reflexivity|reflexivity|]. intros l I. cbn in I. repeat (destruct I as [I|I]; [discriminate I|]). destruct I. }
  assert (option_map (fun x => (local (snd x), distributed (snd x))) (cexec (star 1 "L") (ex_set ++ ex_run) cl_init) =
    Some ([(0, mkM "r" "t" (Val (DInt 5))); (1, mkM "r" "t" (Val (DInt 6)))], [(0, mkM "r" "t" (Val (DInt 5))); (1, mkM "r" "t" (Val (DInt 6))); (0, mkM "L/r" "t" (Val (DInt 6))); (1, mkM "L/r" "t" (Val (DInt 5)))])) as K by (vm_compute; reflexivity).
  rewrite E in K. cbn [option_map snd] in K. injection K as K1 K2. rewrite K1, K2. auto.
Qed.

(** A message on the way can be taken at every moment, and is then published on the bus of the link: no message is stuck on a wire. *)
Lemma outgoing_matched n i evs : matched n -> Forall (fun x : parcel => exists lk, nth_error (nt_links n (fst (fst (fst x)))) (snd (fst (fst x))) = Some lk /\ lk_socket lk (sub_socket (snd (fst x))) = true) (flat_map (outgoing n i) evs).
Proof.
  intros M. apply Forall_forall. intros x I. apply in_flat_map in I as (e & _ & I). destruct e as [e|k r root q|]; cbn in I; try contradiction I.
  apply in_map_iff in I as ((j & l) & <- & I). destruct (M _ _ _ _ _ I) as (lk & E & S). exists lk. cbn. split; [exact E|]. destruct r; exact S.
Qed.

Lemma wire_matched n : matched n -> forall ls c c' T,
  Forall (fun x : parcel => exists lk, nth_error (nt_links n (fst (fst (fst x)))) (snd (fst (fst x))) = Some lk /\ lk_socket lk (sub_socket (snd (fst x))) = true) (cl_wire c) ->
  cexec n ls c = Some (c', T) ->
  Forall (fun x : parcel => exists lk, nth_error (nt_links n (fst (fst (fst x)))) (snd (fst (fst x))) = Some lk /\ lk_socket lk (sub_socket (snd (fst x))) = true) (cl_wire c').
Proof.
  intros M. induction ls as [|l ls IH]; intros c c' T F X; cbn [cexec] in X; [injection X as <- _; exact F|].
  destruct (cstep n l c) as [(c1 & e1)|] eqn:S; [|discriminate X]. destruct (cexec n ls c1) as [(c2 & e2)|] eqn:X2; [|discriminate X]. injection X as <- _.
  refine (IH c1 _ _ _ X2). destruct l as [i x|p]; cbn [cstep] in S.
  - destruct (nstep _ _ _) as [(st & evs)|]; [|discriminate S]. injection S as <- _. cbn [cl_wire]. apply Forall_app. split; [exact F|now apply outgoing_matched].
  - destruct (take p (cl_wire c)) as [((((i & k) & r) & m) & rest)|] eqn:Tk; [|discriminate S]. destruct (nstep _ _ _) as [(st & evs)|]; [|discriminate S]. injection S as <- _.
    cbn [cl_wire]. apply Forall_app. split; [|now apply outgoing_matched]. pose proof (take_perm _ _ _ _ Tk) as P. rewrite P in F. now inversion F.
Qed.

Theorem C91_taken : forall n ls c T p i k r m, matched n ->
  cexec n ls cl_init = Some (c, T) -> nth_error (cl_wire c) p = Some (i, k, r, m) ->
  (forall lk, nth_error (nt_links n i) k = Some lk -> get_bus (cl_nodes c i) (lk_bus lk) <> None) ->
  exists c' T' f, cstep n (CTake p) c = Some (c', T') /\ In (i, NReceived k r m f) T' /\ S (length (cl_wire c')) = length (cl_wire c).
Proof.
  intros n ls c T p i k r m M X N B. assert (exists rest, take p (cl_wire c) = Some ((i, k, r, m), rest)) as (rest & Tk).
  { clear -N. revert p N. induction (cl_wire c) as [|x l IH]; intros [|p] N; try discriminate N; cbn in N |- *; [injection N as ->; eauto|]. destruct (IH _ N) as (rest & ->). eauto. }
  pose proof (wire_matched n M ls cl_init c T (Forall_nil _) X) as F. rewrite Forall_forall in F. destruct (F _ (nth_error_In _ _ N)) as (lk & El & Sk). cbn [fst snd] in El, Sk.
  specialize (B lk El). destruct (get_bus (cl_nodes c i) (lk_bus lk)) as [x|] eqn:G; [|now elim B].
  pose proof (Permutation_length (take_perm _ _ _ _ Tk)) as Ln. cbn [length] in Ln.
  cbn [cstep]. rewrite Tk. cbn [nstep]. rewrite El, Sk. cbn [step]. rewrite G. unfold test_bus_fn. rewrite G.
  destruct (b_fn x); cbn [observe flat_map transmit]; do 3 eexists; (split; [reflexivity|]); (split; [left; reflexivity|]); cbn [cl_wire]; cbn; rewrite app_nil_r; exact (eq_sym Ln).
Qed.
Print Assumptions C91_taken.

Example C91_taken_case : matched (star 1 "L") /\ exists ls c T, cexec (star 1 "L") ls cl_init = Some (c, T) /\
  nth_error (cl_wire c) 0 = Some (1, 0, Client, mkM "r" "t" (Val (DInt 5))) /\
  (forall lk, nth_error (nt_links (star 1 "L") 1) 0 = Some lk -> get_bus (cl_nodes c 1) (lk_bus lk) <> None).
Proof.
  split.
  - intros i k r j l I. cbn in I. destruct i as [|i], k as [|k], r; cbn in I; try contradiction I; (destruct I as [I|[]]; injection I as <- <-; eexists; split; reflexivity).
  - assert (option_map (fun x => (nth_error (cl_wire (fst x)) 0, match get_bus (cl_nodes (fst x) 1) 1 with Some _ => true | None => false end)) (cexec (star 1 "L") (ex_set ++ ex_publish 0 0 5 ++ ex_distribute 0) cl_init) =
      Some (Some (1, 0, Client, mkM "r" "t" (Val (DInt 5))), true)) as K by (vm_compute; reflexivity).
    destruct (cexec (star 1 "L") (ex_set ++ ex_publish 0 0 5 ++ ex_distribute 0) cl_init) as [(c & T)|] eqn:E; [|discriminate K]. cbn [option_map fst] in K. injection K as K1 K2.
    exists (ex_set ++ ex_publish 0 0 5 ++ ex_distribute 0), c, T. split; [exact E|]. split; [exact K1|]. intros lk N. cbn in N. injection N as <-. cbn [lk_bus].
    destruct (get_bus (cl_nodes c 1) 1); [discriminate|discriminate K2].
Qed.

(** The two are a tree. *)
Example C91_tree_case : well_formed (star 1 "L") /\ tree (star 1 "L") 2 /\ unmarked (star 1 "L") 0 (mkM "r" "t" (Val (DInt 5))) /\ unmarked (star 1 "L") 1 (mkM "r" "t" (Val (DInt 6))).
Proof.
  split; [|split; [|split; intros lk [<-|[]] (r & E); discriminate]].
  - constructor.
    + intros [|[|i]]; cbn; [no_slash|no_slash|destruct i; constructor].
    + intros [|[|i]]; cbn; repeat constructor; cbn; intros []; discriminate || contradiction.
    + intros [|[|i]] [|[|k]] j l; cbn; intros I; repeat destruct I as [I|I]; try contradiction; injection I as <- <-; cbn; lia.
    + intros [|[|i]] [|[|k]]; cbn; repeat constructor; auto.
  - split.
    + intros [|[|i]] [|[|k]] j l L; cbn; intros I; repeat destruct I as [I|I]; try contradiction; injection I as <- <-; lia.
    + assert (forall i r, i < 2 -> route (star 1 "L") i None r -> In r (routes (star 1 "L") 1 i None)) as RT.
      { intros i r L R. apply in_routes. split; auto. revert r R. apply (check_bound (star 1 "L") 1 i None). destruct i as [|[|]]; [reflexivity..|lia]. }
      assert (forall i r, In r (routes (star 1 "L") 1 i None) -> route (star 1 "L") i None r) as RT' by (intros i r I; now apply in_routes in I).
      intros i j Li Lj. destruct i as [|[|]]; [| |lia]; (destruct j as [|[|]]; [| |lia]);
        match goal with |- exists ! r, route ?n ?i None r /\ _ = ?j =>
          let l := eval vm_compute in (filter (fun r => Nat.eqb (end_of i r) j) (routes n 1 i None)) in
          match l with [?r0] => exists r0; split; [split; [apply RT'; vm_compute; repeat (first [left; reflexivity|right])|reflexivity]|] end end;
        intros r (R & E); (apply RT in R; [|lia]); vm_compute in R; repeat destruct R as [<-|R]; try reflexivity; try (vm_compute in E; discriminate); contradiction.
Qed.

(** Two processes joined twice: a cycle. *)
Definition twice : net :=
  mkNet (fun i => match i with
                  | 0 => [mkLink "A" 1 7 (fun k => match k with ServerPub | ServerSub => true | _ => false end); mkLink "B" 2 8 (fun k => match k with ServerPub | ServerSub => true | _ => false end)]
                  | 1 => [mkLink "A" 1 7 (fun k => match k with ClientPub | ClientSub => true | _ => false end); mkLink "B" 2 8 (fun k => match k with ClientPub | ClientSub => true | _ => false end)]
                  | _ => []
                  end)
        (fun i k r => match i, r with 0, Server => [(1, k)] | 1, Client => [(0, k)] | _, _ => [] end).
Definition ex_boot2 (i : nat) : list clabel :=
  map (CBus i) [LNewRoot "r"; LChild 0 "A"; LChild 0 "B"; LSub 1 "/**/*" None; LSub 2 "/**/*" None; LSetMsg 0 (Some 7); LSetMsg 1 (Some 8); LPub 0 "t"; LStart 0].
Definition ex_set2 : list clabel := ex_boot2 0 ++ ex_boot2 1.
Definition ex_run2 : list clabel := ex_publish 0 0 5 ++ map (CBus 0) (repeat (LRun 0) 7 ++ [LReturn 0] ++ repeat (LRun 0) 4) ++ [CTake 0; CBus 1 (LFly 0)].

Definition node2_okb (st : state) : bool :=
  match s_buses st, s_subs st with
  | [x; y; z], [mkSub t (Some (CbMsg 7)); mkSub t' (Some (CbMsg 8))] =>
      b_run x && b_run y && b_run z && existsb (Nat.eqb 0) (b_subs y) && existsb (Nat.eqb 1) (b_subs z) && existsb (Nat.eqb 1) (map snd (b_kids x)) &&
      existsb (Nat.eqb 2) (map snd (b_kids x)) && String.eqb t "/**/*" && String.eqb t' "/**/*" &&
      match b_fn y, b_fn z with Some (ToQueue 0), Some (ToQueue 0) => true | _, _ => false end
  | _, _ => false
  end.
Lemma node2_okb_ok st k : node2_okb st = true -> k < 2 ->
  serving 0 (1 + k) k st /\ nth_error (s_subs st) k = Some (mkSub "/**/*" (Some (CbMsg (7 + k)))) /\ exists x, get_bus st (1 + k) = Some x /\ b_fn x = Some (ToQueue 0).
Proof.
  unfold node2_okb. intros H L. destruct (s_buses st) as [|x [|y [|z [|]]]] eqn:Eb; try discriminate.
  destruct (s_subs st) as [|[t [[u|u|u|u]|]] l] eqn:Es; try discriminate.
  do 7 (destruct u as [|u]; try discriminate H). destruct u as [|u]; [|discriminate H].
  destruct l as [|[t' [[u|u|u|u]|]] l]; try discriminate H.
  do 8 (destruct u as [|u]; try discriminate H). destruct u as [|u]; [|discriminate H]. destruct l; [|discriminate H].
  repeat (let H' := fresh in apply andb_true_iff in H as (H & H')).
  repeat match goal with E : existsb _ _ = true |- _ => let n := fresh in let I := fresh in let Q := fresh in apply existsb_exists in E as (n & I & Q); apply Nat.eqb_eq in Q; subst n end.
  repeat match goal with E : String.eqb _ _ = true |- _ => apply String.eqb_eq in E; subst end.
  destruct (b_fn y) as [[[|]|]|] eqn:Fy; try discriminate. destruct (b_fn z) as [[[|]|]|] eqn:Fz; try discriminate.
  assert (forall c xc, get_bus st c = Some xc -> b_run xc = true) as R.
  { intros c xc Gc. unfold get_bus in Gc. rewrite Eb in Gc. destruct c as [|[|[|[|]]]]; try discriminate; injection Gc as <-; auto. }
  assert (forall c, In c (map snd (b_kids x)) -> below st 0 c) as B.
  { intros c I. apply below_kid with 0; [constructor|]. exists x. unfold get_bus. rewrite Eb. auto. }
  destruct k as [|[|k]]; [| |lia]; cbn [Nat.add nth_error].
  - split; [split; [exists y; unfold get_bus; rewrite Eb; auto|split; eauto]|]. split; [reflexivity|]. exists y. unfold get_bus. rewrite Eb. auto.
  - split; [split; [exists z; unfold get_bus; rewrite Eb; auto|split; eauto]|]. split; [reflexivity|]. exists z. unfold get_bus. rewrite Eb. auto.
Qed.
Lemma attached2_ok c : node2_okb (cl_nodes c 0) && node2_okb (cl_nodes c 1) = true -> attached twice (fun _ => 0) (fun _ k => (1 + k, k)) c.
Proof.
  intros H. apply andb_true_iff in H as (H0 & H1). intros i k lk N. cbn [fst snd]. destruct i as [|[|i]]; cbn in N; [| |destruct k; discriminate];
    (destruct k as [|[|k]]; [| |destruct k; discriminate]); injection N as <-; cbn [lk_bus lk_cb]; (apply node2_okb_ok; [assumption|lia]).
Qed.

(** Back and forth, alternating between the connections. *)
Fixpoint zigzag (k : nat) (i d : nat) : list hop := match d with 0 => [] | S d' => (k, (1 - i, k)) :: zigzag (1 - k) (1 - i) d' end.

Lemma twice_cycle d : exists r, route twice 0 None r /\ length r = d.
Proof.
  exists (zigzag 0 0 d).
  assert (forall d k i a, k < 2 -> i < 2 -> a <> Some k -> route twice i a (zigzag k i d) /\ length (zigzag k i d) = d) as Q; [|apply Q; [lia|lia|discriminate]].
  clear. induction d as [|d IH]; intros k i a Lk Li N; cbn [zigzag]; [split; [constructor|reflexivity]|].
  destruct (IH (1 - k) (1 - i) (Some k)) as (A & B); [lia|lia|destruct k as [|[|]]; discriminate || lia|]. split; [constructor; [|exact N|exact A]|cbn [length]; now rewrite B].
  destruct i as [|[|]]; [| |lia]; (destruct k as [|[|]]; [| |lia]); cbn; auto.
Qed.
Lemma twice_wf : well_formed twice.
Proof.
  constructor.
  - intros [|[|i]]; cbn; no_slash.
  - intros [|[|i]]; cbn; repeat constructor; cbn; intros I; repeat destruct I as [I|I]; discriminate || contradiction.
  - intros [|[|i]] [|[|[|k]]] j l; cbn; intros I; repeat destruct I as [I|I]; try contradiction; injection I as <- <-; cbn; lia.
  - intros [|[|i]] [|[|[|k]]]; cbn; repeat constructor; auto.
Qed.

Example C91_cycle_case : exists c0 T0 c T,
  cexec twice ex_set2 cl_init = Some (c0, T0) /\ cexec twice ex_run2 c0 = Some (c, T) /\ own_callbacks twice (ex_set2 ++ ex_run2) /\
  distributed T0 = [] /\ calways (attached twice (fun _ => 0) (fun _ k => (1 + k, k))) twice ex_run2 c0 /\
  one_root (fun _ => 0) (T0 ++ T) /\ well_formed twice /\ unmarked twice 0 (mkM "r" "t" (Val (DInt 5))) /\
  (forall d, exists r, route twice 0 None r /\ length r = d) /\ local (T0 ++ T) = [(0, mkM "r" "t" (Val (DInt 5)))].
Proof.
  destruct (cexec twice ex_set2 cl_init) as [[c0 T0]|] eqn:E0; [|exfalso; assert (option_map (fun _ => tt) (cexec twice ex_set2 cl_init) = Some tt) as K by (vm_compute; reflexivity); rewrite E0 in K; discriminate].
  destruct (cexec twice ex_run2 c0) as [[c T]|] eqn:E1.
  2: { exfalso. assert (option_map (fun _ => tt) (cexec twice (ex_set2 ++ ex_run2) cl_init) = Some tt) as K by (vm_compute; reflexivity). rewrite cexec_app, E0, E1 in K. discriminate. }
  assert (cexec twice (ex_set2 ++ ex_run2) cl_init = Some (c, T0 ++ T)) as E by (rewrite cexec_app, E0, E1; reflexivity).
  exists c0, T0, c, T. split; [reflexivity|]. split; [exact E1|].
  split. { intros i k lk N. exists k. intros s' I. vm_compute in I. destruct i as [|[|i]]; cbn in N; [| |destruct k; discriminate]; (destruct k as [|[|k]]; [| |destruct k; discriminate]); injection N as <-; cbn in I; repeat (destruct I as [I|I]; [try discriminate I|]); try contradiction; now injection I. }
  split. { assert (option_map (fun x => distributed (snd x)) (cexec twice ex_set2 cl_init) = Some []) as K by (vm_compute; reflexivity). rewrite E0 in K. now injection K. }
  split. { apply (calwaysb_ok (fun c => node2_okb (cl_nodes c 0) && node2_okb (cl_nodes c 1))); [apply attached2_ok|].
    assert (option_map (fun x => calwaysb (fun c => node2_okb (cl_nodes c 0) && node2_okb (cl_nodes c 1)) twice ex_run2 (fst x)) (cexec twice ex_set2 cl_init) = Some true) as K by (vm_compute; reflexivity). rewrite E0 in K. now injection K. }
  split. { apply one_root_ok. assert (option_map (fun x => forallb one_rootb (snd x)) (cexec twice (ex_set2 ++ ex_run2) cl_init) = Some true) as K by (vm_compute; reflexivity). rewrite E in K. now injection K. }
  split; [apply twice_wf|]. split; [intros lk [<-|[<-|[]]] (r & Q); discriminate Q|]. split; [apply twice_cycle|].
  assert (option_map (fun x => local (snd x)) (cexec twice (ex_set2 ++ ex_run2) cl_init) = Some [(0, mkM "r" "t" (Val (DInt 5)))]) as K by (vm_compute; reflexivity).
  rewrite E in K. now injection K.
Qed.

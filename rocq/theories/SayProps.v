(** C98: what the SysInfo plugin sends and writes. *)
From Coq Require Import String List Arith Bool Lia NArith ZArith.
From Verif Require Import Prelude OMap DatagramModel DatagramSpec DatagramProps SerialSpec BusModel BusSpec BusProofs BusTree BusFlight BusApiProps SysInfoModel SysInfoSpec SysInfoProofs LogModel
  SayModel SaySpec SayProofs.
From Verif Require Import BusModel.
Import ListNotations.
Open Scope list_scope.

(** * C98 *)

(** On each bus thread SysInfo's lambdas write one line for each string and each request they are given, in this order, with
    the text and the prefix they are to have, and nothing else; the one that may be missing is that of the lambda that is just running. *)
Theorem C98_lines : forall sd so is ls y T r, distinct is -> yexec sd so is ls yinit = Some (y, T) ->
  exists pend, lines_for sd so is (entered r T) (written r T ++ pend) /\
    (pend = [] \/ exists b c k l, calling (z_bus (y_z y)) r b c /\ to_write sd so is c k l /\ pend = [(k, l)]).
Proof.
  intros sd so is ls y T r D X. exists (opt (owes sd so is y r)). pose proof (said_ok _ _ _ _ _ _ X) as I. rewrite <- (si_lines _ _ _ _ _ I).
  split; [now apply due_lines|]. rewrite owes_unfold. destruct (call_at (z_bus (y_z y)) r) as [c|] eqn:Ca; [|now left]. destruct (y_said y r); [now left|].
  destruct (says sd so is c) as [(k & l)|] eqn:Sy; [|now left]. right. apply call_at_calling in Ca as (b & Ca); [|exact (yreach _ _ _ _ _ _ X)].
  exists b, c, k, l. split; [exact Ca|]. split; [now apply says_is|reflexivity].
Qed.
Print Assumptions C98_lines.

(** When the action is answered, and when a lambda returns or throws, its line has been written. *)
Theorem C98_first : forall sd so is ls y T r l y' e, distinct is -> yexec sd so is ls yinit = Some (y, T) ->
  l = ZRespond r \/ l = ZBus (LReturn r) \/ (exists x, l = ZBus (LThrow r x)) ->
  ystep sd so is (YBus l) y = Some (y', e) -> lines_for sd so is (entered r T) (written r T).
Proof.
  intros sd so is ls y T r l y' e D X L S. pose proof (si_lines _ _ _ _ _ (said_ok _ _ _ _ _ _ X) r) as E.
  assert (owes sd so is y r = None) as O.
  { cbn [ystep] in S. destruct (waits sd so is y l) eqn:W; [discriminate S|].
    destruct L as [->|[->|(x & ->)]]; cbn [waits] in W; destruct (owes sd so is y r); congruence. }
  rewrite O, app_nil_r in E. rewrite <- E. now apply due_lines.
Qed.
Print Assumptions C98_first.

(** A worker does whole rounds: it publishes, and once Publish has returned it writes its line; the last round may be going on,
    or have ended with an exception. *)
Theorem C98_rounds : forall sd so is ls y T k i, yexec sd so is ls yinit = Some (y, T) -> nth_error is k = Some i ->
  exists ns rest, done_by k T = rounds k (yi_name i) ns rest /\ (forall n, In n ns -> In (EvFlight n (Ok tt)) (on_bus T)) /\
    (rest = [] \/ exists n, rest = [YPub k n]).
Proof.
  intros sd so is ls y T k i X N. destruct (work_ok _ _ _ _ _ _ N _ _ X) as (ns & rest & D & F & M). exists ns, rest. split; [exact D|]. split; [now apply Forall_forall|].
  destruct (y_pos y k); cbn in M; auto; [right; eauto|destruct M as (n & -> & _); eauto|destruct M as (n & x & -> & _); eauto].
Qed.
Print Assumptions C98_rounds.

(** Each publication of the worker of an instance goes out on the instance's publisher with "Hello Bus!", once, unless the publisher was
    deleted or its bus detached. *)
Theorem C98_published : forall sd so is ls y Ta Tb k n, yexec sd so is ls yinit = Some (y, Ta ++ YPub k n :: Tb) ->
  exists i q x, nth_error is k = Some i /\ nth_error (s_pubs (z_bus (y_z y))) (yi_pub i) = Some q /\ get_bus (z_bus (y_z y)) (p_bus q) = Some x /\
    forall t, p_fn q = true -> b_fn x = Some t -> returned n (on_bus Tb) <> [] ->
      handed n (on_bus Tb) = [(t, mkM (b_name x) (p_topic q) (Val (DStr "Hello Bus!")))] /\ returned n (on_bus Tb) = [Ok tt].
Proof.
  intros sd so is ls y Ta Tb k n X. destruct (yevent_point _ _ _ _ _ _ _ _ _ X) as (ls1 & l & ls2 & y1 & y2 & t1 & e1 & e2 & t2 & -> & X1 & S & X2 & -> & ->).
  destruct (pub_step _ _ _ _ _ _ _ _ _ _ S) as (i & evs & -> & N & -> & -> & En & Z). pose proof (yreach _ _ _ _ _ _ X1) as Rc.
  destruct (zstep_bus _ _ _ _ _ Z) as (l0 & S0 & El). cbn in El. assert (step (LPublish (yi_pub i) hello) (z_bus (y_z y1)) = Some (z_bus (y_z y2), evs)) as Sp by (destruct El as (-> & _); exact S0).
  destruct (begin_publish_inv _ _ _ _ _ Sp) as (q1 & Nq & _). destruct (g_pub _ (reach_range _ Rc) _ _ Nq) as (x1 & Gx).
  destruct (yexec_z _ _ _ _ _ _ _ X2) as (zl & Z2). destruct (zproj _ _ _ _ _ Z2) as (bl & B2 & _).
  assert (exec (LPublish (yi_pub i) hello :: bl) (z_bus (y_z y1)) = Some (z_bus (y_z y), evs ++ on_bus t2)) as BB by (cbn [exec]; now rewrite Sp, B2).
  destruct (pub_exec _ _ _ _ _ _ BB Nq) as (q & Nq' & Tq & Bq & Fq). destruct (bus_exec _ _ _ _ _ _ BB Gx) as (x & Gx' & Nx & Fx).
  rewrite <- Bq in Gx'. exists i, q, x. split; [exact N|]. split; [exact Nq'|]. split; [exact Gx'|]. intros t Ft Fb Rn. rewrite on_bus_app, on_bus_ev in *.
  destruct (C27_delivered _ _ _ _ t _ _ _ _ _ _ n Rc Nq (Fq Ft) Gx (Fx _ Fb) En Sp B2 Rn) as (D1 & D2).
  - intros (x0 & G0 & F0). rewrite <- Bq in G0. congruence.
  - intros (q0 & N0 & F0). congruence.
  - rewrite D1, D2, Nx, Tq. auto.
Qed.
Print Assumptions C98_published.

(** A worker that is not asked to send by the configuration sends and writes nothing. *)
Theorem C98_silent : forall sd so is ls y T k i, yexec sd so is ls yinit = Some (y, T) -> nth_error is k = Some i -> yi_send i = false -> done_by k T = [].
Proof. intros sd so is ls y T k i X N Sf. eapply silent_ok; [exact N|exact Sf| |exact X]. now left. Qed.
Print Assumptions C98_silent.

(** What the configuration says. *)
Theorem C98_flag : forall h l t, denotes h l t ->
  (dg_find t ["send-datagram"%string] = Some (Val (DBool true)) /\ send_flag h l = Ok true) \/
  (dg_find t ["send-datagram"%string] <> Some (Val (DBool true)) /\ send_flag h l = Ok false).
Proof.
  intros h l t Dn. unfold send_flag. change ["send-datagram"%string] with (path_keys "send-datagram").
  rewrite (C10_path_lookup _ _ _ _ _ _ Dn). unfold spec_path. destruct (dg_find t (path_keys "send-datagram")) as [d|]; [|right; split; [discriminate|reflexivity]].
  destruct d as [|v| |]; try (right; split; [discriminate|reflexivity]). destruct v as [| |b| |]; try (right; split; [discriminate|reflexivity]).
  all: try (right; split; [discriminate|cbn; reflexivity]).
  cbn. destruct b; [left|right]; split; congruence || reflexivity.
Qed.
Print Assumptions C98_flag.

(** After Stop a worker publishes at most once more and writes at most one line more; none of either if it was between two rounds. *)
Theorem C98_stop : forall sd so is ls1 y T1 ls2 y' T2 k, yexec sd so is (ls1 ++ [YStop k]) yinit = Some (y, T1) ->
  yexec sd so is ls2 y = Some (y', T2) -> ~ In (YStart k) ls2 ->
  pubs (done_by k T2) <= 1 /\ says_n (done_by k T2) <= 1 /\ (y_pos y k = WTest -> done_by k T2 = []).
Proof.
  intros sd so is ls1 y T1 ls2 y' T2 k X1 X2 Ns.
  assert (y_run y k = false) as R.
  { apply yexec_app in X1 as (y0 & Ta & Tb & _ & X1 & _). cbn in X1. injection X1 as <- _. cbn. unfold fset. now rewrite Nat.eqb_refl. }
  destruct (stop_ok _ _ _ _ _ _ _ _ R Ns X2) as (A & B). split; [destruct (y_pos y k); cbn in A; lia|]. split; [destruct (y_pos y k); cbn in B; lia|].
  intros P. rewrite P in A, B. cbn in A, B. assert (forall e, In e (done_by k T2) -> False) as No.
  { intros e J. assert (match e with YPub _ _ | YLine _ _ _ => True | _ => False end) as Ke.
    { apply filter_In in J as (_ & J). destruct e; auto; discriminate J. }
    destruct e as [e|k0 n|k0 w c]; [destruct Ke| |].
    - assert (In (YPub k0 n) (filter (fun e => match e with YPub _ _ => true | _ => false end) (done_by k T2))) as Q by (apply filter_In; auto).
      unfold pubs in A. destruct (filter _ (done_by k T2)); [destruct Q|cbn in A; lia].
    - assert (In (YLine k0 w c) (filter (fun e => match e with YLine _ _ _ => true | _ => false end) (done_by k T2))) as Q by (apply filter_In; auto).
      unfold says_n in B. destruct (filter _ (done_by k T2)); [destruct Q|cbn in B; lia]. }
  destruct (done_by k T2) as [|e l]; [reflexivity|]. elim (No e). now left.
Qed.
Print Assumptions C98_stop.

(** A started worker that is to send can always begin its next round. *)
Theorem C98_goes_on : forall sd so is ls y T k i q, yexec sd so is ls yinit = Some (y, T) -> nth_error is k = Some i -> yi_send i = true ->
  y_run y k = true -> y_pos y k = WTest -> nth_error (s_pubs (z_bus (y_z y))) (yi_pub i) = Some q ->
  exists y' n evs, yexec sd so is [YWork k; YWork k] y = Some (y', YPub k n :: map YEv evs).
Proof.
  intros sd so is ls y T k i q X N Sf R P Nq. cbn [yexec ystep]. rewrite N, P, R, Sf. cbn [y_pos]. unfold fset at 1. rewrite Nat.eqb_refl. unfold bus_step. cbn [y_z].
  assert (exists z evs, zstep (lambdas is) (ZBus (LPublish (yi_pub i) hello)) (y_z y) = Some (z, evs)) as (z & evs & S).
  { cbn [zstep allowed step]. unfold begin_publish. rewrite Nq. destruct (p_fn q); do 2 eexists; reflexivity. }
  rewrite S. rewrite app_nil_r. cbn [List.app]. eauto.
Qed.
Print Assumptions C98_goes_on.

(** ** Cases *)
(** Two instances on one bus, the second one to send. *)
Definition ex_is : list yinst := [mkInst "sysinfo-1" 1 2 0 false; mkInst "sysinfo-2" 3 4 2 true].
Definition ex_up : list ylabel :=
  map YBus (map ZBus (LNewRoot "root" :: initialize 0 1 2 0 ++ initialize 0 3 4 1 ++ [LConsumer 0 "/sysinfoaction"; LInstallConsumer 0; LStart 0])) ++ [YStart 0; YStart 1].
Definition ex_round : list ylabel := [YWork 1; YWork 1] ++ map YBus (map ZBus [LFly 0; LFly 0]) ++ [YWork 1].
Definition ex_sd : N -> string := fun _ => "?"%string.
Definition ex_so : string -> string -> string := fun _ _ => "?"%string.
Definition ex_run (k : nat) : list ylabel := repeat (YBus (ZBus (LRun 0))) k.

Lemma ex_distinct : distinct ex_is.
Proof. split; repeat constructor; cbn; intuition lia. Qed.

Example C98_lines_case :
  option_map (fun yT => (entered 0 (snd yT), written 0 (snd yT), done_by 1 (snd yT), done_by 0 (snd yT)))
    (yexec ex_sd ex_so ex_is (ex_up ++ ex_round ++ ex_run 4 ++ [YLog 0; YBus (ZBus (LReturn 0))] ++ ex_run 2 ++ [YLog 0]) yinit) =
  Some ([CallData 1 hello; CallData 3 hello],
        [(0, mkCall "sysinfo-1" "Got it: Hello Bus!" 0%Z); (1, mkCall "sysinfo-2" "Got it: Hello Bus!" 0%Z)],
        rounds 1 "sysinfo-2" [0] [], []).
Proof. vm_compute. reflexivity. Qed.

Definition ex_ask : list ylabel := map YBus (map ZBus [LRequest 0 "id1" Emp (Some 9); LFly 0; LFly 0]) ++ ex_run 5.

(** A request comes in: first the line, then the answer. *)
Example C98_first_case :
  option_map (fun yT => written 0 (snd yT)) (yexec ex_sd ex_so ex_is (ex_up ++ ex_ask) yinit) = Some [] /\
  yexec ex_sd ex_so ex_is (ex_up ++ ex_ask ++ [YBus (ZRespond 0)]) yinit = None /\
  option_map (fun yT => written 0 (snd yT)) (yexec ex_sd ex_so ex_is (ex_up ++ ex_ask ++ [YLog 0; YBus (ZRespond 0)]) yinit) =
    Some [(0, mkCall "sysinfo-1" "Received action request: {invocationId: ""id1"", request: null}" 0%Z)].
Proof. split; [vm_compute; reflexivity|]. split; vm_compute; reflexivity. Qed.

(** The second instance, stopped when it is about to publish: one more round, then it is gone; the first one is silent. *)
Example C98_stop_case : exists y T1 y' T2,
  yexec ex_sd ex_so ex_is ((ex_up ++ [YWork 1]) ++ [YStop 1]) yinit = Some (y, T1) /\
  yexec ex_sd ex_so ex_is ([YWork 0; YWork 1] ++ map YBus (map ZBus [LFly 0; LFly 0]) ++ [YWork 1; YWork 1]) y = Some (y', T2) /\
  done_by 1 T2 = rounds 1 "sysinfo-2" [0] [] /\ done_by 0 T2 = [] /\ y_pos y' 1 = WNone /\ y_pos y' 0 = WTest.
Proof.
  do 4 eexists. split; [vm_compute; reflexivity|]. split; [vm_compute; reflexivity|]. split; [vm_compute; reflexivity|]. split; [vm_compute; reflexivity|].
  split; vm_compute; reflexivity.
Qed.

(** The publication of the round is handed to the root's queue and returns. *)
Fixpoint before_pub (T : list yevent) : list yevent := match T with [] | YPub _ _ :: _ => [] | e :: T' => e :: before_pub T' end.
Definition after_pub (T : list yevent) : list yevent := skipn (S (length (before_pub T))) T.
Example C98_published_case : exists y Ta Tb q x,
  yexec ex_sd ex_so ex_is (ex_up ++ ex_round) yinit = Some (y, Ta ++ YPub 1 0 :: Tb) /\ returned 0 (on_bus Tb) = [Ok tt] /\
  nth_error (s_pubs (z_bus (y_z y))) 2 = Some q /\ p_fn q = true /\ p_topic q = "/sysinfo"%string /\ get_bus (z_bus (y_z y)) (p_bus q) = Some x /\ b_fn x = Some (ToQueue 0) /\
  handed 0 (on_bus Tb) = [(ToQueue 0, mkM "root" "/sysinfo" hello)].
Proof.
  do 5 eexists. split.
  - match goal with |- ?a = Some (?z, ?t ++ _ :: ?u) => let v := eval vm_compute in a in
      match v with Some (?z', ?t') => let p := eval vm_compute in (before_pub t') in let q := eval vm_compute in (after_pub t') in unify z z'; unify t p; unify u q end end.
    vm_compute. reflexivity.
  - split; [vm_compute; reflexivity|]. split; [vm_compute; reflexivity|]. split; [reflexivity|]. split; [reflexivity|]. split; [vm_compute; reflexivity|]. split; [reflexivity|]. vm_compute. reflexivity.
Qed.

(** "Sent datagram" is written also when the publisher has been deleted and nothing is sent. *)
Example C98_unsent_case : exists y T,
  yexec ex_sd ex_so ex_is (ex_up ++ [YWork 1; YBus (ZBus (LDelPub 0 2)); YWork 1; YWork 1]) yinit = Some (y, T) /\
  done_by 1 T = rounds 1 "sysinfo-2" [0] [] /\ handed 0 (on_bus T) = [].
Proof. do 2 eexists. split; [vm_compute; reflexivity|]. split; vm_compute; reflexivity. Qed.

(** A configuration that asks for it, and one with a number in its place. *)

(** A started worker that may go on. *)
Example C98_goes_on_case : exists y T, yexec ex_sd ex_so ex_is (ex_up ++ ex_round) yinit = Some (y, T) /\ y_run y 1 = true /\ y_pos y 1 = WTest /\
  nth_error (s_pubs (z_bus (y_z y))) 2 <> None.
Proof. do 2 eexists. split; [vm_compute; reflexivity|]. split; [reflexivity|]. split; [vm_compute; reflexivity|]. discriminate. Qed.

(** A configuration that asks for it, and one with a number in its place. *)
Definition ex_flag (v : data) : heap := [mkNode [("send-datagram"%string, Some 1)] [] None TDict; mkNode [] [] (Some v) TValue].
Lemma ex_flag_own v : denotes (ex_flag v) 0 (Dct [("send-datagram"%string, Val v)]).
Proof.
  exists [0; 1]. eapply (own_dct _ 0 _ _ [1]); [reflexivity|repeat constructor|reflexivity|].
  change [1] with ([1] ++ []). constructor; [constructor; reflexivity|constructor].
Qed.
Example C98_flag_case : denotes (ex_flag (DBool true)) 0 (Dct [("send-datagram"%string, Val (DBool true))]) /\ send_flag (ex_flag (DBool true)) 0 = Ok true /\
  denotes (ex_flag (DInt 1)) 0 (Dct [("send-datagram"%string, Val (DInt 1))]) /\ send_flag (ex_flag (DInt 1)) 0 = Ok false.
Proof. split; [apply ex_flag_own|]. split; [reflexivity|]. split; [apply ex_flag_own|reflexivity]. Qed.

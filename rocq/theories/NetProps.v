(** C60: forwarding between linked nodes. *)
From Coq Require Import String Ascii List Arith ZArith Bool Lia Permutation.
From Verif Require Import Prelude BusModel LinkModel NodeModel NetModel NodeProps SerialProofs2 DatagramModel DatagramSpec.
Import ListNotations.
Open Scope string_scope.
Open Scope list_scope.

(** ** Vocabulary *)

(** The message as it is published by a link called [name] that received it. *)
Definition mark (name : string) (m : bmsg) : bmsg := mkM (name ++ "/" ++ bm_sender m) (bm_topic m) (bm_data m).

(** The publications and the number of processing steps of an execution. *)
Definition published (ls : list wlabel) : list delivery := flat_map (fun l => match l with WPublish i m => [(i, m)] | _ => [] end) ls.
Definition taken (ls : list wlabel) : nat := length (filter (fun l => match l with WTake _ => true | _ => false end) ls).

(** A server, node 0, and clients 1 to [n], joined by one link plugin called [name] on each. *)
Definition star (n : nat) (name : string) : net :=
  mkNet (fun i => if Nat.eqb i 0 then [mkLink name 1 7 (fun k => match k with ServerPub | ServerSub => true | _ => false end)]
                  else if Nat.leb i n then [mkLink name 1 7 (fun k => match k with ClientPub | ClientSub => true | _ => false end)] else [])
        (fun i k r => match i, k, r with
                      | 0, 0, Server => map (fun j => (j, 0)) (seq 1 n)
                      | S _, 0, Client => [(0, 0)]
                      | _, _, _ => []
                      end).

(** ** Accounting *)

Section Account.
  Variable n : net.
  Variable good : item -> Prop.
  Variable out : item -> list delivery.
  Variable cost : item -> nat.
  Hypothesis closed : forall x, good x -> Forall good (snd (process n x)).
  Hypothesis out_ok : forall x, good x -> Permutation (out x) (fst (process n x) ++ flat_map out (snd (process n x))).
  Hypothesis cost_ok : forall x, good x -> cost x = S (list_sum (map cost (snd (process n x)))).

  Lemma take_perm {A} p : forall (l : list A) x rest, take p l = Some (x, rest) -> Permutation l (x :: rest).
  Proof.
    induction p as [|p IH]; intros [|y l] x rest H; try discriminate; cbn in H; [injection H as <- <-; reflexivity|].
    destruct (take p l) as [[z l']|] eqn:E; [|discriminate]. injection H as <- <-. rewrite (IH _ _ _ E). apply perm_swap.
  Qed.

  Lemma list_sum_perm l l' : Permutation l l' -> list_sum l = list_sum l'.
  Proof. induction 1; unfold list_sum in *; cbn [fold_right]; lia. Qed.

  Lemma account ls : forall pend dels pend' dels', wexec n ls (pend, dels) = Some (pend', dels') ->
    Forall good pend -> Forall (fun p => good (Dist (fst p) (snd p))) (published ls) ->
    Forall good pend' /\
    Permutation (dels' ++ flat_map out pend') (dels ++ flat_map out pend ++ flat_map (fun p => out (Dist (fst p) (snd p))) (published ls)) /\
    taken ls + list_sum (map cost pend') = list_sum (map cost pend) + list_sum (map (fun p => cost (Dist (fst p) (snd p))) (published ls)).
  Proof.
    induction ls as [|l ls IH]; cbn [wexec]; intros pend dels pend' dels' X G P.
    - injection X as <- <-. cbn. rewrite app_nil_r. repeat split; auto; lia.
    - destruct (wstep n l (pend, dels)) as [[p1 d1]|] eqn:E; [|discriminate]. destruct l as [i m|p]; cbn [wstep fst snd] in E.
      + injection E as <- <-. cbn [published flat_map] in P. inversion P as [|? ? P1 P2]; subst. cbn [fst snd] in P1.
        destruct (IH _ _ _ _ X) as (A & B & C); [apply Forall_app; auto|exact P2|]. split; [exact A|]. split.
        * rewrite B. rewrite flat_map_app. cbn [flat_map published fst snd app]. fold (published ls). rewrite app_nil_r, <- !app_assoc. reflexivity.
        * rewrite map_app, list_sum_app in C. unfold taken, list_sum in *. cbn [published flat_map filter app map fold_right fst snd length] in *. fold (published ls). lia.
      + destruct (take p pend) as [[x rest]|] eqn:T; [|discriminate]. pose proof (take_perm _ _ _ _ T) as Q.
        assert (good x /\ Forall good rest) as (Gx & Gr) by (pose proof (Permutation_Forall Q G) as F; inversion F; auto).
        pose proof (closed _ Gx) as Cx. pose proof (out_ok _ Gx) as Ox. pose proof (cost_ok _ Gx) as Kx.
        destruct (process n x) as [ds xs]. cbn [fst snd] in *. injection E as <- <-.
        destruct (IH _ _ _ _ X) as (A & B & C); [apply Forall_app; auto|exact P|]. split; [exact A|]. split.
        * rewrite B. rewrite (Permutation_flat_map out Q), flat_map_app. cbn [flat_map]. rewrite Ox, <- !app_assoc. apply Permutation_app_head.
          change (published (WTake p :: ls)) with (published ls). apply Permutation_app_head. rewrite !app_assoc. apply Permutation_app_tail, Permutation_app_comm.
        * rewrite (list_sum_perm _ _ (Permutation_map cost Q)). rewrite map_app, list_sum_app in C. cbn [map list_sum fold_right] in *.
          change (published (WTake p :: ls)) with (published ls). unfold taken in *. cbn [filter length]. unfold list_sum in *. lia.
  Qed.
End Account.

(** ** One link on every node: messages travel one hop *)

Lemma mark_on_receive lk m : on_receive lk m = mark (lk_id lk) m.
Proof. reflexivity. Qed.
Lemma mark_marked name m : markedb name (mark name m) = true.
Proof. apply markedb_iff. exists (bm_sender m). reflexivity. Qed.
Lemma on_message_marked lk m : markedb (lk_id lk) m = true -> on_message lk m = [].
Proof. intros H. unfold on_message. rewrite sent_by_marked, H. reflexivity. Qed.

Section Star.
  Variable n : nat.
  Variable name : string.

  Definition star_out (x : item) : list delivery :=
    match x with
    | Dist i m =>
        (i, m) :: (if markedb name m then [] else if Nat.eqb i 0 then map (fun j => (j, mark name m)) (seq 1 n) else if Nat.leb i n then [(0, mark name m)] else [])
    | Arrive i k m => [(i, mark name m)]
    end.
  Definition star_cost (x : item) : nat := match x with Arrive _ _ _ => 2 | _ => 2 * length (star_out x) - 1 end.
  Definition star_good (x : item) : Prop := match x with Arrive i k m => i <= n /\ k = 0 | _ => True end.

  Lemma star_links i : i <= n -> exists f, nt_links (star n name) i = [mkLink name 1 7 f].
  Proof. intros L. cbn. destruct (Nat.eqb i 0); [eauto|]. replace (Nat.leb i n) with true by (symmetry; apply Nat.leb_le; lia). eauto. Qed.

  Lemma star_forward i m : forward (star n name) i m =
    if markedb name m then [] else if Nat.eqb i 0 then map (fun j => Arrive j 0 m) (seq 1 n) else if Nat.leb i n then [Arrive 0 0 m] else [].
  Proof.
    unfold forward, star; cbn [nt_links nt_wires]. destruct (markedb name m) eqn:M.
    - destruct (Nat.eqb i 0); [|destruct (Nat.leb i n)]; cbn [indexed combine seq length flat_map fst snd]; try reflexivity; rewrite on_message_marked by exact M; reflexivity.
    - destruct i as [|i]; cbn [Nat.eqb].
      + cbn [indexed combine seq length flat_map fst snd]. unfold on_message. rewrite sent_by_marked. cbn [lk_id]. rewrite M. cbn. rewrite !app_nil_r, map_map. reflexivity.
      + destruct (Nat.leb (S i) n); [|reflexivity]. cbn [indexed combine seq length flat_map fst snd]. unfold on_message. rewrite sent_by_marked. cbn [lk_id]. rewrite M. reflexivity.
  Qed.

  Lemma star_closed x : star_good x -> Forall star_good (snd (process (star n name) x)).
  Proof.
    destruct x as [i m|i k m]; cbn [star_good process].
    - intros _. cbn [snd]. rewrite star_forward. destruct (markedb name m); [constructor|]. destruct (Nat.eqb i 0).
      + apply Forall_forall. intros x I. apply in_map_iff in I as (j & <- & I). apply in_seq in I. cbn. lia.
      + destruct (Nat.leb i n); repeat constructor; cbn; lia.
    - intros _. destruct (nth_error _ k); repeat constructor.
  Qed.

  Lemma star_receive i m : i <= n -> process (star n name) (Arrive i 0 m) = ([], [Dist i (mark name m)]).
  Proof. intros L. cbn [process]. destruct (star_links i L) as (f & ->). reflexivity. Qed.

  Lemma star_arrive i m : flat_map star_out [Dist i (mark name m)] = [(i, mark name m)].
  Proof. cbn [flat_map star_out]. now rewrite mark_marked. Qed.

  Lemma star_out_ok x : star_good x -> Permutation (star_out x) (fst (process (star n name) x) ++ flat_map star_out (snd (process (star n name) x))).
  Proof.
    destruct x as [i m|i k m]; cbn [star_good].
    - intros _. cbn [process fst snd]. rewrite star_forward. cbn [star_out app]. apply perm_skip. destruct (markedb name m); [reflexivity|]. destruct (Nat.eqb i 0).
      + induction (seq 1 n) as [|j l IH]; [reflexivity|]. cbn. now apply perm_skip.
      + destruct (Nat.leb i n); reflexivity.
    - intros (L & ->). rewrite star_receive by exact L. cbn [fst snd app]. now rewrite star_arrive.
  Qed.

  Lemma star_cost_ok x : star_good x -> star_cost x = S (list_sum (map star_cost (snd (process (star n name) x)))).
  Proof.
    destruct x as [i m|i k m]; cbn [star_good].
    - intros _. cbn [process fst snd]. rewrite star_forward. unfold star_cost at 1. cbn [star_out length]. destruct (markedb name m); [reflexivity|]. destruct (Nat.eqb i 0).
      + rewrite !map_length, seq_length, map_map. assert (forall l, list_sum (map (fun j => star_cost (Arrive j 0 m)) l) = 2 * length l) as Q.
        { clear. induction l; [reflexivity|]. unfold list_sum in *. cbn [map fold_right length]. rewrite IHl. cbn [star_cost]. lia. }
        rewrite Q, seq_length. lia.
      + destruct (Nat.leb i n); reflexivity.
    - intros (L & ->). rewrite star_receive by exact L. cbn [snd map list_sum fold_right]. unfold star_cost. cbn [star_out]. rewrite mark_marked. reflexivity.
  Qed.
End Star.

(** A server with [n] clients. In every order of processing, when nothing is pending any more: an unmarked publication
    of the server has been delivered on the server and once on every client; an unmarked publication of a client on
    that client and once on the server, and nowhere else; a publication that carries the link's identifier only where it was published. *)
Theorem C60_star : forall n name ls dels,
  wexec (star n name) ls ([], []) = Some ([], dels) -> (forall i m, In (WPublish i m) ls -> i <= n) ->
  Permutation dels
    (flat_map (fun p => p :: (if markedb name (snd p) then []
                              else if Nat.eqb (fst p) 0 then map (fun j => (j, mark name (snd p))) (seq 1 n)
                              else [(0, mark name (snd p))])) (published ls)).
Proof.
  intros n name ls dels X L.
  destruct (account (star n name) (star_good n) (star_out n name) (star_cost n name) (star_closed n name) (star_out_ok n name) (star_cost_ok n name) _ _ _ _ _ X) as (_ & B & _).
  - constructor.
  - apply Forall_forall. intros p _. exact I.
  - cbn [flat_map app] in B. rewrite app_nil_r in B. rewrite B. apply Permutation_refl'.
    assert (forall p, In p (published ls) -> fst p <= n) as L'.
    { intros p I. unfold published in I. apply in_flat_map in I as (l & Il & I). destruct l as [i m|]; [|destruct I]. destruct I as [<-|[]]. eapply L; eauto. }
    clear - L'. induction (published ls) as [|(i & m) l IH]; [reflexivity|]. cbn [flat_map]. rewrite IH by (intros p I; apply L'; now right).
    f_equal. cbn [fst snd star_out]. replace (Nat.leb i n) with true by (symmetry; apply Nat.leb_le; apply (L' (i, m)); now left). reflexivity.
Qed.
Print Assumptions C60_star.

(** Every exchange stops: whatever the order, each publication leads to at most max (2n+1, 3) processing steps. *)
Theorem C60_star_stops : forall n name ls pend dels,
  wexec (star n name) ls ([], []) = Some (pend, dels) -> taken ls + length pend <= Nat.max (2 * n + 1) 3 * length (published ls).
Proof.
  intros n name ls pend dels X.
  destruct (account (star n name) (star_good n) (star_out n name) (star_cost n name) (star_closed n name) (star_out_ok n name) (star_cost_ok n name) _ _ _ _ _ X) as (_ & _ & C).
  - constructor.
  - apply Forall_forall. intros p _. exact I.
  - cbn [map list_sum fold_right] in C. assert (length pend <= list_sum (map (star_cost n name) pend)) as L1.
    { clear. induction pend as [|x l IH]; [constructor|]. cbn [length map list_sum fold_right]. unfold list_sum in IH. assert (1 <= star_cost n name x) by (destruct x; unfold star_cost; cbn [star_out length]; lia). lia. }
    assert (list_sum (map (fun p => star_cost n name (Dist (fst p) (snd p))) (published ls)) <= Nat.max (2 * n + 1) 3 * length (published ls)) as L2; [|unfold list_sum in *; lia].
    clear. induction (published ls) as [|(i & m) l IH]; [cbn; lia|]. cbn [length map list_sum fold_right fst snd]. unfold list_sum in IH.
    assert (star_cost n name (Dist i m) <= Nat.max (2 * n + 1) 3); [|lia]. unfold star_cost. cbn [star_out length]. destruct (markedb name m); [cbn; lia|].
    destruct (Nat.eqb i 0); [rewrite map_length, seq_length; lia|]. destruct (Nat.leb i n); cbn; lia.
Qed.
Print Assumptions C60_star_stops.

(** As long as something is pending a step is possible, so every exchange can be brought to its end. *)
Theorem C60_live : forall n pend dels, pend <> [] -> exists s, wstep n (WTake 0) (pend, dels) = Some s.
Proof. intros n [|x l] dels H; [congruence|]. cbn. destruct (process n x). eauto. Qed.
Print Assumptions C60_live.

(** Two nodes joined by one link: every unmarked publication is delivered on its own node and exactly once on the other. *)
Theorem C60_pair : forall name ls dels,
  wexec (star 1 name) ls ([], []) = Some ([], dels) -> (forall i m, In (WPublish i m) ls -> i <= 1) ->
  Permutation dels (flat_map (fun p => p :: (if markedb name (snd p) then [] else [(1 - fst p, mark name (snd p))])) (published ls)).
Proof.
  intros name ls dels X L. rewrite (C60_star 1 name ls dels X L). apply Permutation_refl'.
  assert (forall p, In p (published ls) -> fst p <= 1) as L'.
  { intros p I. unfold published in I. apply in_flat_map in I as (l & Il & I). destruct l as [i m|]; [|destruct I]. destruct I as [<-|[]]. eapply L; eauto. }
  clear - L'. induction (published ls) as [|(i & m) l IH]; [reflexivity|]. cbn [flat_map]. rewrite IH by (intros p I; apply L'; now right).
  f_equal. cbn [fst snd]. f_equal. specialize (L' (i, m) (or_introl eq_refl)). cbn in L'. destruct i as [|[|]]; [reflexivity..|lia].
Qed.
Print Assumptions C60_pair.

Definition ex_m : bmsg := mkM "root" "t" (Val (DInt 1)).
Example C60_star_case : exists dels,
  wexec (star 3 "Link0") [WPublish 0 ex_m; WPublish 2 ex_m; WTake 1; WTake 0; WTake 0; WTake 2; WTake 1; WTake 1; WTake 0; WTake 0; WTake 0; WTake 0] ([], []) = Some ([], dels) /\
  dels = [(2, ex_m); (0, ex_m); (0, mark "Link0" ex_m); (3, mark "Link0" ex_m); (2, mark "Link0" ex_m); (1, mark "Link0" ex_m)].
Proof. eexists. split; vm_compute; reflexivity. Qed.

(** ** Parallel links *)

(** Nodes 0 and 1 joined by several links: link [k] of node 0, called [nth k ids0], is a server for link [k] of node 1, called [nth k ids1]. *)
Definition parallel (ids0 ids1 : list string) : net :=
  mkNet (fun i => match i with
                  | 0 => map (fun id => mkLink id 1 7 (fun k => match k with ServerPub | ServerSub => true | _ => false end)) ids0
                  | 1 => map (fun id => mkLink id 1 7 (fun k => match k with ClientPub | ClientSub => true | _ => false end)) ids1
                  | _ => []
                  end)
        (fun i k r => match i, r with
                      | 0, Server => [(1, k)]
                      | 1, Client => [(0, k)]
                      | _, _ => []
                      end).

Definition slash_free (s : string) : Prop := ~ In "/"%char (list_ascii_of_string s).

Lemma list_ascii_app a b : list_ascii_of_string (a ++ b) = (list_ascii_of_string a ++ list_ascii_of_string b)%list.
Proof. induction a; cbn; congruence. Qed.

Lemma head_unique a b x y : slash_free a -> slash_free b -> (a ++ "/" ++ x)%string = (b ++ "/" ++ y)%string -> a = b.
Proof.
  revert b. induction a as [|c a IH]; intros [|d b] A B E; cbn in *.
  - reflexivity.
  - injection E as <- _. destruct B. now left.
  - injection E as -> _. destruct A. now left.
  - injection E as -> E. f_equal. apply IH; auto; intros I; [apply A|apply B]; now right.
Qed.

Lemma mark_once ids m : Forall slash_free ids -> NoDup ids ->
  length ids <= 1 + length (filter (fun id => negb (markedb id m)) ids) /\
  ((exists id, In id ids /\ markedb id m = true) -> length ids = 1 + length (filter (fun id => negb (markedb id m)) ids)) /\
  ((forall id, In id ids -> markedb id m = false) -> length ids = length (filter (fun id => negb (markedb id m)) ids)).
Proof.
  intros F D. induction ids as [|a ids IH]; [cbn; split; [lia|]; split; [intros (? & [] & _)|auto]|].
  inversion F as [|? ? Fa Fi]; subst. inversion D as [|? ? Na Di]; subst. destruct (IH Fi Di) as (A & B & C). cbn [filter length].
  destruct (markedb a m) eqn:M; cbn [negb].
  - assert (length ids = length (filter (fun id => negb (markedb id m)) ids)) as E.
    { apply C. intros id I. destruct (markedb id m) eqn:M'; auto. exfalso. apply markedb_iff in M as (x & M). apply markedb_iff in M' as (y & M').
      rewrite M' in M. apply head_unique in M; [congruence| |auto]. rewrite Forall_forall in Fi. auto. }
    split; [lia|]. split; [lia|]. intros K. specialize (K a (or_introl eq_refl)). congruence.
  - cbn [length]. split; [lia|]. split.
    + intros (id & [->|I] & M'); [congruence|]. rewrite B by eauto. lia.
    + intros K. rewrite C by (intros; apply K; now right). lia.
Qed.

Lemma filter_length_le {A} (f : A -> bool) l : length (filter f l) <= length l.
Proof. induction l; cbn; [lia|]. destruct (f a); cbn; lia. Qed.

Section Parallel.
  Variables ids0 ids1 : list string.
  Hypothesis same : length ids0 = length ids1.
  Hypothesis free0 : Forall slash_free ids0.
  Hypothesis free1 : Forall slash_free ids1.
  Hypothesis dup0 : NoDup ids0.
  Hypothesis dup1 : NoDup ids1.
  Let net := parallel ids0 ids1.
  Let ids (i : nat) : list string := if Nat.eqb i 0 then ids0 else ids1.

  Lemma par_forward i m : i <= 1 ->
    length (forward net i m) = length (filter (fun id => negb (markedb id m)) (ids i)) /\
    Forall (fun x => exists k, x = Arrive (1 - i) k m /\ k < length ids0) (forward net i m).
  Proof.
    intros L.
    assert (forall l n0 f w r, n0 + length l <= length ids0 -> f (pub_socket r) = true -> (forall r', r' <> r -> f (pub_socket r') = false) -> (forall k, w k r = [(1 - i, k)]) ->
      length (flat_map (fun x => flat_map (fun r => map (fun w => Arrive (fst w) (snd w) m) (w (fst x) r)) (on_message (snd x) m)) (combine (seq n0 (length l)) (map (fun id => mkLink id 1 7 f) l))) = length (filter (fun id => negb (markedb id m)) l) /\
      Forall (fun x => exists k, x = Arrive (1 - i) k m /\ k < length ids0) (flat_map (fun x => flat_map (fun r => map (fun w => Arrive (fst w) (snd w) m) (w (fst x) r)) (on_message (snd x) m)) (combine (seq n0 (length l)) (map (fun id => mkLink id 1 7 f) l)))) as G.
    { intros l. induction l as [|a l IH]; intros n0 f w r Ln Fr Fo W; [split; [reflexivity|constructor]|]. cbn [length seq map combine flat_map filter fst snd]. cbn [length] in Ln.
      destruct (IH (S n0) f w r ltac:(lia) Fr Fo W) as (A & B). unfold on_message at 1 3. rewrite sent_by_marked. cbn [lk_id lk_socket].
      destruct (markedb a m) eqn:M; cbn [negb flat_map app]; [split; auto|].
      assert (flat_map (fun r0 => map (fun w0 => Arrive (fst w0) (snd w0) m) (w n0 r0)) ((if f ServerPub then [Server] else []) ++ (if f ClientPub then [Client] else [])) = [Arrive (1 - i) n0 m]) as ->.
      { destruct r; cbn [pub_socket] in Fr; rewrite Fr.
        - pose proof (Fo Client ltac:(discriminate)) as Q. cbn [pub_socket] in Q. rewrite Q. cbn. rewrite W. reflexivity.
        - pose proof (Fo Server ltac:(discriminate)) as Q. cbn [pub_socket] in Q. rewrite Q. cbn. rewrite W. reflexivity. }
      cbn [app length]. split; [now rewrite A|]. constructor; auto. exists n0. split; auto. lia. }
    unfold forward, indexed. unfold net, parallel, ids. cbn [nt_links nt_wires]. destruct i as [|[|]]; [| |lia]; rewrite map_length; cbn [Nat.eqb].
    - apply (G ids0 0 _ (fun k r => match r with Server => [(1, k)] | Client => [] end) Server); auto. intros [|] ?; [congruence|reflexivity].
    - apply (G ids1 0 _ (fun k r => match r with Server => [] | Client => [(0, k)] end) Client); auto. + lia. + intros [|] ?; [reflexivity|congruence].
  Qed.

  Lemma par_receive i k m : i <= 1 -> k < length ids0 -> exists id, In id (ids i) /\ process net (Arrive i k m) = ([], [Dist i (mark id m)]).
  Proof.
    intros L K. assert (k < length (ids i)) as K' by (unfold ids; destruct (Nat.eqb i 0); lia).
    destruct (nth_error (ids i) k) as [id|] eqn:N; [|apply nth_error_None in N; lia]. exists id. split; [eapply nth_error_In; eauto|].
    cbn [process]. unfold net, parallel. cbn [nt_links]. destruct i as [|[|]]; [| |lia]; unfold ids in N; cbn [Nat.eqb] in N; rewrite (map_nth_error _ _ _ N); reflexivity.
  Qed.

  Lemma ids_free i : Forall slash_free (ids i) /\ NoDup (ids i) /\ length (ids i) = length ids0.
  Proof. unfold ids. destruct (Nat.eqb i 0); auto. Qed.

  Definition par_item (x : item) : Prop := match x with Dist i m => i <= 1 | Arrive i k m => i <= 1 /\ k < length ids0 end.
  Definition got (x : item) : Prop := match x with Dist i m => i <= 1 /\ exists id, In id (ids i) /\ markedb id m = true | Arrive i k m => i <= 1 /\ k < length ids0 end.

  Lemma got_item x : got x -> par_item x.
  Proof. destruct x; cbn; tauto. Qed.

  Lemma par_dist i m : i <= 1 ->
    Forall got (forward net i m) /\ length ids0 <= 1 + length (forward net i m) /\ length (forward net i m) <= length ids0 /\
    ((exists id, In id (ids i) /\ markedb id m = true) -> length ids0 = 1 + length (forward net i m)) /\
    ((forall id, In id (ids i) -> markedb id m = false) -> length ids0 = length (forward net i m)).
  Proof.
    intros L. destruct (par_forward i m L) as (A & B). destruct (ids_free i) as (F & D & E). destruct (mark_once (ids i) m F D) as (M1 & M2 & M3).
    rewrite A, <- E. split.
    - eapply Forall_impl; [|exact B]. intros x (k & -> & K). cbn [got]. split; [lia|exact K].
    - split; [exact M1|]. split; [apply filter_length_le|]. split; auto.
  Qed.

  Lemma par_exec ls : forall pend dels pend' dels', (forall l, In l ls -> exists p, l = WTake p) -> 2 <= length ids0 -> wexec net ls (pend, dels) = Some (pend', dels') ->
    Forall par_item pend -> pend <> [] -> Forall par_item pend' /\ pend' <> [] /\
    length ls + length (filter (fun x => match x with Arrive _ _ _ => true | _ => false end) pend') + (1 + length ids0) * length dels
      <= (1 + length ids0) * length dels' + length (filter (fun x => match x with Arrive _ _ _ => true | _ => false end) pend).
  Proof.
    induction ls as [|l ls IH]; cbn [wexec]; intros pend dels pend' dels' T K X G N; [injection X as <- <-; cbn [length]; repeat split; auto; lia|].
    destruct (T l (or_introl eq_refl)) as (p & ->). destruct (wstep net (WTake p) (pend, dels)) as [[p1 d1]|] eqn:E; [|discriminate]. cbn [wstep fst snd] in E.
    destruct (take p pend) as [[x rest]|] eqn:Tk; [|discriminate]. pose proof (take_perm _ _ _ _ Tk) as Q.
    assert (par_item x /\ Forall par_item rest) as (Gx & Gr) by (pose proof (Permutation_Forall Q G) as F; inversion F; auto).
    assert (forall l l' : list item, Permutation l l' -> length (filter (fun x => match x with Arrive _ _ _ => true | _ => false end) l) = length (filter (fun x => match x with Arrive _ _ _ => true | _ => false end) l')) as PF.
    { clear. intros l l' P. induction P as [|x ? ? ? ?|x y ?|]; cbn [filter]; auto; try congruence; [destruct x; cbn; congruence|destruct x, y; reflexivity]. }
    rewrite (PF _ _ Q). destruct x as [i m|i k m]; cbn [par_item] in Gx.
    - destruct (par_dist i m Gx) as (A & B & C & _). cbn [process] in E. injection E as <- <-.
      destruct (IH _ _ _ _ (fun l I => T l (or_intror I)) K X) as (R1 & R2 & R3).
      + apply Forall_app. split; auto. eapply Forall_impl; [|exact A]. apply got_item.
      + intros Z. apply app_eq_nil in Z as (_ & Z). rewrite Z in B. cbn in B. lia.
      + split; [exact R1|]. split; [exact R2|]. rewrite filter_app', !app_length in R3. cbn [filter length] in *.
        pose proof (filter_length_le (fun x => match x with Arrive _ _ _ => true | _ => false end) (forward net i m)). nia.
    - destruct Gx as (L & Kk). destruct (par_receive i k m L Kk) as (id & Iid & Pr). rewrite Pr in E. injection E as <- <-.
      destruct (IH _ _ _ _ (fun l I => T l (or_intror I)) K X) as (R1 & R2 & R3).
      + apply Forall_app. split; [exact Gr|]. apply Forall_cons; [exact L|constructor].
      + intros Z. apply app_eq_nil in Z as (_ & Z). discriminate.
      + split; [exact R1|]. split; [exact R2|]. rewrite app_nil_r, filter_app', app_length in R3. cbn [filter length] in *. lia.
  Qed.

  Lemma par_count ls : forall pend dels pend' dels', (forall l, In l ls -> exists p, l = WTake p) -> 2 <= length ids0 -> wexec net ls (pend, dels) = Some (pend', dels') ->
    Forall got pend -> Forall got pend' /\ length pend' + length dels * (length ids0 - 2) = length pend + length dels' * (length ids0 - 2).
  Proof.
    induction ls as [|l ls IH]; cbn [wexec]; intros pend dels pend' dels' T K X G; [injection X as <- <-; auto|].
    destruct (T l (or_introl eq_refl)) as (p & ->). destruct (wstep net (WTake p) (pend, dels)) as [[p1 d1]|] eqn:E; [|discriminate]. cbn [wstep fst snd] in E.
    destruct (take p pend) as [[x rest]|] eqn:Tk; [|discriminate]. pose proof (take_perm _ _ _ _ Tk) as Q.
    assert (got x /\ Forall got rest) as (Gx & Gr) by (pose proof (Permutation_Forall Q G) as F; inversion F; auto).
    rewrite (Permutation_length Q). destruct x as [i m|i k m]; cbn [got] in Gx.
    - destruct Gx as (L & M). destruct (par_dist i m L) as (A & _ & _ & B & _). specialize (B M). cbn [process] in E. injection E as <- <-.
      destruct (IH _ _ _ _ (fun l I => T l (or_intror I)) K X) as (R1 & R2); [apply Forall_app; auto|]. split; [exact R1|].
      rewrite !app_length in R2. cbn [length] in *. replace (length ids0 - 2) with (length (forward net i m) - 1) in * by lia. nia.
    - destruct Gx as (L & Kk). destruct (par_receive i k m L Kk) as (id & Iid & Pr). rewrite Pr in E. injection E as <- <-.
      destruct (IH _ _ _ _ (fun l I => T l (or_intror I)) K X) as (R1 & R2).
      + apply Forall_app. split; [exact Gr|]. apply Forall_cons; [|constructor]. split; [exact L|]. exists id. split; auto. apply mark_marked.
      + split; [exact R1|]. rewrite app_nil_r, app_length in R2. cbn [length] in *. lia.
  Qed.
End Parallel.

(** Two nodes joined by two or more links (distinct names without slashes, as PluginTemplate gives them) forward a
    single publication for ever: after any number of processing steps something is pending, and the number of
    deliveries grows with the number of steps. *)
Theorem C60_parallel_forever : forall ids0 ids1 i m takes pend dels,
  length ids0 = length ids1 -> 2 <= length ids0 -> Forall slash_free (ids0 ++ ids1) -> NoDup ids0 -> NoDup ids1 -> i <= 1 ->
  wexec (parallel ids0 ids1) (WPublish i m :: map WTake takes) ([], []) = Some (pend, dels) ->
  pend <> [] /\ length takes <= (1 + length ids0) * length dels.
Proof.
  intros ids0 ids1 i m takes pend dels E K F D0 D1 L X. apply Forall_app in F as (F0 & F1). cbn [wexec wstep fst snd app] in X.
  destruct (par_exec ids0 ids1 E F0 F1 D0 D1 _ _ _ _ _ (fun l I => match proj1 (in_map_iff _ _ _) I with ex_intro _ p (conj q _) => ex_intro _ p (eq_sym q) end) K X) as (_ & A & B).
  - constructor; [exact L|constructor].
  - discriminate.
  - split; [exact A|]. rewrite map_length in B. cbn [filter length] in B. lia.
Qed.
Print Assumptions C60_parallel_forever.

(** Such executions exist for every number of steps. *)
Theorem C60_parallel_runs : forall ids0 ids1 i m k,
  length ids0 = length ids1 -> 2 <= length ids0 -> Forall slash_free (ids0 ++ ids1) -> NoDup ids0 -> NoDup ids1 -> i <= 1 ->
  exists pend dels, wexec (parallel ids0 ids1) (WPublish i m :: map WTake (repeat 0 k)) ([], []) = Some (pend, dels).
Proof.
  intros ids0 ids1 i m k E K F D0 D1 L. induction k as [|k (pend & dels & IH)]; [do 2 eexists; reflexivity|].
  destruct (C60_parallel_forever _ _ _ _ _ _ _ E K F D0 D1 L IH) as (N & _). destruct (C60_live (parallel ids0 ids1) pend dels N) as ([p d] & S1).
  assert (forall n ls1 ls2 s, wexec n (ls1 ++ ls2) s = match wexec n ls1 s with Some s' => wexec n ls2 s' | None => None end) as W.
  { intros n ls1. induction ls1 as [|l ls1 IH']; intros ls2 s; [reflexivity|]. cbn [app wexec]. destruct (wstep n l s); auto. }
  exists p, d. change (repeat 0 (S k)) with (0 :: repeat 0 k). rewrite repeat_cons. rewrite map_app.
  change (WPublish i m :: map WTake (repeat 0 k) ++ map WTake [0]) with ((WPublish i m :: map WTake (repeat 0 k)) ++ map WTake [0]).
  rewrite W, IH. cbn [map wexec]. now rewrite S1.
Qed.
Print Assumptions C60_parallel_runs.

(** The number of copies on their way: always two with two links; with more links it grows with every delivery. *)
Theorem C60_parallel_count : forall ids0 ids1 i m takes pend dels,
  length ids0 = length ids1 -> 2 <= length ids0 -> Forall slash_free (ids0 ++ ids1) -> NoDup ids0 -> NoDup ids1 -> i <= 1 ->
  (forall id, In id (ids0 ++ ids1) -> ~ marked id m) ->
  wexec (parallel ids0 ids1) (WPublish i m :: map WTake takes) ([], []) = Some (pend, dels) ->
  takes = [] \/ length pend = 2 + length dels * (length ids0 - 2).
Proof.
  intros ids0 ids1 i m takes pend dels E K F D0 D1 L U X. apply Forall_app in F as (F0 & F1). cbn [wexec wstep fst snd app] in X.
  destruct takes as [|p takes]; [now left|right]. cbn [map wexec wstep fst snd] in X. destruct p as [|p]; cbn [take] in X; [|destruct p; discriminate]. cbn [process app] in X.
  destruct (par_dist ids0 ids1 E F0 F1 D0 D1 i m L) as (A & _ & _ & _ & B).
  destruct (par_count ids0 ids1 E F0 F1 D0 D1 _ _ _ _ _ (fun l I => match proj1 (in_map_iff _ _ _) I with ex_intro _ p (conj q _) => ex_intro _ p (eq_sym q) end) K X A) as (_ & C).
  rewrite <- B in C.
  - cbn [length] in C. lia.
  - intros id I. destruct (markedb id m) eqn:M; auto. destruct (U id); [|now apply markedb_iff]. destruct (Nat.eqb i 0); apply in_app_iff; auto.
Qed.
Print Assumptions C60_parallel_count.

Example C60_parallel_case : exists pend dels,
  (length ["Link0"; "Link1"; "Link2"] = 3 /\ Forall slash_free (["Link0"; "Link1"; "Link2"] ++ ["Link0"; "Link1"; "Link2"]) /\ NoDup ["Link0"; "Link1"; "Link2"] /\
   (forall id, In id (["Link0"; "Link1"; "Link2"] ++ ["Link0"; "Link1"; "Link2"]) -> ~ marked id ex_m)) /\
  wexec (parallel ["Link0"; "Link1"; "Link2"] ["Link0"; "Link1"; "Link2"]) (WPublish 0 ex_m :: map WTake [0; 1; 2; 0; 1]) ([], []) = Some (pend, dels) /\
  length pend = 4 /\ dels = [(0, ex_m); (1, mark "Link1" ex_m)].
Proof.
  do 2 eexists. split.
  - split; [reflexivity|]. split; [repeat constructor; intros I; cbn in I; repeat destruct I as [I|I]; discriminate || contradiction|].
    split; [repeat constructor; cbn; intros I; repeat destruct I as [I|I]; discriminate || contradiction|].
    intros id I (r & Q). cbn in I. repeat destruct I as [<-|I]; try discriminate. contradiction.
  - split; [vm_compute; reflexivity|]. vm_compute. auto.
Qed.

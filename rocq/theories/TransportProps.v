(** C90: links when calls of ZeroMQ fail. *)
From Coq Require Import String Ascii List Arith ZArith Bool Lia.
From Verif Require Import Prelude OMap DatagramModel DatagramSpec DatagramProofs SerialModel SerialSpec SerialProofs WireModel WireSpec WireProofs WireBuild WireProps
  LinkModel LinkProps TransportModel.
Import ListNotations.
Open Scope nat_scope.
Open Scope string_scope.
Open Scope list_scope.

(** ** Vocabulary *)

(** [k] times "A". *)
Definition As (k : nat) : string := String.concat "" (repeat "A" k).

(** What the receiver gets to read for a sequence of sends when [k] topic frames wait in the socket: a payload that is sent completes
    the message; it comes after all the waiting topic frames but the first; without any topic frame the message is not received. *)
Fixpoint heard (k : nat) (l : list (outcome * string)) : list string :=
  match l with
  | [] => []
  | (mkOutcome false _ _, _) :: l' => heard k l'
  | (mkOutcome true topic payload, bytes) :: l' =>
      let k := if topic then S k else k in
      if payload then match k with 0 => heard 0 l' | S j => (As j ++ bytes)%string :: heard 0 l' end
      else heard k l'
  end.

(** The payloads that [n] calls of ReceiveMessage without failures read from a queue, those that find none apart. *)
Fixpoint reads (n : nat) (q : queue) : list string :=
  match n with
  | 0 => []
  | S n' => let (bytes, q') := receive_frames q false "" in
            (if String.eqb bytes "" then [] else [bytes]) ++ reads n' q'
  end.

(** ** Lemmas *)

Lemma as_frames_multipart fs : as_frames fs = multipart fs.
Proof. reflexivity. Qed.

Lemma As_S k : As (S k) = ("A" ++ As k)%string.
Proof. unfold As. cbn [repeat]. now rewrite concat_cons. Qed.

Lemma concat_as k b : String.concat "" (repeat "A" k ++ [b]) = (As k ++ b)%string.
Proof.
  induction k as [|k IH]; [cbn; reflexivity|]. cbn [repeat app]. rewrite concat_cons, IH, As_S. now rewrite sapp_assoc.
Qed.

Lemma app_empty (a b : string) : (a ++ b)%string = "" -> b = "".
Proof. destruct a; auto; discriminate. Qed.

Lemma reads_arrivals out : Forall (fun fs => fs <> []) out -> forall n, length out <= n ->
  reads n (arrivals out) = filter (fun b => negb (String.eqb b "")) (map (fun fs => String.concat "" (tl fs)) (filter subscribed out)).
Proof.
  unfold arrivals. assert (forall n, reads n [] = []) as Em by (induction n as [|n IH]; cbn; auto).
  induction out as [|fs out IH]; intros F n L; cbn [filter flat_map map]; [apply Em|]. inversion F as [|? ? N F']; subst.
  cbn [length] in L. destruct (subscribed fs).
  - destruct n as [|n]; [lia|]. cbn [flat_map map filter reads]. destruct fs as [|f fs]; [congruence|]. rewrite as_frames_multipart, receive_all.
    rewrite IH by (auto; lia). cbn [tl]. destruct (String.eqb (String.concat "" fs) ""); reflexivity.
  - apply IH; auto. lia.
Qed.

Lemma send_all_out l : forall k out s rs, send_all l (mkTx (repeat "A" k) out) = (s, rs) -> Forall (fun p => snd p <> "") l ->
  exists new, tx_out s = out ++ new /\ Forall (fun fs => fs <> []) new /\
    filter (fun b => negb (String.eqb b "")) (map (fun fs => String.concat "" (tl fs)) (filter subscribed new)) = heard k l.
Proof.
  induction l as [|[[i t p] b] l IH]; intros k out s rs E N; cbn [send_all] in E.
  - injection E as <- <-. exists []. rewrite app_nil_r. auto.
  - inversion N as [|? ? Nb N']; subst. cbn [snd] in Nb. unfold send_zmq in E. cbn [o_init o_topic o_payload heard] in *. destruct i.
    + set (k1 := if t then S k else k). assert (zsend t true "A" (mkTx (repeat "A" k) out) = mkTx (repeat "A" k1) out) as E1.
      { unfold zsend, k1. destruct t; auto. cbn [tx_open tx_out]. f_equal. change ["A"] with (repeat "A" 1). rewrite <- repeat_app. f_equal. lia. }
      rewrite E1 in E. destruct p.
      * unfold zsend in E. cbn [tx_open tx_out] in E. destruct (send_all l (mkTx [] (out ++ [repeat "A" k1 ++ [b]]))) as [s2 rs2] eqn:E2. injection E as <- <-.
        destruct (IH 0 _ _ _ E2 N') as (new & A & B & C). exists ((repeat "A" k1 ++ [b]) :: new). rewrite A, <- app_assoc. split; auto.
        split; [constructor; auto; destruct k1; discriminate|]. cbn [filter map]. destruct k1 as [|j].
        -- cbn [repeat app subscribed]. destruct (String.prefix "A" b); auto.
        -- cbn [repeat app subscribed]. change (String.prefix "A" "A") with true. cbn iota. cbn [map tl filter]. rewrite concat_as, C.
           destruct (String.eqb_spec (As j ++ b) "") as [X|X]; auto. apply app_empty in X. congruence.
      * unfold zsend in E. cbn [tx_open tx_out] in E. destruct (send_all l (mkTx (repeat "A" k1) out)) as [s2 rs2] eqn:E2. injection E as <- <-. eapply IH; eauto.
    + destruct (send_all l (mkTx (repeat "A" k) out)) as [s2 rs2] eqn:E2. injection E as <- <-. eapply IH; eauto.
Qed.

(** ** C90 *)

(** What comes out at the other end, whichever calls fail. *)
Theorem C90_heard : forall l s rs, send_all l tx_init = (s, rs) -> Forall (fun p => snd p <> "") l ->
  exists n, forall m, n <= m -> reads m (arrivals (tx_out s)) = heard 0 l.
Proof.
  intros l s rs E N. destruct (send_all_out l 0 [] s rs E N) as (new & A & B & C). cbn [app] in A. exists (length new). intros m L.
  rewrite A, reads_arrivals by auto. exact C.
Qed.
Print Assumptions C90_heard.

(** What the sender is told: whether the payload was taken, except for payloads of more than INT_MAX bytes, which always count as failed. *)
Theorem C90_told : forall l s rs, send_all l tx_init = (s, rs) -> Forall (fun p => (Z.of_nat (String.length (snd p)) < 2 ^ 63)%Z) l ->
  rs = map (fun p => o_init (fst p) && o_payload (fst p) && Z.leb (Z.of_nat (String.length (snd p))) 2147483647) l.
Proof.
  intros l. generalize tx_init. induction l as [|[[i t p] b] l IH]; intros s0 s rs E N; cbn [send_all] in E; [now injection E as <- <-|].
  inversion N as [|? ? Nb N']; subst. cbn [snd] in Nb. destruct (send_zmq _ b s0) as [s1 r] eqn:E1. destruct (send_all l s1) as [s2 rs2] eqn:E2. injection E as <- <-.
  cbn [map fst snd o_init o_payload]. rewrite <- (IH _ _ _ E2 N'). f_equal. unfold send_zmq in E1. cbn [o_init o_topic o_payload] in E1.
  destruct i; [|now injection E1 as <- <-]. injection E1 as <- <-. unfold send_result. destruct p; cbn [andb].
  - rewrite Z.mod_small by lia. destruct (Z.leb_spec (Z.of_nat (String.length b)) 2147483647) as [L|L]; [apply Z.eqb_eq|apply Z.eqb_neq]; lia.
  - apply Z.eqb_neq. match goal with |- ?x <> _ => change x with 18446744073709551615%Z end. change (2 ^ 63)%Z with 9223372036854775808%Z in Nb. lia.
Qed.
Print Assumptions C90_told.

(** When nothing fails every payload is read once, in order. *)
Theorem C90_works : forall l, Forall (fun p => fst p = mkOutcome true true true) l -> heard 0 l = map snd l.
Proof. induction 1 as [|[o b] l E _ IH]; auto. cbn in E. subst o. cbn [heard map snd]. now rewrite IH. Qed.
Print Assumptions C90_works.

(** A send that completes leaves nothing behind: later ones are read as if they were the first. *)
Theorem C90_afterwards : forall k l1 t b l2, heard k (l1 ++ (mkOutcome true t true, b) :: l2) = heard k (l1 ++ [(mkOutcome true t true, b)]) ++ heard 0 l2.
Proof.
  intros k l1 t b l2. revert k. induction l1 as [|[[i t1 p1] b1] l1 IH]; intros k; cbn [app heard].
  - destruct (if t then S k else k) as [|j]; reflexivity.
  - destruct i; auto. destruct p1; auto. destruct (if t1 then S k else k) as [|j]; cbn [app]; now rewrite IH.
Qed.
Print Assumptions C90_afterwards.

(** A send whose payload failed spoils the next one, which its sender is told went well: a stray "A" comes before it. *)
Theorem C90_spoilt : forall b1 b2 s rs, send_all [(mkOutcome true true false, b1); (mkOutcome true true true, b2)] tx_init = (s, rs) ->
  arrivals (tx_out s) = multipart ["A"; "A"; b2] /\ heard 0 [(mkOutcome true true false, b1); (mkOutcome true true true, b2)] = [("A" ++ b2)%string].
Proof. intros b1 b2 s rs E. injection E as <- <-. split; reflexivity. Qed.
Print Assumptions C90_spoilt.

(** ** Spoilt messages *)

Lemma finish_size root s : (bu_size s + 4 <= size (finish root s))%Z.
Proof.
  unfold finish. set (s1 := pre_align 4 (bu_align s) s). destruct (ext_align 4 (bu_align s) s) as (x & X). fold s1 in X.
  unfold push_offset, push, put, pre_align, bu_size, size. cbn [bu_bytes]. rewrite X. rewrite !app_length. change (length (le_bytes 4 _)) with 4. lia.
Qed.

Lemma end_table_loc start p s loc : end_table start p = (s, loc) -> (0 < loc <= bu_size s)%Z.
Proof.
  unfold end_table. generalize (pre_align 0 4 (fst p)). intros b. pose proof (size_pos (bu_bytes b)). fold (bu_size b) in *.
  generalize (vtable start (bu_size b + 4) (snd p)). intros vt. pose proof (size_pos vt).
  destruct (find_vtable _ _ _) as [v|]; intros E; apply pair_equal_spec in E as [<- <-]; [rewrite size_put, le_size; lia|].
  unfold bu_size at 3. cbn [bu_bytes]. rewrite !size_app, le_size. fold (bu_size b). lia.
Qed.

Lemma root_position se tp d : (size (build_message (mkFbm (Some se) (Some tp) (Some d))) < 2 ^ 31)%Z ->
  exists r, num (build_message (mkFbm (Some se) (Some tp) (Some d))) 0 4 r /\ (4 <= r < size (build_message (mkFbm (Some se) (Some tp) (Some d))))%Z.
Proof.
  unfold build_message. cbn [fb_sender fb_topic fb_datagram]. destruct (create_string se bu_init) as [s1 so]. destruct (create_string tp s1) as [s2 to].
  destruct (build d s2) as [s3 o]. generalize (add_offset id_sender (Some so) (add_offset id_topic (Some to) (add_offset id_datagram (Some o) (s3, [])))).
  intros p. destruct (end_table (bu_size s3) p) as [s4 root] eqn:E. intros L. apply end_table_loc in E as R.
  destruct (finish_ok root s4 R L) as (y & _ & N). pose proof (finish_size root s4). exists (size (finish root s4) - root)%Z. split; auto. lia.
Qed.

Lemma msg_to_wire_built fuel h m b : msg_to_wire fuel h m = Ok b -> exists d, b = build_message (mkFbm (Some (m_sender m)) (Some (m_topic m)) (Some d)).
Proof.
  unfold msg_to_wire, msg_ser. destruct (raw_ser fuel h (m_dg m)) as [d| | |]; unfold res_map; try discriminate. intros H. exists d.
  remember (build_message _) as w eqn:Ew. now inversion H.
Qed.

Lemma spoilt_no_message k b : (exists r, num b 0 4 r /\ (4 <= r < size b)%Z) -> 1 <= k -> (Z.of_nat k + size b < 1093)%Z ->
  forall s tp d, ~ message (repeat "A"%char k ++ b) s tp d.
Proof.
  intros (r & (l & (x & y & Eb & Lx) & Ll & Er) & R) K Sz s tp d (t & ps & pt & pd & N & P & _).
  apply points_pos in P as (_ & _ & P). assert (size (repeat "A"%char k ++ b) = Z.of_nat k + size b)%Z as E by (unfold size; rewrite app_length, repeat_length; lia).
  rewrite E in P. destruct x; [|cbn in Lx; lia]. cbn [app] in Eb. destruct l as [|a0 [|a1 [|a2 [|a3 [|]]]]]; try discriminate Ll.
  destruct N as (l' & (x' & y' & E' & Lx') & Ll' & ->). destruct x'; [|cbn in Lx'; lia]. cbn [app] in E'.
  destruct l' as [|c0 [|c1 [|c2 [|c3 [|]]]]]; try discriminate Ll'.
  assert (forall a, (0 <= Z.of_N (N_of_ascii a) < 256)%Z) as B by (intros a; pose proof (N_ascii_bounded a); lia).
  unfold base256 in *. cbn [fold_right] in *.
  destruct k as [|[|k]]; [lia| |].
  - cbn [repeat app] in E'. rewrite Eb in E'. cbn [app] in E'. injection E' as <- <- <- <- _.
    pose proof (B a0). pose proof (B a1). pose proof (B a2). pose proof (B a3). change (Z.of_N (N_of_ascii "A")) with 65%Z in P. lia.
  - cbn [repeat app] in E'. injection E' as <- <- _. pose proof (B c2). pose proof (B c3). change (Z.of_N (N_of_ascii "A")) with 65%Z in P. lia.
Qed.

Lemma As_ascii k : list_ascii_of_string (As k) = repeat "A"%char k.
Proof. induction k as [|k IH]; auto. rewrite As_S. cbn. now rewrite IH. Qed.

(** Reading a spoilt message, if it is not a long one, is undefined behaviour in the receiving program. *)
Theorem C90_undefined : forall fuel h m b k, msg_to_wire fuel h m = Ok b -> 1 <= k -> (Z.of_nat k + size b < 1093)%Z ->
  forall fuel' h0 rest, k + length b < fuel' ->
  exists h', receive_message fuel' true (multipart ("A" :: repeat "A" k ++ [string_of_list_ascii b]) ++ rest) h0 = (rest, (h', UB)).
Proof.
  intros fuel h m b k W K Sz fuel' h0 rest Hf. destruct (msg_to_wire_built _ _ _ _ W) as (d & Eb).
  assert (list_ascii_of_string (String.concat "" (repeat "A" k ++ [string_of_list_ascii b])) = repeat "A"%char k ++ b) as E.
  { rewrite concat_as. assert (forall x y, list_ascii_of_string (x ++ y)%string = list_ascii_of_string x ++ list_ascii_of_string y) as Ap.
    { induction x as [|a x IH]; intros y; auto. cbn. now rewrite IH. }
    rewrite Ap, As_ascii, list_ascii_of_string_of_list_ascii. reflexivity. }
  apply C58_unchecked.
  - intros X. rewrite X in E. destruct k; [lia|]. discriminate E.
  - rewrite <- length_ascii, E, app_length, repeat_length. exact Hf.
  - rewrite E. apply spoilt_no_message; auto. rewrite Eb. apply root_position. rewrite <- Eb. lia.
Qed.
Print Assumptions C90_undefined.

(** ** Receiving *)

(** Without failures the loop is the one of C58. *)
Theorem C90_receive : forall q, exists n, forall m, n <= m -> receive_rounds (repeat Receives m) q false false "" = Some (receive_frames q false "").
Proof.
  assert (forall q more sk b m, length q < m -> receive_rounds (repeat Receives m) q more sk b = Some (receive_frames q sk b)) as G.
  { induction q as [|[f x] q IH]; intros more sk b [|m] L; cbn [length] in L; try lia; auto. cbn [repeat receive_rounds receive_frames]. destruct x; auto. apply IH. lia. }
  intros q. exists (S (length q)). intros m L. now apply G.
Qed.
Print Assumptions C90_receive.

(** A message of several frames of which [zmq_recvmsg] gives only the first [S j] before it fails: what came is taken for the whole
    message, and the next call takes the first of the others for the topic. *)
Theorem C90_torn : forall f fs g gs rest, let q := multipart (f :: fs ++ g :: gs) ++ rest in
  let rounds := repeat Receives (S (length fs)) ++ [RecvFails] in
  receive_rounds rounds q false false "" = Some (String.concat "" fs, multipart (g :: gs) ++ rest) /\
  receive_frames (multipart (g :: gs) ++ rest) false "" = (String.concat "" gs, rest).
Proof.
  intros f fs g gs rest. cbv zeta. split; [|apply receive_all].
  assert (forall fs b, receive_rounds (repeat Receives (length fs) ++ [RecvFails]) (multipart (fs ++ g :: gs) ++ rest) true true b = Some ((b ++ String.concat "" fs)%string, multipart (g :: gs) ++ rest)) as G.
  { clear fs. induction fs as [|f1 fs IH]; intros b; [cbn; now rewrite sapp_nil|]. cbn [length repeat app].
    destruct (fs ++ g :: gs) as [|x l] eqn:E; [destruct fs; discriminate|].
    change (multipart (f1 :: x :: l) ++ rest) with ((f1, true) :: (multipart (x :: l) ++ rest)). cbn [receive_rounds]. rewrite IH. rewrite (concat_cons f1). now rewrite sapp_assoc. }
  cbn [length repeat app]. destruct (fs ++ g :: gs) as [|x l] eqn:E; [destruct fs; discriminate|].
  change (multipart (f :: x :: l) ++ rest) with ((f, true) :: (multipart (x :: l) ++ rest)). cbn [receive_rounds]. rewrite <- E, G. reflexivity.
Qed.
Print Assumptions C90_torn.

(** Whatever fails, a call takes frames from the front of the queue, not past the end of a message, and hands over all of them but the first. *)
Theorem C90_taken : forall rs q bytes q', receive_rounds rs q false false "" = Some (bytes, q') ->
  exists taken, q = taken ++ q' /\ bytes = String.concat "" (map fst (tl taken)) /\ forall a f b, taken = a ++ (f, false) :: b -> b = [].
Proof.
  assert (forall rs q more b bytes q', receive_rounds rs q more true b = Some (bytes, q') ->
    exists taken, q = taken ++ q' /\ bytes = (b ++ String.concat "" (map fst taken))%string /\ forall x f y, taken = x ++ (f, false) :: y -> y = []) as G.
  { induction rs as [|[| |] rs IH]; intros q more b bytes q' E; cbn [receive_rounds] in E; try discriminate.
    - destruct more; [eapply IH; eauto|]. injection E as <- <-. exists []. cbn. rewrite sapp_nil. split; auto. split; auto. intros [|] ? ? X; discriminate X.
    - injection E as <- <-. exists []. cbn. rewrite sapp_nil. split; auto. split; auto. intros [|] ? ? X; discriminate X.
    - destruct q as [|[f m] q].
      + injection E as <- <-. exists []. cbn. rewrite sapp_nil. split; auto. split; auto. intros [|] ? ? X; discriminate X.
      + destruct m.
        * destruct (IH _ _ _ _ _ E) as (tk & -> & -> & C). exists ((f, true) :: tk). split; auto. cbn [map fst]. rewrite concat_cons, sapp_assoc. split; auto.
          intros [|x0 x] f0 y X; [discriminate X|]. injection X as <- ->. eapply C; eauto.
        * injection E as <- <-. exists [(f, false)]. cbn. split; auto. split; auto. intros [|x0 [|]] f0 y X; [now injection X|discriminate X..]. }
  intros [|[| |] rs] q bytes q' E; cbn [receive_rounds] in E; try discriminate.
  - injection E as <- <-. exists []. split; auto. split; auto. intros [|] ? ? X; discriminate X.
  - injection E as <- <-. exists []. split; auto. split; auto. intros [|] ? ? X; discriminate X.
  - destruct q as [|[f m] q].
    + injection E as <- <-. exists []. split; auto. split; auto. intros [|] ? ? X; discriminate X.
    + destruct m.
      * destruct (G _ _ _ _ _ _ E) as (tk & -> & -> & C). exists ((f, true) :: tk). split; auto. split; auto.
        intros [|x0 x] f0 y X; [discriminate X|]. injection X as <- ->. eapply C; eauto.
      * injection E as <- <-. exists [(f, false)]. split; auto. split; auto. intros [|x0 [|]] f0 y X; [now injection X|discriminate X..].
Qed.
Print Assumptions C90_taken.

(** In the middle of a message the loop goes on as long as zmq_msg_init fails, with the lock of the socket held; before the first frame
    it ends. *)
Theorem C90_spins : forall f q n rs,
  receive_rounds (Receives :: repeat InitFails n) ((f, true) :: q) false false "" = None /\
  receive_rounds (Receives :: repeat InitFails n ++ rs) ((f, true) :: q) false false "" = receive_rounds (Receives :: rs) ((f, true) :: q) false false "" /\
  receive_rounds (InitFails :: rs) q false false "" = Some ("", q).
Proof.
  intros f q n rs. cbn [receive_rounds]. split; [|split; auto]; (induction n as [|n IH]; [reflexivity|exact IH]).
Qed.
Print Assumptions C90_spins.

(** It is not so that what the sender is told was sent is heard: if the topic frame fails nobody hears the message. *)
Theorem C90_told_refuted : exists l s, send_all l tx_init = (s, [true]) /\ heard 0 l = [] /\ arrivals (tx_out s) = [].
Proof.
  exists [(mkOutcome true false true, "message")], (mkTx [] [["message"]]). split; [reflexivity|]. split; reflexivity.
Qed.
Print Assumptions C90_told_refuted.

(** Failures of each kind, and one after the other. *)
Example C90_case :
  let good := mkOutcome true true true in let half := mkOutcome true true false in
  let l := [(good, "1"); (half, "2"); (mkOutcome false true true, "3"); (half, "4"); (good, "5"); (good, "6"); (mkOutcome true false true, "7");
            (mkOutcome true false false, "8"); (half, "9"); (mkOutcome true false true, "X")] in
  Forall (fun p => snd p <> "") l /\ heard 0 l = ["1"; "AA5"; "6"; "X"] /\ snd (send_all l tx_init) = [true; false; false; false; true; true; true; false; false; true].
Proof. cbv zeta. split; [repeat constructor; discriminate|]. split; reflexivity. Qed.
(** The message of [C83_case] is short enough. *)
Example C90_short : exists b, msg_to_wire 9 ex_heap (mkMsg "a/b" "t" 0) = Ok b /\ (Z.of_nat 700 + size b < 1093)%Z.
Proof. eexists. split; [vm_compute; reflexivity|]. vm_compute. reflexivity. Qed.
(** Two frames of four. *)
Example C90_torn_case : receive_rounds [Receives; Receives; RecvFails] (multipart ["A"; "1"; "2"; "3"]) false false "" = Some ("1", multipart ["2"; "3"]).
Proof. reflexivity. Qed.

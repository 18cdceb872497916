(** C14, C81-C83: the bytes of a message. *)
From Coq Require Import String Ascii List Arith ZArith NArith Bool Lia.
From Verif Require Import Prelude OMap DatagramModel DatagramSpec DatagramHeap DatagramProofs DatagramEq DatagramStmt DatagramRefine DatagramRefine2 SerialModel SerialSpec SerialProofs SerialProofs2 SerialProps DatagramProps WireModel WireSpec WireProofs WireBuild.
Import ListNotations.
Open Scope list_scope.
Open Scope Z_scope.

(** * C81 *)

Lemma last_entry_in {A} k (l : list (string * A)) a : last_entry k l = Some a -> In (k, a) l.
Proof.
  induction l as [|[k' x] l IH]; [discriminate|]. cbn [last_entry]. destruct (last_entry k l) as [y|].
  - intros [= ->]. right. auto.
  - destruct (String.eqb_spec k k') as [->|]; [|discriminate]. intros [= ->]. now left.
Qed.
Lemma dict_values {A} ks (ds : list A) m p : dict_of (combine ks ds) m -> In p m -> In (snd p) ds.
Proof.
  intros (S & L) H. destruct p as [k x]. assert (E : olookup k m = Some x) by (apply in_olookup; auto).
  rewrite L in E. apply last_entry_in in E. eapply in_combine_r; eauto.
Qed.

Lemma Forall2_in_r {A B} (R : A -> B -> Prop) l us : Forall2 R l us -> forall y, In y us -> exists x, In x l /\ R x y.
Proof. induction 1 as [|a c l us H _ IH]; intros y Hy; [destruct Hy|]. destruct Hy as [<-|Hy]; [exists a; simpl; auto|]. destruct (IH y Hy) as (x & Hx & Hr). exists x. simpl. auto. Qed.

Lemma lst_depth ds n : (forall d, In d ds -> (dg_depth d <= n)%nat) -> (dg_depth (match ds with [] => Emp | _ => Lst ds end) <= S n)%nat.
Proof.
  intros H. destruct ds as [|d ds]; [simpl; lia|]. cbn [dg_depth]. apply le_n_S. revert H. generalize (d :: ds). clear. intros l.
  induction l as [|x l IH]; intros H; simpl; [lia|]. pose proof (H x (or_introl eq_refl)). specialize (IH (fun d Hd => H d (or_intror Hd))). lia.
Qed.
Lemma dct_depth (m : list (string * dg)) n : (forall p, In p m -> (dg_depth (snd p) <= n)%nat) -> (dg_depth (match m with [] => Emp | _ => Dct m end) <= S n)%nat.
Proof.
  intros H. destruct m as [|d ds]; [simpl; lia|]. cbn [dg_depth]. apply le_n_S. revert H. generalize (d :: ds). clear. intros l.
  induction l as [|x l IH]; intros H; simpl; [lia|]. pose proof (H x (or_introl eq_refl)). specialize (IH (fun d Hd => H d (or_intror Hd))). lia.
Qed.

Lemma holds_facts b n : forall t d, holds b t d -> size b - t < Z.of_nat n ->
  t + 4 + 5 * Z.of_nat (dg_depth d) <= size b /\ fits d /\ dg_wf d.
Proof.
  induction n as [|n IH]; intros t d H Hn.
  { exfalso. assert (0 <= t /\ t + 4 <= size b) by (inversion H; eauto using value_in). lia. }
  assert (T : 0 <= t /\ t + 4 <= size b) by (inversion H; eauto using value_in).
  inversion H as [t0 p s A B P X|t0 v A B V|t0 v A B V|t0 v A B V|t0 c A B C|t0 v k qs ds A P N E F|t0 kv vv nk nv kqs vqs ks ds m A P P' N N' E F E' F' D|t0 c A C]; subst; cbn [dg_depth].
  - split; [lia|]. split; constructor.
  - split; [lia|]. split; constructor. apply value_range in V. change (256 ^ Z.of_nat 4) with (2 ^ 32) in V. unfold twos. change (32 - 1) with 31.
    destruct (Z.ltb_spec v (2 ^ 31)); lia.
  - split; [lia|]. split; constructor. apply value_range in V. change (256 ^ Z.of_nat 8) with (2 ^ 64) in V. lia.
  - split; [lia|]. split; constructor.
  - split; [lia|]. split; constructor.
  - apply points_pos in P.
    assert (G : forall d, In d ds -> t + 9 + 5 * Z.of_nat (dg_depth d) <= size b /\ fits d /\ dg_wf d).
    { intros d Hd. destruct (Forall2_in_r _ _ _ F d Hd) as (q & Hq & Hh). pose proof (entries_pos _ _ _ _ _ E Hq).
      destruct (IH q d Hh ltac:(lia)) as (L & K). split; [lia|auto]. }
    split; [|destruct ds as [|d ds]; [split; constructor|split; constructor; rewrite Forall_forall; intros x Hx; apply (G x Hx)]].
    destruct ds as [|d0 ds0]; [simpl; lia|].
    assert (Bd : (dg_depth (Lst (d0 :: ds0)) <= S (Z.to_nat ((size b - t - 9) / 5)))%nat).
    { apply (lst_depth (d0 :: ds0)). intros d Hd. destruct (G d Hd) as (L & _). apply Nat2Z.inj_le. rewrite Z2Nat.id by (apply Z.div_pos; lia).
      apply Z.div_le_lower_bound; lia. }
    destruct (G d0 (or_introl eq_refl)) as (L0 & _).
    apply Nat2Z.inj_le in Bd. rewrite Nat2Z.inj_succ, Z2Nat.id in Bd by (apply Z.div_pos; lia).
    pose proof (Z.mul_div_le (size b - t - 9) 5 ltac:(lia)). lia.
  - apply points_pos in P'.
    assert (G : forall p, In p m -> t + 9 + 5 * Z.of_nat (dg_depth (snd p)) <= size b /\ fits (snd p) /\ dg_wf (snd p)).
    { intros p Hp. pose proof (dict_values _ _ _ _ D Hp) as Hd. destruct (Forall2_in_r _ _ _ F' _ Hd) as (q & Hq & Hh). pose proof (entries_pos _ _ _ _ _ E' Hq).
      destruct (IH q _ Hh ltac:(lia)) as (L & K). split; [lia|auto]. }
    split; [|destruct m as [|p m]; [split; constructor|split; constructor; [..|apply D|]; rewrite Forall_forall; intros x Hx; apply (G x Hx)]].
    destruct m as [|d0 ds0]; [simpl; lia|].
    assert (Bd : (dg_depth (Dct (d0 :: ds0)) <= S (Z.to_nat ((size b - t - 9) / 5)))%nat).
    { apply (dct_depth (d0 :: ds0)). intros d Hd. destruct (G d Hd) as (L & _). apply Nat2Z.inj_le. rewrite Z2Nat.id by (apply Z.div_pos; lia).
      apply Z.div_le_lower_bound; lia. }
    destruct (G d0 (or_introl eq_refl)) as (L0 & _).
    apply Nat2Z.inj_le in Bd. rewrite Nat2Z.inj_succ, Z2Nat.id in Bd by (apply Z.div_pos; lia).
    pose proof (Z.mul_div_le (size b - t - 9) 5 ltac:(lia)). lia.
  - split; [lia|]. split; constructor.
Qed.

Lemma nodes_own h : (forall l t F, own h l t F -> Z.of_nat (length F) = nodes t) /\
  (forall ps ts F, owns h ps ts F -> Z.of_nat (length F) = fold_right Z.add 0 (map nodes ts)).
Proof.
  apply own_owns_ind; cbn [nodes length map fold_right]; intros; auto.
  - lia.
  - rewrite map_map in *. lia.
  - rewrite app_length. lia.
Qed.

(** The table of a message. *)
Lemma str_field_some b t id x : str_field b t id = Ok (Some x) <-> exists p, points b t id (Some p) /\ text b p x.
Proof.
  unfold str_field. split.
  - destruct (pointer b t id) as [[p|]| | |] eqn:P; try discriminate; cbn [res_bind]. destruct (str_at b p) as [y| | |] eqn:E; try discriminate.
    intros [= <-]. exists p. split; [now apply pointer_iff|now apply str_at_iff].
  - intros (p & P & T). apply pointer_iff in P. apply str_at_iff in T. rewrite P. cbn [res_bind]. now rewrite T.
Qed.

Lemma message_table b s tp d fuel : message b s tp d -> size b < Z.of_nat fuel ->
  exists u, wire_message fuel b = Ok (mkFbm (Some s) (Some tp) (Some u)) /\ reads u d.
Proof.
  intros (t & ps & pt & pd & N & P1 & T1 & P2 & T2 & P3 & H) Hf. unfold wire_message.
  rewrite (proj2 (rd4 b 0 t) N). cbn [res_bind].
  rewrite (proj2 (str_field_some b t id_sender s)) by (exists ps; auto). cbn [res_bind].
  rewrite (proj2 (str_field_some b t id_topic tp)) by (exists pt; auto). cbn [res_bind].
  rewrite (proj2 (pointer_iff b t id_datagram (Some pd))) by auto. cbn [res_bind].
  apply points_pos in P3. destruct (holds_table b fuel pd d H ltac:(lia)) as (u & E & R). rewrite E. exists u. auto.
Qed.

Lemma table_message b fuel s tp u d : wire_message fuel b = Ok (mkFbm (Some s) (Some tp) (Some u)) -> reads u d -> message b s tp d.
Proof.
  unfold wire_message. intros E R. destruct (rd 4 b 0) as [t| | |] eqn:N; try discriminate. cbn [res_bind] in E.
  destruct (str_field b t id_sender) as [so| | |] eqn:S1; try discriminate. cbn [res_bind] in E.
  destruct (str_field b t id_topic) as [to| | |] eqn:S2; try discriminate. cbn [res_bind] in E.
  destruct (pointer b t id_datagram) as [[q|]| | |] eqn:P; try discriminate. cbn [res_bind] in E.
  destruct (table fuel b q) as [x| | |] eqn:T; try discriminate. injection E as -> -> ->.
  apply str_field_some in S1 as (p1 & P1 & T1). apply str_field_some in S2 as (p2 & P2 & T2). apply pointer_iff in P. apply rd4 in N.
  exists t, p1, p2, q. repeat (split; auto). eapply table_holds; eauto.
Qed.

Lemma wire_message_done b fuel : size b < Z.of_nat fuel -> (exists x, wire_message fuel b = Ok x) \/ wire_message fuel b = UB.
Proof.
  intros Hf. unfold wire_message. destruct (rd_bad 4 b 0) as [(t & E)|E]; rewrite E; cbn [res_bind]; auto.
  destruct (str_field_bad b t id_sender) as [(s1 & ->)| ->]; cbn [res_bind]; auto.
  destruct (str_field_bad b t id_topic) as [(s2 & ->)| ->]; cbn [res_bind]; auto.
  destruct (pointer_bad b t id_datagram) as [([q|] & P)|P]; rewrite P; cbn [res_bind]; eauto.
  apply pointer_iff in P. apply points_pos in P. destruct (table_done b fuel q) as [(u & ->)| ->]; [unfold size in Hf; lia|lia|..]; cbn [res_map]; eauto.
Qed.

(** Receiving bytes that are a message, in any heap: a new message with that sender, topic and datagram, which shares
    nothing with what was there. *)
Theorem C81_message : forall b s tp d, message b s tp d ->
  forall fuel h, size b < Z.of_nat fuel ->
  exists h' m F, msg_from_wire fuel b h = (h', Ok m) /\ m_sender m = s /\ m_topic m = tp /\
    own h' (m_dg m) d F /\ NoDup F /\ Forall (fun x => (length h <= x)%nat) F /\
    forall x u, denotes h x u -> denotes h' x u.
Proof.
  intros b s tp d H fuel h Hf. destruct (message_table _ _ _ _ _ H Hf) as (u & E & R). unfold msg_from_wire. rewrite E.
  unfold msg_deser. cbn [fb_sender fb_topic fb_datagram].
  destruct (raw_deser_ok u) as [(v & R' & Mk)|(B & _)]; [|exfalso; eapply reads_broken; eauto].
  rewrite (reads_fun _ _ _ R' R) in Mk. destruct (Mk h) as (h1 & a & F1 & E1 & X1 & O1 & _). rewrite (bind_ok _ _ _ _ _ E1).
  destruct H as (t & ps & pt & pd & _ & _ & _ & _ & _ & P3 & H). apply points_pos in P3.
  destruct (holds_facts b (S (Z.to_nat (size b - pd))) pd d H ltac:(lia)) as (L & _).
  destruct (dg_copy_ctor_own fuel h1 a _ _ O1) as (h2 & F2 & E2 & O2 & N2 & X2 & B2); [lia|].
  rewrite (bind_ok _ _ _ _ _ E2). exists h2, (mkMsg s tp (length h1)), F2. split; [reflexivity|]. split; auto. split; auto. split; auto. split; auto.
  split.
  - destruct X1 as (X1 & _). eapply Forall_impl; [|exact B2]. simpl. intros; lia.
  - intros x w (Fx & Hx). exists Fx. eapply own_extends; [|exact X2]. eapply own_extends; eauto.
Qed.
Print Assumptions C81_message.

(** All other bytes are undefined behaviour: nothing is checked before they are followed. *)
Theorem C81_otherwise : forall b, (forall s tp d, ~ message b s tp d) ->
  forall fuel h, size b < Z.of_nat fuel -> snd (msg_from_wire fuel b h) = UB.
Proof.
  intros b H fuel h Hf. unfold msg_from_wire. destruct (wire_message_done b fuel Hf) as [([[s|] [tp|] [u|]] & E)|E]; rewrite E; try reflexivity.
  unfold msg_deser. cbn [fb_sender fb_topic fb_datagram].
  destruct (raw_deser_ok u) as [(v & R' & _)|(_ & B)].
  - exfalso. eapply H. eapply table_message; eauto.
  - unfold bind. specialize (B h). destruct (raw_deser u h) as [h' r]. simpl in B. subst r. reflexivity.
Qed.
Print Assumptions C81_otherwise.

(** Bytes are one message at most. *)
Theorem C81_unique : forall b s tp d s' tp' d', message b s tp d -> message b s' tp' d' -> s = s' /\ tp = tp' /\ d = d'.
Proof.
  intros b s tp d s' tp' d' (t & ps & pt & pd & N & P1 & T1 & P2 & T2 & P3 & H) (t' & ps' & pt' & pd' & N' & P1' & T1' & P2' & T2' & P3' & H').
  rewrite (num_fun _ _ _ _ _ N N') in *.
  pose proof (points_fun _ _ _ _ _ P1 P1') as E1. pose proof (points_fun _ _ _ _ _ P2 P2') as E2. pose proof (points_fun _ _ _ _ _ P3 P3') as E3.
  injection E1 as ->. injection E2 as ->. injection E3 as ->.
  split; [eapply text_fun; eauto|]. split; [eapply text_fun; eauto|eapply holds_fun; eauto].
Qed.
Print Assumptions C81_unique.

(** What a message can contain: values of the C++ types, sorted dictionaries, strings no longer than the bytes, and
    nesting of a fifth of the bytes at most. *)
Theorem C81_bounds : forall b s tp d, message b s tp d ->
  fits d /\ dg_wf d /\ Z.of_nat (String.length s) + 4 <= size b /\ Z.of_nat (String.length tp) + 4 <= size b /\
  5 + 5 * Z.of_nat (dg_depth d) <= size b.
Proof.
  intros b s tp d (t & ps & pt & pd & N & P1 & T1 & P2 & T2 & P3 & H).
  assert (L : forall p x, text b p x -> Z.of_nat (String.length x) + 4 <= size b).
  { intros p x (A & B). apply num_in in A. apply piece_range in B. rewrite length_ascii in B. lia. }
  apply points_pos in P1. apply points_pos in P3. destruct (holds_facts b (S (Z.to_nat (size b - pd))) pd d H ltac:(lia)) as (D & Ft & W).
  split; auto. split; auto. split; [eauto|]. split; [eauto|]. lia.
Qed.
Print Assumptions C81_bounds.

(** Bytes that nobody writes: a message of 64 bytes. Its table is at 36, its sender and topic are the same empty string,
    its datagram is an integer. *)
Definition small_bytes : list ascii :=
  le_bytes 4 36 ++ le_bytes 2 10 ++ le_bytes 2 16 ++ le_bytes 2 4 ++ le_bytes 2 8 ++ le_bytes 2 12 ++ le_bytes 2 0 ++
  le_bytes 2 12 ++ le_bytes 2 12 ++ le_bytes 2 4 ++ le_bytes 2 5 ++ le_bytes 2 0 ++ le_bytes 2 8 ++ le_bytes 8 0 ++
  le_bytes 4 32 ++ le_bytes 4 12 ++ le_bytes 4 8 ++ le_bytes 4 8 ++ le_bytes 4 0 ++
  le_bytes 4 40 ++ le_bytes 1 1 ++ le_bytes 1 1 ++ le_bytes 2 0 ++ le_bytes 4 (-7).
Example C81_case : message small_bytes "" "" (Val (DInt (-7))) /\ size small_bytes = 68 /\
  ~ (exists s tp d, message (firstn 67 small_bytes) s tp d) /\
  snd (msg_from_wire 70 small_bytes []) = Ok (mkMsg "" "" 1%nat).
Proof.
  split.
  - eapply (table_message _ 100); [vm_compute; reflexivity|]. apply reads_integer.
  - split; [reflexivity|]. split; [|vm_compute; reflexivity]. intros (s & tp & d & H). eapply message_table with (fuel := 70%nat) in H as (u & E & _); [|reflexivity].
    vm_compute in E. discriminate E.
Qed.

(** * C82 *)

Fixpoint full (n : nat) : dg := match n with O => Emp | S n => Lst [full n; full n] end.

Lemma nodes_full n : nodes (full n) = 2 ^ (Z.of_nat n + 1) - 1.
Proof.
  induction n as [|n IH]; [reflexivity|]. cbn [full nodes map fold_right]. rewrite IH, Nat2Z.inj_succ.
  replace (Z.succ (Z.of_nat n) + 1) with (Z.succ (Z.of_nat n + 1)) by lia. rewrite (Z.pow_succ_r 2 (Z.of_nat n + 1)) by lia. lia.
Qed.

(** A message table and two vtables, then one list per level, both of whose elements are the next level. *)
Definition bomb_head : list ascii :=
  le_bytes 4 36 ++ le_bytes 2 10 ++ le_bytes 2 16 ++ le_bytes 2 4 ++ le_bytes 2 8 ++ le_bytes 2 12 ++ le_bytes 2 0 ++
  le_bytes 2 18 ++ le_bytes 2 12 ++ le_bytes 2 4 ++ le_bytes 2 0 ++ le_bytes 2 0 ++ le_bytes 2 0 ++ le_bytes 2 0 ++ le_bytes 2 0 ++
  le_bytes 2 8 ++ le_bytes 2 0 ++
  le_bytes 4 32 ++ le_bytes 4 12 ++ le_bytes 4 8 ++ le_bytes 4 8 ++ le_bytes 4 0.
Definition bomb_level (k : nat) : list ascii :=
  le_bytes 4 (40 + 24 * Z.of_nat k) ++ le_bytes 4 2 ++ le_bytes 4 4 ++ le_bytes 4 2 ++ le_bytes 4 8 ++ le_bytes 4 4.
Definition bomb_leaf (n : nat) : list ascii := le_bytes 4 (40 + 24 * Z.of_nat n) ++ le_bytes 4 0.
Definition bomb (n : nat) : list ascii := bomb_head ++ flat_map bomb_level (seq 0 n) ++ bomb_leaf n.

Lemma num_app a r p n v : num a p n v -> num (a ++ r) p n v.
Proof. intros (l & (x & y & -> & <-) & L & V). exists l. split; auto. exists x, (y ++ r). rewrite <- !app_assoc. auto. Qed.
Lemma num_shift x a p n v : num a p n v -> num (x ++ a) (size x + p) n v.
Proof. intros (l & P & L & V). exists l. split; auto. now apply piece_ext. Qed.
Lemma num_le n v a : 0 <= v < 256 ^ Z.of_nat n -> num (le_bytes n v ++ a) 0 n v.
Proof. intros H. exists (le_bytes n v). rewrite le_length, base_small by auto. split; [apply piece_head|auto]. Qed.

Lemma levels_size ks : size (flat_map bomb_level ks) = 24 * Z.of_nat (length ks).
Proof. induction ks as [|k ks IH]; [reflexivity|]. cbn [flat_map length]. rewrite size_app, IH. unfold bomb_level. rewrite !size_app, !le_size. lia. Qed.
Lemma bomb_size n : size (bomb n) = 64 + 24 * Z.of_nat n.
Proof. unfold bomb. rewrite !size_app, levels_size, seq_length. unfold bomb_leaf. rewrite size_app, !le_size. change (size bomb_head) with 56. lia. Qed.

Lemma bomb_head_num n p k v : num bomb_head p k v -> num (bomb n) p k v.
Proof. apply num_app. Qed.

Lemma bomb_at n k p w v : (k < n)%nat -> num (bomb_level k) p w v -> num (bomb n) (56 + 24 * Z.of_nat k + p) w v.
Proof.
  intros H N. unfold bomb. replace (seq 0 n) with (seq 0 k ++ k :: seq (S k) (n - k - 1)).
  - rewrite flat_map_app. cbn [flat_map]. rewrite !app_assoc. apply num_app. rewrite <- app_assoc.
    apply num_app with (r := flat_map bomb_level (seq (S k) (n - k - 1))) in N.
    rewrite <- app_assoc. rewrite (app_assoc bomb_head).
    apply (num_shift (bomb_head ++ flat_map bomb_level (seq 0 k))) in N. rewrite size_app, levels_size, seq_length in N.
    change (size bomb_head) with 56 in N. exact N.
  - replace n with (k + S (n - k - 1))%nat at 2 by lia. rewrite seq_app. reflexivity.
Qed.
Lemma bomb_end n p w v : num (bomb_leaf n) p w v -> num (bomb n) (56 + 24 * Z.of_nat n + p) w v.
Proof.
  intros N. unfold bomb. rewrite app_assoc. apply (num_shift (bomb_head ++ flat_map bomb_level (seq 0 n))) in N.
  rewrite size_app, levels_size, seq_length in N. change (size bomb_head) with 56 in N. exact N.
Qed.

Definition level_rest : list ascii := le_bytes 4 2 ++ le_bytes 4 4 ++ le_bytes 4 2 ++ le_bytes 4 8 ++ le_bytes 4 4.
Lemma level_num n k p w v : (k < n)%nat -> rd (Z.of_nat w) level_rest p = Ok v -> num (bomb n) (56 + 24 * Z.of_nat k + (4 + p)) w v.
Proof.
  intros H E. apply bomb_at; auto. apply rd_iff in E. apply (num_shift (le_bytes 4 (40 + 24 * Z.of_nat k))) in E. rewrite le_size in E. exact E.
Qed.
Lemma leaf_num n p w v : rd (Z.of_nat w) (le_bytes 4 0) p = Ok v -> num (bomb n) (56 + 24 * Z.of_nat n + (4 + p)) w v.
Proof.
  intros E. apply bomb_end; auto. apply rd_iff in E. apply (num_shift (le_bytes 4 (40 + 24 * Z.of_nat n))) in E. rewrite le_size in E. exact E.
Qed.
Lemma head_num n p w v : rd (Z.of_nat w) bomb_head p = Ok v -> num (bomb n) p w v.
Proof. intros E. apply bomb_head_num. now apply rd_iff. Qed.

Lemma bomb_vtable n k : Z.of_nat n < 2 ^ 26 -> (k <= n)%nat -> vtable_of (bomb n) (56 + 24 * Z.of_nat k) 16.
Proof.
  intros Hn Hk. exists (40 + 24 * Z.of_nat k). split.
  - rewrite <- (Z.add_0_r (56 + _)). destruct (Nat.eq_dec k n) as [->|].
    + apply bomb_end, num_le. change (256 ^ Z.of_nat 4) with (2 ^ 32). lia.
    + apply bomb_at; [lia|]. apply num_le. change (256 ^ Z.of_nat 4) with (2 ^ 32). lia.
  - unfold twos. change (32 - 1) with 31. destruct (Z.ltb_spec (40 + 24 * Z.of_nat k) (2 ^ 31)); lia.
Qed.

Lemma bomb_holds n : Z.of_nat n < 2 ^ 26 -> forall j k, (j + k = n)%nat -> holds (bomb n) (56 + 24 * Z.of_nat k) (full j).
Proof.
  intros Hn. induction j as [|j IH]; intros k Hk.
  - simpl in Hk. subst k. pose proof (bomb_vtable n n Hn ltac:(lia)) as V.
    apply holds_other with (c := 0); [|lia]. eapply value_some.
    + eapply slot_at; [exact V|apply (head_num n 16 2 18); reflexivity|lia|apply (head_num n (16 + 4) 2 4); reflexivity|lia].
    + apply (leaf_num n 0 1 0). reflexivity.
  - pose proof (bomb_vtable n k Hn ltac:(lia)) as V. cbn [full].
    apply (holds_list (bomb n) (56 + 24 * Z.of_nat k) (56 + 24 * Z.of_nat k + 12) 2
      [56 + 24 * Z.of_nat (S k); 56 + 24 * Z.of_nat (S k)] [full j; full j]).
    + eapply value_some.
      * eapply slot_at; [exact V|apply (head_num n 16 2 18); reflexivity|lia|apply (head_num n (16 + 4) 2 4); reflexivity|lia].
      * apply (level_num n k 0 1 2); [lia|reflexivity].
    + replace (56 + 24 * Z.of_nat k + 12) with (56 + 24 * Z.of_nat k + 8 + 4) by lia. apply points_to.
      * eapply slot_at; [exact V|apply (head_num n 16 2 18); reflexivity|lia|apply (head_num n (16 + 16) 2 8); reflexivity|lia].
      * apply (level_num n k 4 4 4); [lia|reflexivity].
    + apply (level_num n k 8 4 2); [lia|reflexivity].
    + split; [reflexivity|]. intros [|[|i]] q; cbn [nth_error]; intros E; [..|destruct i; discriminate E];
        assert (q = 56 + 24 * Z.of_nat (S k)) as -> by congruence.
      * exists 8. split; [|lia]. replace (56 + 24 * Z.of_nat k + 12 + 4 + 4 * Z.of_nat 0) with (56 + 24 * Z.of_nat k + (4 + 12)) by lia.
        apply level_num; [lia|reflexivity].
      * exists 4. split; [|lia]. replace (56 + 24 * Z.of_nat k + 12 + 4 + 4 * Z.of_nat 1) with (56 + 24 * Z.of_nat k + (4 + 16)) by lia.
        apply level_num; [lia|reflexivity].
    + constructor; [apply IH; lia|]. constructor; [apply IH; lia|constructor].
Qed.

Lemma bomb_message n : Z.of_nat n < 2 ^ 26 -> message (bomb n) "" "" (full n).
Proof.
  intros Hn. assert (V : vtable_of (bomb n) 36 4) by (exists 32; split; [apply head_num; reflexivity|reflexivity]).
  assert (T : text (bomb n) 52 "").
  { split; [apply head_num; reflexivity|]. exists (firstn 56 (bomb n)), (skipn 56 (bomb n)). split; [symmetry; apply firstn_skipn|reflexivity]. }
  exists 36, (40 + 12), (44 + 8), (48 + 8). split; [apply head_num; reflexivity|].
  split. { apply points_to; [|apply head_num; reflexivity]. apply (slot_at _ 36 4 4 10 4); [exact V|apply head_num; reflexivity|lia|apply head_num; reflexivity|lia]. }
  split; [exact T|].
  split. { apply points_to; [|apply head_num; reflexivity]. apply (slot_at _ 36 6 4 10 8); [exact V|apply head_num; reflexivity|lia|apply head_num; reflexivity|lia]. }
  split; [exact T|].
  split. { apply points_to; [|apply head_num; reflexivity]. apply (slot_at _ 36 8 4 10 12); [exact V|apply head_num; reflexivity|lia|apply head_num; reflexivity|lia]. }
  apply (bomb_holds n Hn n 0). lia.
Qed.

(** There are [64 + 24 n] bytes from which receiving a message creates [2^(n+1) - 1] datagrams (and runs through all of them). *)
Theorem C82_small_bytes_large_message : forall n, Z.of_nat n < 2 ^ 26 ->
  exists b, size b = 64 + 24 * Z.of_nat n /\
  forall fuel h, size b < Z.of_nat fuel ->
  exists h' m F, msg_from_wire fuel b h = (h', Ok m) /\ own h' (m_dg m) (full n) F /\ NoDup F /\
    Z.of_nat (length F) = 2 ^ (Z.of_nat n + 1) - 1 /\ Z.of_nat (length h') >= Z.of_nat (length h) + 2 ^ (Z.of_nat n + 1) - 1.
Proof.
  intros n Hn. exists (bomb n). split; [apply bomb_size|]. intros fuel h Hf.
  destruct (C81_message _ _ _ _ (bomb_message n Hn) fuel h Hf) as (h' & m & F & E & _ & _ & O & N & B & _).
  pose proof (proj1 (nodes_own h') _ _ _ O) as L. rewrite nodes_full in L.
  exists h', m, F. do 3 (split; auto). split; auto.
  pose proof (own_valid _ _ _ _ O) as V.
  assert (I : incl F (seq (length h) (length h' - length h))).
  { intros x Hx. rewrite Forall_forall in V, B. specialize (V x Hx). specialize (B x Hx). apply in_seq. lia. }
  apply NoDup_incl_length in I; auto. rewrite seq_length in I.
  pose proof (Z.pow_pos_nonneg 2 (Z.of_nat n) ltac:(lia) ltac:(lia)) as P. rewrite Z.pow_add_r in * by lia. lia.
Qed.
Print Assumptions C82_small_bytes_large_message.

(** Three levels: 136 bytes, 15 datagrams. *)
Example C82_case : size (bomb 3) = 136 /\ message (bomb 3) "" "" (full 3) /\
  match msg_from_wire 200 (bomb 3) [] with (h, Ok m) => length h = 31%nat | _ => False end.
Proof. split; [reflexivity|]. split; [apply bomb_message; reflexivity|vm_compute; reflexivity]. Qed.

(** * C83 *)

Lemma msg_to_wire_ok h m t : denotes h (m_dg m) t -> forall fuel, (dg_depth t < fuel)%nat ->
  msg_to_wire fuel h m = Ok (build_message (mkFbm (Some (m_sender m)) (Some (m_topic m)) (Some (ser t)))).
Proof.
  intros (F & HO) fuel Hf. unfold msg_to_wire, msg_ser. rewrite (raw_ser_ok t fuel h _ F) by (auto; lia). reflexivity.
Qed.

(** Every message that can be in memory has bytes. If they are fewer than 2 GiB, which FlatBuffers requires, they are
    that message, with the normalised datagram, and there are at least 28 of them for each datagram in it. *)
Theorem C83_written : forall h m t, denotes h (m_dg m) t ->
  exists b, (forall fuel, (dg_depth t < fuel)%nat -> msg_to_wire fuel h m = Ok b) /\
  (fits t -> size b < 2 ^ 31 -> message b (m_sender m) (m_topic m) (wire t) /\ 28 * nodes t < size b).
Proof.
  intros h m t D. eexists. split; [apply msg_to_wire_ok; exact D|]. intros Hf Hs. destruct D as (F & HO).
  destruct (build_message_ok _ _ _ _ eq_refl Hf (own_wf _ _ _ _ HO) Hs) as (M & L). split; [exact M|lia].
Qed.
Print Assumptions C83_written.

(** Messages with the same bytes have the same sender, the same topic and the same normalised datagram. *)
Theorem C83_injective : forall h m t h' m' t' b fuel fuel', denotes h (m_dg m) t -> denotes h' (m_dg m') t' -> fits t -> fits t' ->
  (dg_depth t < fuel)%nat -> (dg_depth t' < fuel')%nat ->
  msg_to_wire fuel h m = Ok b -> msg_to_wire fuel' h' m' = Ok b -> size b < 2 ^ 31 ->
  m_sender m = m_sender m' /\ m_topic m = m_topic m' /\ wire t = wire t'.
Proof.
  intros h m t h' m' t' b fuel fuel' D D' F F' L L' E E' S.
  destruct (C83_written _ _ _ D) as (x & W & G). rewrite (W _ L) in E. injection E as ->.
  destruct (C83_written _ _ _ D') as (x' & W' & G'). rewrite (W' _ L') in E'. injection E' as ->.
  eapply C81_unique; [apply G; auto|apply G'; auto].
Qed.
Print Assumptions C83_injective.

(** A dictionary with a list and a string in it: 360 bytes. *)
Definition ex_heap : heap := [
  mkNode [("k"%string, Some 1%nat); ("l"%string, Some 2%nat)] [] None TDict;
  mkNode [] [] (Some (DStr "value")) TValue; mkNode [] [Some 3%nat; Some 4%nat] None TList;
  mkNode [] [] (Some (DInt (-1))) TValue; mkNode [] [] (Some (DBool true)) TValue].
Definition ex_tree : dg := Dct [("k"%string, Val (DStr "value")); ("l"%string, Lst [Val (DInt (-1)); Val (DBool true)])].
Example C83_case : denotes ex_heap 0%nat ex_tree /\ fits ex_tree /\
  match msg_to_wire 9 ex_heap (mkMsg "a/b" "t" 0%nat) with Ok b => size b = 360 | _ => False end.
Proof.
  split.
  - eexists. eapply own_dct; [reflexivity|repeat constructor|reflexivity|]. cbn [map snd].
    eapply owns_cons; [apply own_val; reflexivity|]. eapply owns_cons; [|constructor].
    eapply own_lst; [reflexivity|]. repeat (eapply owns_cons; [apply own_val; reflexivity|]). constructor.
  - split; [|vm_compute; reflexivity]. repeat (constructor; try lia).
Qed.

(** * C14 *)

(** The bytes of a message, received anywhere, are a message with the same sender and topic and the normalised
    datagram. *)
Theorem C14_round_trip : forall h m t, denotes h (m_dg m) t -> fits t ->
  exists b, (forall fuel, (dg_depth t < fuel)%nat -> msg_to_wire fuel h m = Ok b) /\
  (size b < 2 ^ 31 -> forall fuel h0, size b < Z.of_nat fuel ->
   exists h' m', msg_from_wire fuel b h0 = (h', Ok m') /\
    m_sender m' = m_sender m /\ m_topic m' = m_topic m /\ denotes h' (m_dg m') (wire t) /\
    forall x u, denotes h0 x u -> denotes h' x u).
Proof.
  intros h m t D F. destruct (C83_written _ _ _ D) as (b & W & G). exists b. split; auto. intros Hs fuel h0 Hf.
  destruct (C81_message _ _ _ _ (proj1 (G F Hs)) fuel h0 Hf) as (h' & m' & Fx & E & A & B & O & _ & _ & K). exists h', m'.
  split; auto. split; auto. split; auto. split; [eexists; eauto|auto].
Qed.
Print Assumptions C14_round_trip.

(** The received message compares equal to the original exactly when the datagram holds no
    NaN, no empty list or dictionary and no value of another type. *)
Theorem C14_equal_iff : forall h m t, denotes h (m_dg m) t -> fits t ->
  exists b, (forall fuel, (dg_depth t < fuel)%nat -> msg_to_wire fuel h m = Ok b) /\
  (size b < 2 ^ 31 -> forall fuel, (dg_depth t < fuel)%nat -> size b < Z.of_nat fuel ->
   exists h' m' r, msg_from_wire fuel b h = (h', Ok m') /\ msg_eq fuel h' m m' = Ok r /\
    (r = true <-> ~ has_nan t /\ ~ lossy false t)).
Proof.
  intros h m t D F. destruct (C14_round_trip h m t D F) as (b & W & K). exists b. split; auto. intros Hs fuel Hd Hf.
  destruct (K Hs fuel h Hf) as (h' & m' & E' & Es & Et & D' & Old).
  exists h', m', (spec_eqb (wire t) t). split; auto. split.
  - unfold msg_eq. rewrite Es, Et, !String.eqb_refl. apply dg_eq_spec; auto.
  - rewrite spec_eqb_same. rewrite <- wire_same. split; apply dg_same_sym.
Qed.
Print Assumptions C14_equal_iff.

(** A message holding -0.0 compares equal to its image, one holding an empty list does not. *)
Example C14_example :
  let h := [mkNode [] [] (Some (DDouble 0x8000000000000000)) TValue; mkNode [] [] None TList] in
  let go l := match msg_to_wire 9 h (mkMsg "s" "t" l) with
              | Ok b => match msg_from_wire 200 b h with
                        | (h', Ok m') => msg_eq 9 h' (mkMsg "s" "t" l) m'
                        | _ => UB
                        end
              | _ => UB
              end in
  denotes h 0%nat (Val (DDouble 0x8000000000000000)) /\ fits (Val (DDouble 0x8000000000000000)) /\
  denotes h 1%nat (Lst []) /\ fits (Lst []) /\ go 0%nat = Ok true /\ go 1%nat = Ok false.
Proof.
  split; [eexists; constructor; reflexivity|]. split; [constructor; reflexivity|].
  split; [eexists; econstructor; [reflexivity|constructor]|]. split; [constructor; constructor|].
  vm_compute. auto.
Qed.

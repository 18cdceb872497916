(** Lemmas about reading the bytes of a message. *)
From Coq Require Import String Ascii List Arith ZArith NArith Bool Lia.
From Verif Require Import Prelude OMap DatagramModel DatagramSpec DatagramProofs SerialModel SerialSpec SerialProofs WireModel WireSpec.
Import ListNotations.
Open Scope list_scope.
Open Scope Z_scope.

Lemma le_base l : le_value l = base256 l.
Proof. induction l as [|a l IH]; [reflexivity|]. change (le_value (a :: l)) with (byte_value a + 256 * le_value l). now rewrite IH. Qed.

Lemma base_range l : 0 <= base256 l < 256 ^ Z.of_nat (length l).
Proof.
  induction l as [|a l IH]; [simpl; lia|].
  change (base256 (a :: l)) with (Z.of_N (N_of_ascii a) + 256 * base256 l). cbn [length]. rewrite Nat2Z.inj_succ, Z.pow_succ_r by lia.
  pose proof (N_ascii_bounded a). lia.
Qed.

Lemma num_range b p n v : num b p n v -> 0 <= v < 256 ^ Z.of_nat n.
Proof. intros (l & _ & L & ->). rewrite <- L. apply base_range. Qed.

Lemma piece_range b p l : piece b p l -> 0 <= p /\ p + Z.of_nat (length l) <= size b.
Proof. intros (x & y & -> & <-). unfold size. rewrite !app_length. lia. Qed.

Lemma num_in b p n v : num b p n v -> 0 <= p /\ p + Z.of_nat n <= size b.
Proof. intros (l & H & L & _). rewrite <- L. now apply piece_range. Qed.

Lemma bytes_at_iff b p n l : bytes_at b p n = Ok l <-> piece b p l /\ Z.of_nat (length l) = n.
Proof.
  unfold bytes_at. split.
  - destruct (Z.leb_spec 0 p), (Z.leb_spec 0 n), (Z.leb_spec (p + n) (size b)); simpl; try discriminate.
    intros E. injection E as <-. unfold size in *. split.
    + exists (firstn (Z.to_nat p) b), (skipn (Z.to_nat n) (skipn (Z.to_nat p) b)).
      rewrite firstn_skipn, firstn_skipn, firstn_length. split; [reflexivity|lia].
    + rewrite firstn_length, skipn_length. lia.
  - intros (H & <-). pose proof (piece_range _ _ _ H). destruct H as (x & y & -> & <-).
    destruct (Z.leb_spec 0 (Z.of_nat (length x))); [|lia]. destruct (Z.leb_spec 0 (Z.of_nat (length l))); [|lia].
    destruct (Z.leb_spec (Z.of_nat (length x) + Z.of_nat (length l)) (size (x ++ l ++ y))); [|lia].
    cbn [andb]. rewrite !Nat2Z.id, skipn_app, skipn_all, Nat.sub_diag. cbn [app skipn].
    rewrite firstn_app, firstn_all, Nat.sub_diag. cbn [firstn]. now rewrite app_nil_r.
Qed.

Lemma bytes_at_bad b p n : (exists l, bytes_at b p n = Ok l) \/ bytes_at b p n = UB.
Proof. unfold bytes_at. destruct (_ && _ && _); eauto. Qed.

Lemma rd_iff n b p v : rd (Z.of_nat n) b p = Ok v <-> num b p n v.
Proof.
  unfold rd, num. split.
  - destruct (bytes_at b p (Z.of_nat n)) as [l| | |] eqn:E; try discriminate. intros [= <-]. apply bytes_at_iff in E.
    exists l. rewrite le_base. intuition lia.
  - intros (l & H & L & ->). rewrite <- L. rewrite (proj2 (bytes_at_iff b p (Z.of_nat (length l)) l)) by auto. cbn [res_map]. now rewrite le_base.
Qed.

Lemma rd_bad n b p : (exists v, rd n b p = Ok v) \/ rd n b p = UB.
Proof. unfold rd. destruct (bytes_at_bad b p n) as [(l & ->)| ->]; simpl; eauto. Qed.

Lemma rd4 b p v : rd 4 b p = Ok v <-> num b p 4 v. Proof. apply (rd_iff 4). Qed.
Lemma rd2 b p v : rd 2 b p = Ok v <-> num b p 2 v. Proof. apply (rd_iff 2). Qed.

Lemma num_fun b p n v w : num b p n v -> num b p n w -> v = w.
Proof. intros H K. apply rd_iff in H, K. congruence. Qed.

Lemma signed_twos n v : signed n v = twos (8 * n) v.
Proof. reflexivity. Qed.

(** ** Fields *)

Lemma field_iff b t id f : field b t id = Ok f <-> slot b t id (if f =? 0 then None else Some (t + f)).
Proof.
  unfold field. split.
  - destruct (rd 4 b t) as [so| | |] eqn:E1; try discriminate. cbn [res_bind]. apply rd4 in E1.
    destruct (rd 2 b (t - signed 4 so)) as [sz| | |] eqn:E2; try discriminate. cbn [res_bind]. apply rd2 in E2.
    assert (Hv : vtable_of b t (t - signed 4 so)) by (exists so; auto).
    destruct (Z.ltb_spec id sz).
    + intros E3. apply rd2 in E3. destruct (Z.eqb_spec f 0).
      * subst. eapply slot_zero; eauto.
      * eapply slot_at; eauto.
    + intros [= <-]. simpl. eapply slot_short; eauto.
  - intros H. remember (if f =? 0 then None else Some (t + f)) as q.
    destruct H as [vt sz (v & N1 & ->) N2 L|vt sz (v & N1 & ->) N2 L N3|vt sz g (v & N1 & ->) N2 L N3 G];
      apply rd4 in N1; apply rd2 in N2; rewrite N1; cbn [res_bind]; change (signed 4 v) with (twos 32 v); rewrite N2; cbn [res_bind];
      destruct (Z.ltb_spec id sz); try lia; destruct (Z.eqb_spec f 0); try discriminate; subst; auto.
    + now apply rd2 in N3.
    + injection Heqq as E. replace f with g by lia. now apply rd2 in N3.
Qed.

Lemma field_bad b t id : (exists f, field b t id = Ok f) \/ field b t id = UB.
Proof.
  unfold field. destruct (rd_bad 4 b t) as [(so & ->)| ->]; simpl; auto.
  destruct (rd_bad 2 b (t - signed 4 so)) as [(sz & ->)| ->]; simpl; auto.
  destruct (id <? sz); eauto using rd_bad.
Qed.

Lemma slot_pos b t id p : slot b t id (Some p) -> t < p /\ 0 <= t /\ t + 4 <= size b.
Proof.
  intros H. inversion H as [| |vt sz f (v & N1 & _) N2 L N3 G]; subst. apply num_range in N3.
  apply num_in in N1. lia.
Qed.

Lemma scalar_iff n b t id v : scalar (Z.of_nat n) b t id = Ok v <-> value b t id n v.
Proof.
  unfold scalar. split.
  - destruct (field b t id) as [f| | |] eqn:E; try discriminate. cbn [res_bind]. apply field_iff in E.
    destruct (Z.eqb_spec f 0); intros H.
    + injection H as <-. now constructor.
    + apply rd_iff in H. econstructor; eauto.
  - intros [H|p v' H N].
    + rewrite (proj2 (field_iff b t id 0) H). reflexivity.
    + pose proof (slot_pos _ _ _ _ H). replace p with (t + (p - t)) in H, N by lia.
      rewrite (proj2 (field_iff b t id (p - t))).
      * cbn [res_bind]. destruct (Z.eqb_spec (p - t) 0); [lia|]. now apply rd_iff.
      * destruct (Z.eqb_spec (p - t) 0); [lia|]. exact H.
Qed.

Lemma scalar_bad n b t id : (exists v, scalar n b t id = Ok v) \/ scalar n b t id = UB.
Proof.
  unfold scalar. destruct (field_bad b t id) as [(f & ->)| ->]; simpl; auto. destruct (f =? 0); eauto using rd_bad.
Qed.

Lemma pointer_iff b t id q : pointer b t id = Ok q <-> points b t id q.
Proof.
  unfold pointer. split.
  - destruct (field b t id) as [f| | |] eqn:E; try discriminate. cbn [res_bind]. apply field_iff in E.
    destruct (Z.eqb_spec f 0); intros H.
    + injection H as <-. now constructor.
    + destruct (rd 4 b (t + f)) as [o| | |] eqn:E2; try discriminate. injection H as <-. apply rd4 in E2. econstructor; eauto.
  - intros [H|p o H N].
    + rewrite (proj2 (field_iff b t id 0) H). reflexivity.
    + pose proof (slot_pos _ _ _ _ H). replace p with (t + (p - t)) in H, N |- * by lia.
      rewrite (proj2 (field_iff b t id (p - t))).
      * cbn [res_bind]. destruct (Z.eqb_spec (p - t) 0); [lia|]. apply rd4 in N. rewrite N. reflexivity.
      * destruct (Z.eqb_spec (p - t) 0); [lia|]. exact H.
Qed.

Lemma pointer_bad b t id : (exists v, pointer b t id = Ok v) \/ pointer b t id = UB.
Proof.
  unfold pointer. destruct (field_bad b t id) as [(f & ->)| ->]; simpl; auto. destruct (f =? 0); eauto.
  destruct (rd_bad 4 b (t + f)) as [(o & ->)| ->]; simpl; eauto.
Qed.

Lemma points_pos b t id p : points b t id (Some p) -> t < p /\ 0 <= t /\ t + 4 <= size b.
Proof. intros H. inversion H as [|q o S N]; subst. apply slot_pos in S. apply num_range in N. lia. Qed.

Lemma str_at_iff b p s : str_at b p = Ok s <-> text b p s.
Proof.
  unfold str_at, text. assert (L : forall s, length (list_ascii_of_string s) = String.length s) by (induction s0; simpl; auto). split.
  - destruct (rd 4 b p) as [n| | |] eqn:E; try discriminate. cbn [res_bind].
    destruct (bytes_at b (p + 4) n) as [l| | |] eqn:E2; try discriminate. intros [= <-]. apply bytes_at_iff in E2. apply rd4 in E.
    rewrite list_ascii_of_string_of_list_ascii. destruct E2 as (P & <-).
    rewrite <- L, list_ascii_of_string_of_list_ascii. auto.
  - intros (N & P). apply rd4 in N. rewrite N. cbn [res_bind].
    rewrite (proj2 (bytes_at_iff b (p + 4) _ (list_ascii_of_string s))); [|rewrite L; auto].
    simpl. now rewrite string_of_list_ascii_of_string.
Qed.

Lemma str_at_bad b p : (exists s, str_at b p = Ok s) \/ str_at b p = UB.
Proof.
  unfold str_at. destruct (rd_bad 4 b p) as [(n & ->)| ->]; simpl; auto.
  destruct (bytes_at_bad b (p + 4) n) as [(l & ->)| ->]; simpl; eauto.
Qed.

(** ** Vectors *)

Lemma res_all_iff {A B} (f : A -> res B) l ys : res_all f l = Ok ys <-> Forall2 (fun x y => f x = Ok y) l ys.
Proof.
  revert ys. induction l as [|x l IH]; intros ys; simpl.
  - split; [intros [= <-]; constructor|intros H; inversion H; auto].
  - split.
    + destruct (f x) as [y| | |] eqn:E; try discriminate. cbn [res_bind]. destruct (res_all f l) as [zs| | |]; try discriminate.
      intros [= <-]. constructor; auto. now apply IH.
    + intros H. inversion H as [|? y ? zs E Hs]; subst. rewrite E. cbn [res_bind]. apply IH in Hs. now rewrite Hs.
Qed.

Lemma element_iff b v i q : element b v i = Ok q <->
  exists o, num b (v + 4 + 4 * Z.of_nat i) 4 o /\ q = v + 4 + 4 * Z.of_nat i + o.
Proof.
  unfold element. split.
  - destruct (rd 4 b _) as [o| | |] eqn:E; try discriminate. intros [= <-]. apply rd4 in E. eauto.
  - intros (o & N & ->). apply rd4 in N. rewrite N. reflexivity.
Qed.

Lemma element_bad b v i : (exists q, element b v i = Ok q) \/ element b v i = UB.
Proof. unfold element. destruct (rd_bad 4 b (v + 4 + 4 * Z.of_nat i)) as [(o & ->)| ->]; simpl; eauto. Qed.

Lemma Forall2_seq {B} (R : nat -> B -> Prop) n ys : forall k,
  (Forall2 R (seq k n) ys <-> length ys = n /\ forall i y, nth_error ys i = Some y -> R (k + i)%nat y).
Proof.
  revert ys. induction n as [|n IH]; intros ys k; cbn [seq].
  - split; [intros H; inversion H; subst; split; auto; now intros [|i] y|intros (L & _); destruct ys; [constructor|discriminate]].
  - split.
    + intros H. inversion H as [|? y ? zs E Hs]; subst. apply (IH zs (S k)) in Hs as (L & G). split; [simpl; lia|].
      intros [|i] z; simpl; [intros [= <-]; now rewrite Nat.add_0_r|]. intros N. specialize (G _ _ N). now rewrite <- plus_n_Sm.
    + intros (L & G). destruct ys as [|y ys]; [discriminate|]. constructor.
      * specialize (G 0%nat y eq_refl). now rewrite Nat.add_0_r in G.
      * apply IH. split; [simpl in L; lia|]. intros i z N. specialize (G (S i) z N). now rewrite <- plus_n_Sm in G.
Qed.

Lemma elements_iff {A} (f : Z -> res A) b v n xs : 0 <= n -> v + 4 <= size b ->
  (elements f b v n = Ok xs <-> exists qs, entries b v n qs /\ Forall2 (fun q x => f q = Ok x) qs xs).
Proof.
  intros Hn Hv. unfold elements. split.
  - destruct (Z.leb_spec (v + 4 + 4 * n) (size b)); try discriminate. intros E. apply res_all_iff in E.
    apply Forall2_seq in E as (L & G).
    assert (K : forall i x, nth_error xs i = Some x -> exists q, element b v i = Ok q /\ f q = Ok x).
    { intros i x N. specialize (G i x N). simpl in G. destruct (element b v i) as [q| | |]; try discriminate. eauto. }
    assert (Q : exists qs, length qs = length xs /\ forall i q, nth_error qs i = Some q -> element b v i = Ok q).
    { clear L G. revert K. generalize xs. intros ys. induction ys as [|y ys IH] using rev_ind; intros K.
      - exists []. split; auto. intros i q N. destruct i; discriminate N.
      - destruct IH as (qs & L & G).
        { intros i x N. apply K. rewrite nth_error_app1; auto. apply nth_error_Some. congruence. }
        destruct (K (length ys) y) as (q & E & _).
        { rewrite nth_error_app2, Nat.sub_diag; auto. }
        exists (qs ++ [q]). rewrite !app_length. split; [simpl; lia|]. intros i q' N.
        destruct (Nat.lt_ge_cases i (length qs)) as [Hi|Hi].
        + rewrite nth_error_app1 in N; auto.
        + rewrite nth_error_app2 in N by lia. destruct (i - length qs)%nat as [|k] eqn:D; [|destruct k; discriminate N].
          injection N as <-. replace i with (length ys) by lia. exact E. }
    destruct Q as (qs & Lq & Gq). exists qs. split.
    + split; [lia|]. intros i q N. apply element_iff. auto.
    + assert (F : forall i q x, nth_error qs i = Some q -> nth_error xs i = Some x -> f q = Ok x).
      { intros i q x N1 N2. specialize (Gq _ _ N1). destruct (K _ _ N2) as (q' & E1 & E2). congruence. }
      clear - Lq F. revert xs Lq F. induction qs as [|q qs IH]; intros [|x xs] L F; try discriminate; constructor.
      * apply (F 0%nat); auto.
      * apply IH; [simpl in L; lia|]. intros i. apply (F (S i)).
  - intros (qs & (L & G) & F2).
    assert (B : v + 4 + 4 * n <= size b).
    { destruct (nth_error qs (Z.to_nat n - 1)) as [q|] eqn:N.
      - destruct (G _ _ N) as (o & M & _). apply num_in in M. assert ((Z.to_nat n - 1 < length qs)%nat) by (apply nth_error_Some; congruence). lia.
      - apply nth_error_None in N. lia. }
    destruct (Z.leb_spec (v + 4 + 4 * n) (size b)); [|lia]. apply res_all_iff. apply Forall2_seq.
    pose proof (Forall2_len _ _ _ F2) as L2. split; [lia|].
    intros i x N. simpl. assert (Q : exists q, nth_error qs i = Some q /\ f q = Ok x).
    { clear - F2 N. revert i N. induction F2 as [|q y qs ys E F IH]; intros [|i] N; simpl in N; try discriminate.
      - injection N as <-. exists q. auto.
      - destruct (IH _ N) as (q' & ? & ?). exists q'. auto. }
    destruct Q as (q & Nq & E). rewrite (proj2 (element_iff b v i q)) by auto. exact E.
Qed.

(** An element lies behind the vector. *)
Lemma entries_pos b v n qs q : entries b v n qs -> In q qs -> v + 4 <= q.
Proof.
  intros (_ & G) H. apply In_nth_error in H as (i & N). destruct (G _ _ N) as (o & M & ->). apply num_range in M. lia.
Qed.

Lemma entries_fun b v n qs qs' : entries b v n qs -> entries b v n qs' -> qs = qs'.
Proof.
  intros (L & G) (L' & G'). apply nth_ext with (d := 0) (d' := 0); [lia|]. intros i Hi.
  destruct (nth_error qs i) as [q|] eqn:E; [|apply nth_error_None in E; lia].
  destruct (nth_error qs' i) as [q'|] eqn:E'; [|apply nth_error_None in E'; lia].
  rewrite (nth_error_nth _ _ 0 E), (nth_error_nth _ _ 0 E').
  destruct (G _ _ E) as (o & N & ->), (G' _ _ E') as (o' & N' & ->). now rewrite (num_fun _ _ _ _ _ N N').
Qed.

Lemma slot_fun b t id q q' : slot b t id q -> slot b t id q' -> q = q'.
Proof.
  assert (W : forall q, slot b t id q -> exists f, field b t id = Ok f /\ q = if f =? 0 then None else Some (t + f)).
  { intros [p|] H.
    - pose proof (slot_pos _ _ _ _ H). exists (p - t). destruct (Z.eqb_spec (p - t) 0); [lia|]. split; [|f_equal; lia].
      apply field_iff. destruct (Z.eqb_spec (p - t) 0); [lia|]. now replace (t + (p - t)) with p by lia.
    - exists 0. split; [|reflexivity]. now apply field_iff. }
  intros H K. apply W in H as (f & E & ->), K as (g & E' & ->). rewrite E in E'. now injection E' as ->.
Qed.
Lemma value_fun b t id n v w : value b t id n v -> value b t id n w -> v = w.
Proof. intros H K. apply scalar_iff in H, K. congruence. Qed.
Lemma points_fun b t id v w : points b t id v -> points b t id w -> v = w.
Proof. intros H K. apply pointer_iff in H, K. congruence. Qed.
Lemma text_fun b p s s' : text b p s -> text b p s' -> s = s'.
Proof. intros H K. apply str_at_iff in H, K. congruence. Qed.

Lemma scalar1 b t id v : scalar 1 b t id = Ok v <-> value b t id 1 v. Proof. apply (scalar_iff 1). Qed.
Lemma scalar4 b t id v : scalar 4 b t id = Ok v <-> value b t id 4 v. Proof. apply (scalar_iff 4). Qed.
Lemma scalar8 b t id v : scalar 8 b t id = Ok v <-> value b t id 8 v. Proof. apply (scalar_iff 8). Qed.

Lemma value_range b t id n v : value b t id n v -> 0 <= v < 256 ^ Z.of_nat n.
Proof.
  intros [H|p w H N]; [|eapply num_range; eauto]. split; [lia|]. apply Z.pow_pos_nonneg; lia.
Qed.
Lemma value1_range b t id v : value b t id 1 v -> 0 <= v < 256.
Proof. intros H. apply value_range in H. exact H. Qed.

Lemma value_in b t id n v : value b t id n v -> 0 <= t /\ t + 4 <= size b.
Proof.
  intros [H|p w H N].
  - inversion H as [vt sz (x & N1 & _)|vt sz (x & N1 & _)|]; subst; apply num_in in N1; lia.
  - apply slot_pos in H. lia.
Qed.

Lemma code_eqb c k : 0 <= c < 256 -> 0 <= k < 128 -> (signed 1 c =? k) = (c =? k).
Proof.
  intros H K. unfold signed. change (2 ^ (8 * 1 - 1)) with 128. change (2 ^ (8 * 1)) with 256.
  destruct (Z.ltb_spec c 128), (Z.eqb_spec c k); first [reflexivity|apply Z.eqb_eq; lia|apply Z.eqb_neq; lia].
Qed.
Lemma code_small c : 0 <= c < 128 -> signed 1 c = c.
Proof. intros H. unfold signed. change (2 ^ (8 * 1 - 1)) with 128. destruct (Z.ltb_spec c 128); lia. Qed.
Lemma code_between c lo hi : 0 <= c < 256 -> 0 <= lo -> hi < 128 -> (lo <= signed 1 c <= hi <-> lo <= c <= hi).
Proof.
  intros H K L. unfold signed. change (2 ^ (8 * 1 - 1)) with 128. change (2 ^ (8 * 1)) with 256. destruct (Z.ltb_spec c 128); lia.
Qed.

(** ** Tables *)

Lemma res_all_done {A B} (f : A -> res B) l :
  (forall x, In x l -> (exists y, f x = Ok y) \/ f x = UB) -> (exists ys, res_all f l = Ok ys) \/ res_all f l = UB.
Proof.
  induction l as [|x l IH]; intros H; simpl; eauto.
  destruct (H x (or_introl eq_refl)) as [(y & ->)| ->]; simpl; auto.
  destruct IH as [(ys & ->)| ->]; simpl; eauto. intros; apply H; simpl; auto.
Qed.

Lemma elements_done {A} (f : Z -> res A) b v n :
  (forall q, v + 4 <= q -> (exists y, f q = Ok y) \/ f q = UB) -> (exists ys, elements f b v n = Ok ys) \/ elements f b v n = UB.
Proof.
  intros H. unfold elements. destruct (_ <=? _); auto. apply res_all_done. intros i _.
  destruct (element_bad b v i) as [(q & E)|E]; rewrite E; simpl; auto. apply H. apply element_iff in E as (o & N & ->).
  apply num_range in N. lia.
Qed.

Lemma str_field_bad b t id : (exists s, str_field b t id = Ok s) \/ str_field b t id = UB.
Proof.
  unfold str_field. destruct (pointer_bad b t id) as [([p|] & ->)| ->]; simpl; eauto.
  destruct (str_at_bad b p) as [(s & ->)| ->]; simpl; eauto.
Qed.

Lemma table_done b f : forall t, (0 < f)%nat -> size b - t < Z.of_nat f -> (exists u, table f b t = Ok u) \/ table f b t = UB.
Proof.
  induction f as [|f IH]; intros t Hf Ht; [lia|]. cbn [table].
  destruct (scalar_bad 1 b t id_datagram_type) as [(c & ->)| ->]; cbn [res_map res_bind]; auto.
  destruct (_ =? dt_value).
  { destruct (scalar_bad 1 b t id_value_type) as [(w & ->)| ->]; cbn [res_map res_bind]; auto.
    destruct (_ =? vt_string).
    { destruct (str_field_bad b t id_string) as [(s & ->)| ->]; simpl; eauto. }
    destruct (_ =? vt_double).
    { destruct (scalar_bad 8 b t id_double) as [(s & ->)| ->]; simpl; eauto. }
    destruct (_ =? vt_integer).
    { destruct (scalar_bad 4 b t id_integer) as [(s & ->)| ->]; simpl; eauto. }
    destruct (_ =? vt_boolean); eauto.
    destruct (scalar_bad 1 b t id_boolean) as [(s & ->)| ->]; simpl; eauto. }
  destruct (_ =? dt_list).
  { destruct (pointer_bad b t id_list) as [([v|] & E)|E]; rewrite E; cbn [res_bind]; eauto.
    apply pointer_iff, points_pos in E.
    destruct (rd_bad 4 b v) as [(n & ->)| ->]; cbn [res_bind]; auto.
    destruct (elements_done (table f b) b v n) as [(ys & ->)| ->]; simpl; eauto.
    intros q Hq. apply IH; lia. }
  destruct (_ =? dt_dict); eauto.
  destruct (pointer_bad b t id_keys) as [(ks & E1)|E1]; rewrite E1; cbn [res_bind]; auto.
  destruct (pointer_bad b t id_contents) as [(vs & E2)|E2]; rewrite E2; cbn [res_bind]; auto.
  destruct ks as [ks|]; eauto. destruct vs as [vs|]; eauto.
  apply pointer_iff, points_pos in E1. apply pointer_iff, points_pos in E2.
  destruct (rd_bad 4 b ks) as [(nk & ->)| ->]; cbn [res_bind]; auto.
  destruct (rd_bad 4 b vs) as [(nv & ->)| ->]; cbn [res_bind]; auto.
  destruct (elements_done (str_at b) b ks (Z.min nk nv)) as [(ys & ->)| ->]; cbn [res_bind]; auto.
  { intros q _. apply str_at_bad. }
  destruct (elements_done (table f b) b vs (Z.min nk nv)) as [(zs & ->)| ->]; simpl; eauto.
  intros q Hq. apply IH; lia.
Qed.

Lemma F2_impl {A B} (R S : A -> B -> Prop) l l' : (forall a b, R a b -> S a b) -> Forall2 R l l' -> Forall2 S l l'.
Proof. intros H. induction 1; constructor; auto. Qed.

(** The bytes of a datagram are read as that datagram. *)
Lemma holds_table b f : forall t d, holds b t d -> size b - t < Z.of_nat f -> exists u, table f b t = Ok u /\ reads u d.
Proof.
  induction f as [|f IH]; intros t d H Hf.
  { exfalso. assert (0 <= t /\ t + 4 <= size b) by (inversion H; eauto using value_in). lia. }
  cbn [table]. unfold id_datagram_type, id_value_type, id_string, id_integer, id_double, id_boolean, id_list, id_keys, id_contents.
  inversion H as [? p s D V P T|? v D V P|? v D V P|? v D V P|? c D V P|? v n qs ds D P N E F
    |? kv vv nk nv kqs vqs ks ds m D P1 P2 N1 N2 E1 F1 E2 F2 Dm|? c D C]; subst;
    rewrite (proj2 (scalar1 _ _ _ _) D); cbn [res_map res_bind];
    try (rewrite (proj2 (scalar1 _ _ _ _) V); cbn [res_map res_bind]).
  - change (signed 1 1 =? dt_value) with true. cbv iota. change (signed 1 0 =? vt_string) with true. cbv iota. unfold str_field.
    rewrite (proj2 (pointer_iff _ _ _ _) P). cbn [res_bind]. rewrite (proj2 (str_at_iff _ _ _) T). cbn [res_map].
    eexists; split; [reflexivity|]. constructor.
  - change (signed 1 1 =? dt_value) with true. cbv iota. change (signed 1 1 =? vt_string) with false. change (signed 1 1 =? vt_double) with false.
    change (signed 1 1 =? vt_integer) with true. cbv iota. rewrite (proj2 (scalar4 _ _ _ _) P). eexists; split; [reflexivity|]. constructor.
  - change (signed 1 1 =? dt_value) with true. cbv iota. change (signed 1 2 =? vt_string) with false. change (signed 1 2 =? vt_double) with true.
    cbv iota. rewrite (proj2 (scalar8 _ _ _ _) P). eexists; split; [reflexivity|]. constructor.
  - change (signed 1 1 =? dt_value) with true. cbv iota. change (signed 1 3 =? vt_string) with false. change (signed 1 3 =? vt_double) with false.
    change (signed 1 3 =? vt_integer) with false. change (signed 1 3 =? vt_boolean) with true.
    cbv iota. rewrite (proj2 (scalar1 _ _ _ _) P). eexists; split; [reflexivity|]. constructor.
  - change (signed 1 1 =? dt_value) with true. cbv iota. pose proof (value1_range _ _ _ _ V) as R.
    unfold vt_string, vt_double, vt_integer, vt_boolean. rewrite !code_eqb by lia.
    destruct (Z.eqb_spec c 0); [lia|]. destruct (Z.eqb_spec c 2); [lia|]. destruct (Z.eqb_spec c 1); [lia|]. destruct (Z.eqb_spec c 3); [lia|].
    eexists; split; [reflexivity|]. apply reads_bad_value. rewrite code_between; lia.
  - change (signed 1 2 =? dt_value) with false. change (signed 1 2 =? dt_list) with true. cbv iota.
    rewrite (proj2 (pointer_iff _ _ _ _) P). cbn [res_bind]. rewrite (proj2 (rd4 _ _ _) N). cbn [res_bind].
    assert (X : exists us, Forall2 (fun q x => table f b q = Ok x) qs us /\ Forall2 reads us ds).
    { assert (Pq : Forall (fun q => v + 4 <= q) qs) by (apply Forall_forall; intros; eapply entries_pos; eauto).
      apply points_pos in P. clear - IH F Pq P Hf. induction F as [|q d qs ds Hq F IHF]; [exists []; auto|].
      inversion Pq; subst. destruct IHF as (us & U1 & U2); auto. destruct (IH q d Hq) as (u & T & R); [lia|].
      exists (u :: us). auto. }
    destruct X as (us & U1 & U2).
    rewrite (proj2 (elements_iff (table f b) b v n us ltac:(apply num_range in N; lia) ltac:(apply num_in in N; lia))) by eauto.
    cbn [res_map]. eexists; split; [reflexivity|].
    destruct U2 as [|u d us ds]; constructor; constructor; auto.
  - change (signed 1 3 =? dt_value) with false. change (signed 1 3 =? dt_list) with false. change (signed 1 3 =? dt_dict) with true. cbv iota.
    rewrite (proj2 (pointer_iff _ _ _ _) P1). cbn [res_bind]. rewrite (proj2 (pointer_iff _ _ _ _) P2). cbn [res_bind].
    rewrite (proj2 (rd4 _ _ _) N1). cbn [res_bind]. rewrite (proj2 (rd4 _ _ _) N2). cbn [res_bind].
    assert (X : exists us, Forall2 (fun q x => table f b q = Ok x) vqs us /\ Forall2 reads us ds).
    { assert (Pq : Forall (fun q => vv + 4 <= q) vqs) by (apply Forall_forall; intros; eapply entries_pos; eauto).
      apply points_pos in P2. clear - IH F2 Pq P2 Hf. induction F2 as [|q d qs ds Hq F IHF]; [exists []; auto|].
      inversion Pq; subst. destruct IHF as (us & U1 & U2); auto. destruct (IH q d Hq) as (u & T & R); [lia|].
      exists (u :: us). auto. }
    destruct X as (us & U1 & U2).
    assert (Hn : 0 <= Z.min nk nv) by (apply num_range in N1; apply num_range in N2; lia).
    rewrite (proj2 (elements_iff (str_at b) b kv (Z.min nk nv) ks Hn ltac:(apply num_in in N1; lia))).
    2:{ exists kqs. split; auto. eapply F2_impl; [|exact F1]. intros q s Hs. now apply str_at_iff. }
    cbn [res_bind].
    rewrite (proj2 (elements_iff (table f b) b vv (Z.min nk nv) us Hn ltac:(apply num_in in N2; lia))) by eauto.
    cbn [res_map]. eexists; split; [reflexivity|].
    assert (L : length ks = length ds).
    { apply Forall2_len in F1. apply Forall2_len in F2. destruct E1 as (E1 & _), E2 as (E2 & _). lia. }
    assert (C : Forall2 (fun p q => fst p = fst q /\ reads (snd p) (snd q)) (combine ks us) (combine ks ds)).
    { clear - U2 L. revert ks L. induction U2; intros [|k ks] L; simpl in *; try discriminate; constructor; auto. }
    remember (combine ks ds) as cs eqn:Ecs. clear Ecs. destruct (combine ks us) as [|p ps] eqn:Ec.
    + inversion C; subst cs.
      assert (m = []) as -> by (destruct m as [|[k x] m]; auto; destruct Dm as (_ & G); specialize (G k); simpl in G; rewrite String.eqb_refl in G; discriminate).
      now apply reads_empty_dict.
    + assert (Hm : m <> []).
      { intros ->. inversion C as [|? q ? qs Hq Hqs Eq Eqs]; subst cs. destruct Dm as (_ & G). specialize (G (fst q)). cbn in G.
        destruct q as [k y]. simpl in G. rewrite String.eqb_refl in G. destruct (last_entry k qs); discriminate. }
      destruct m as [|y m]; [congruence|]. eapply reads_dict; eauto; rewrite Ec; [discriminate|exact C].
  - pose proof (value1_range _ _ _ _ D) as R. unfold dt_value, dt_list, dt_dict. rewrite !code_eqb by lia.
    destruct (Z.eqb_spec c 1); [lia|]. destruct (Z.eqb_spec c 2); [lia|]. destruct (Z.eqb_spec c 3); [lia|].
    eexists; split; [reflexivity|]. apply reads_other. rewrite code_between; lia.
Qed.

(** What is read as a datagram is one. *)
Lemma table_holds b f : forall t u d, table f b t = Ok u -> reads u d -> holds b t d.
Proof.
  induction f as [|f IH]; intros t u d E R; [discriminate|]. cbn [table] in E.
  unfold id_datagram_type, id_value_type, id_string, id_integer, id_double, id_boolean, id_list, id_keys, id_contents in E.
  destruct (scalar 1 b t 4) as [c| | |] eqn:D; try discriminate. cbn [res_map res_bind] in E. apply scalar1 in D.
  pose proof (value1_range _ _ _ _ D) as Rc. unfold dt_value, dt_list, dt_dict in E. rewrite !code_eqb in E by lia.
  destruct (Z.eqb_spec c 1) as [->|C1].
  { destruct (scalar 1 b t 6) as [w| | |] eqn:V; try discriminate. cbn [res_map res_bind] in E. apply scalar1 in V.
    pose proof (value1_range _ _ _ _ V) as Rw. unfold vt_string, vt_double, vt_integer, vt_boolean in E. rewrite !code_eqb in E by lia.
    change (signed 1 1) with 1 in E.
    destruct (Z.eqb_spec w 0) as [->|W0].
    { unfold str_field in E. destruct (pointer b t 8) as [[p|]| | |] eqn:P; try discriminate; cbn [res_bind res_map] in E.
      - destruct (str_at b p) as [s| | |] eqn:T; try discriminate. injection E as <-. change (signed 1 0) with 0 in R. inversion R; subst; try lia.
        apply holds_string with (p := p); auto; [now apply pointer_iff|now apply str_at_iff].
      - injection E as <-. change (signed 1 0) with 0 in R. inversion R; subst; lia. }
    destruct (Z.eqb_spec w 2) as [->|W2].
    { destruct (scalar 8 b t 12) as [x| | |] eqn:P; try discriminate. injection E as <-. change (signed 1 2) with 2 in R. inversion R; subst; try lia.
      apply holds_double; auto. now apply scalar8. }
    destruct (Z.eqb_spec w 1) as [->|W1].
    { destruct (scalar 4 b t 10) as [x| | |] eqn:P; try discriminate. injection E as <-. change (signed 1 1) with 1 in R. inversion R; subst; try lia.
      apply holds_integer; auto. now apply scalar4. }
    destruct (Z.eqb_spec w 3) as [->|W3].
    { destruct (scalar 1 b t 14) as [x| | |] eqn:P; try discriminate. injection E as <-. change (signed 1 3) with 3 in R. inversion R; subst; try lia.
      apply holds_boolean; auto. now apply scalar1. }
    injection E as <-.
    assert (K : ~ 0 <= signed 1 w <= 3) by (rewrite code_between; lia).
    assert (d = Emp) as -> by (inversion R; subst; auto; exfalso; lia).
    eapply holds_bad_value; eauto. lia. }
  destruct (Z.eqb_spec c 2) as [->|C2].
  { destruct (pointer b t 16) as [[v|]| | |] eqn:P; try discriminate; cbn [res_bind] in E.
    2:{ injection E as <-. change (signed 1 2) with 2 in R. inversion R; subst; lia. }
    apply pointer_iff in P. destruct (rd 4 b v) as [n| | |] eqn:N; try discriminate. cbn [res_bind] in E. apply rd4 in N.
    destruct (elements (table f b) b v n) as [ts| | |] eqn:El; try discriminate. injection E as <-. change (signed 1 2) with 2 in R.
    apply elements_iff in El as (qs & En & F); [|apply num_range in N; lia|apply num_in in N; lia].
    assert (X : exists ds, Forall2 reads ts ds /\ d = match ds with [] => Emp | _ => Lst ds end).
    { inversion R; subst; try lia; [exists []; auto|]. eexists; split; [eassumption|]. inversion H8; subst; auto. }
    destruct X as (ds & F2 & ->). apply holds_list with (v := v) (n := n) (qs := qs); auto.
    clear - IH F F2. revert ds F2. induction F as [|q x qs ts Hq F IHF]; intros ds F2; inversion F2; subst; constructor; eauto. }
  destruct (Z.eqb_spec c 3) as [->|C3].
  { destruct (pointer b t 18) as [[kv|]| | |] eqn:P1; try discriminate; cbn [res_bind] in E;
      destruct (pointer b t 20) as [[vv|]| | |] eqn:P2; try discriminate; cbn [res_bind] in E;
      try (injection E as <-; change (signed 1 3) with 3 in R; inversion R; subst; lia).
    apply pointer_iff in P1, P2.
    destruct (rd 4 b kv) as [nk| | |] eqn:N1; try discriminate. cbn [res_bind] in E. apply rd4 in N1.
    destruct (rd 4 b vv) as [nv| | |] eqn:N2; try discriminate. cbn [res_bind] in E. apply rd4 in N2.
    destruct (elements (str_at b) b kv (Z.min nk nv)) as [ks| | |] eqn:E1; try discriminate. cbn [res_bind] in E.
    destruct (elements (table f b) b vv (Z.min nk nv)) as [ts| | |] eqn:E2; try discriminate. injection E as <-. change (signed 1 3) with 3 in R.
    assert (Hn : 0 <= Z.min nk nv) by (apply num_range in N1; apply num_range in N2; lia).
    apply elements_iff in E1 as (kqs & En1 & F1); [|auto|apply num_in in N1; lia].
    apply elements_iff in E2 as (vqs & En2 & F2); [|auto|apply num_in in N2; lia].
    assert (L : length ks = length ts).
    { apply Forall2_len in F1. apply Forall2_len in F2. destruct En1 as (E1 & _), En2 as (E2 & _). lia. }
    assert (X : exists ds m, Forall2 reads ts ds /\ dict_of (combine ks ds) m /\ d = match m with [] => Emp | _ => Dct m end).
    { inversion R as [| | | | | | |? ? ? ? ? ? ? ? Ec|? ? ? ? ? ? ? ? us m Ec Fc Dm|]; subst; try lia.
      - exists [], []. destruct ks, ts; simpl in *; try discriminate. repeat split; auto. constructor.
      - assert (Y : exists ds, Forall2 reads ts ds /\ us = combine ks ds).
        { clear - L Fc. revert ks us L Fc. induction ts as [|x ts IHt]; intros [|k ks] us L Fc; simpl in *; try discriminate.
          - inversion Fc; subst. exists []. auto.
          - inversion Fc as [|? y ? ys (Y1 & Y2) Ys]; subst. destruct (IHt ks ys) as (ds & A & ->); auto.
            exists (snd y :: ds). split; [constructor; auto|]. simpl. f_equal. destruct y; simpl in *; congruence. }
        destruct Y as (ds & A & ->). exists ds, m. split; auto. split; auto.
        destruct m; auto. exfalso. destruct Dm as (_ & G). destruct (combine ks ds) as [|[k x] l] eqn:Ecd.
        + inversion Fc as [Hc|]; congruence.
        + specialize (G k). simpl in G. rewrite String.eqb_refl in G. destruct (last_entry k l); discriminate. }
    destruct X as (ds & m & A & Dm & ->).
    apply holds_dict with (kv := kv) (vv := vv) (nk := nk) (nv := nv) (kqs := kqs) (vqs := vqs) (ks := ks) (ds := ds); auto.
    - eapply F2_impl; [|exact F1]. intros q s Hs. now apply str_at_iff.
    - clear - IH F2 A. revert ds A. induction F2 as [|q x qs ts Hq F IHF]; intros ds A; inversion A; subst; constructor; eauto. }
  injection E as <-. assert (K : ~ 1 <= signed 1 c <= 3) by (rewrite code_between; lia).
  assert (d = Emp) as -> by (inversion R; subst; auto; exfalso; lia).
  eapply holds_other; eauto. lia.
Qed.

Lemma holds_fun b t d d' : holds b t d -> holds b t d' -> d = d'.
Proof.
  intros H K. set (f := S (Z.to_nat (size b - t))).
  destruct (holds_table b f t d H) as (u & E & R); [lia|]. destruct (holds_table b f t d' K) as (u' & E' & R'); [lia|].
  rewrite E in E'. injection E' as <-. eapply reads_fun; eauto.
Qed.

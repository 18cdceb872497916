(** C40: invocation ids. *)
From Coq Require Import String Ascii NArith List Bool Lia.
From Verif Require Import UuidModel.
Import ListNotations.
Open Scope string_scope.
Open Scope N_scope.

(** * Specification *)

(** The value of a hexadecimal numeral. *)
Definition digit_of (c : ascii) : option N :=
  let n := N_of_ascii c in
  if (48 <=? n) && (n <=? 57) then Some (n - 48)
  else if (97 <=? n) && (n <=? 102) then Some (n - 87) else None.
Fixpoint numeral_from (v : N) (s : string) : option N :=
  match s with
  | EmptyString => Some v
  | String c s' => match digit_of c with Some d => numeral_from (16 * v + d) s' | None => None end
  end.
Definition numeral (s : string) : option N := match s with EmptyString => None | _ => numeral_from 0 s end.

(** Only the characters 0-9 and a-f. *)
Fixpoint all_hex (s : string) : bool :=
  match s with EmptyString => true | String c s' => match digit_of c with Some _ => all_hex s' | None => false end end.

(** The words the distribution can produce. *)
Definition word_ok (n : N) : Prop := 1 <= n < 2 ^ 32.
Definition words_ok (w : words) : Prop :=
  word_ok (w1 w) /\ word_ok (w2 w) /\ word_ok (w3 w) /\ word_ok (w4 w) /\ word_ok (w5 w) /\ word_ok (w6 w) /\ word_ok (w7 w) /\ word_ok (w8 w).

(** * Lemmas *)

Lemma hexdigit_of d : d < 16 -> digit_of (hexdigit d) = Some d.
Proof.
  intros H. assert (exists k, N.to_nat d = k /\ (k < 16)%nat) as (k & E & L) by (eexists; split; [reflexivity|lia]).
  assert (d = N.of_nat k) as -> by lia. clear E H.
  do 16 (destruct k as [|k]; [reflexivity|]). lia.
Qed.

Lemma app_length a b : String.length (a ++ b) = (String.length a + String.length b)%nat.
Proof. induction a; simpl; auto. Qed.
Lemma app_assoc_s (a b c : string) : (a ++ b) ++ c = a ++ b ++ c.
Proof. induction a; simpl; congruence. Qed.
Lemma all_hex_app a b : all_hex (a ++ b) = all_hex a && all_hex b.
Proof. induction a; simpl; auto. destruct (digit_of a); auto. Qed.

(** The loop writes a numeral in front of [acc]. *)
Lemma hex_loop_spec fuel : forall n acc, n < 2 ^ N.of_nat fuel ->
  exists s, hex_loop (S fuel) n acc = s ++ acc /\ s <> "" /\ all_hex s = true /\
    (forall v r, numeral_from v (s ++ r) = numeral_from (v * 16 ^ N.of_nat (String.length s) + n) r) /\
    n < 16 ^ N.of_nat (String.length s) /\ (n = 0 -> s = "0") /\ (n <> 0 -> 16 ^ N.of_nat (String.length s - 1) <= n).
Proof.
  assert (forall n acc f, n / 16 = 0 -> exists s, hex_loop (S f) n acc = s ++ acc /\ s <> "" /\ all_hex s = true /\
    (forall v r, numeral_from v (s ++ r) = numeral_from (v * 16 ^ N.of_nat (String.length s) + n) r) /\
    n < 16 ^ N.of_nat (String.length s) /\ (n = 0 -> s = "0") /\ (n <> 0 -> 16 ^ N.of_nat (String.length s - 1) <= n)) as Base.
  { intros n acc f E. cbn [hex_loop]. rewrite E. simpl (0 =? 0). cbv iota.
    assert (n < 16) as L by (apply N.div_small_iff; auto; discriminate). rewrite N.mod_small by auto.
    exists (String (hexdigit n) ""). cbn [String.length append all_hex numeral_from]. rewrite hexdigit_of by auto.
    change (N.of_nat 1) with 1. change (N.of_nat (1 - 1)) with 0. rewrite N.pow_1_r, N.pow_0_r. repeat split; auto; try discriminate.
    - intros v r. f_equal. lia.
    - intros ->. reflexivity.
    - intros Z. lia. }
  induction fuel as [|fuel IH]; intros n acc H.
  - apply Base. assert (n = 0) as -> by (simpl in H; lia). reflexivity.
  - destruct (N.eq_dec (n / 16) 0) as [E|E]; [apply (Base n acc (S fuel) E)|].
    cbn [hex_loop]. destruct (N.eqb_spec (n / 16) 0) as [E'|_]; [congruence|].
    destruct (IH (n / 16) (String (hexdigit (n mod 16)) acc)) as (s & Es & Ne & Ah & Nu & Lt & _ & Ge).
    { apply N.div_lt_upper_bound; [discriminate|]. rewrite Nnat.Nat2N.inj_succ, N.pow_succ_r' in H. lia. }
    cbn [hex_loop] in Es. rewrite Es.
    assert (n mod 16 < 16) as Lm by (apply N.mod_lt; discriminate).
    assert (n = 16 * (n / 16) + n mod 16) as Dn by (apply N.div_mod; discriminate).
    exists (s ++ String (hexdigit (n mod 16)) ""). rewrite app_assoc_s. cbn [append]. split; [auto|].
    split; [destruct s; discriminate|]. rewrite all_hex_app, Ah. cbn [all_hex]. rewrite hexdigit_of by auto. split; [reflexivity|].
    rewrite app_length. cbn [String.length]. replace (String.length s + 1)%nat with (S (String.length s)) by lia.
    rewrite Nnat.Nat2N.inj_succ, N.pow_succ_r'. split; [|split; [|split]].
    + intros v r. rewrite app_assoc_s. cbn [append]. rewrite Nu. cbn [numeral_from]. rewrite hexdigit_of by auto. f_equal.
      transitivity (v * (16 * 16 ^ N.of_nat (String.length s)) + (16 * (n / 16) + n mod 16)); [ring|now rewrite <- Dn].
    + lia.
    + intros ->. exfalso. apply E. reflexivity.
    + intros _. specialize (Ge E). destruct (String.length s) as [|k] eqn:El; [destruct s; [congruence|discriminate]|].
      replace (S (S k) - 1)%nat with (S k) by lia. replace (S k - 1)%nat with k in Ge by lia.
      rewrite Nnat.Nat2N.inj_succ, N.pow_succ_r'. apply N.le_trans with (16 * (n / 16)); [apply N.mul_le_mono_l; exact Ge|]. apply N.mul_div_le. discriminate.
Qed.

Lemma size_bound n : n < 2 ^ N.of_nat (N.size_nat n).
Proof.
  destruct n as [|p]; [reflexivity|]. simpl N.size_nat. induction p; cbn [Pos.size_nat]; rewrite ?Nnat.Nat2N.inj_succ, ?N.pow_succ_r'; try lia; reflexivity.
Qed.

Lemma hex_spec n : hex n <> "" /\ all_hex (hex n) = true /\ numeral (hex n) = Some n /\
  n < 16 ^ N.of_nat (String.length (hex n)) /\ (n = 0 -> hex n = "0") /\ (n <> 0 -> 16 ^ N.of_nat (String.length (hex n) - 1) <= n).
Proof.
  destruct (hex_loop_spec _ n "" (size_bound n)) as (s & E & Ne & Ah & Nu & A & B & C). unfold hex. rewrite E.
  assert (forall a : string, a ++ "" = a) as Er by (induction a; simpl; congruence). rewrite Er.
  specialize (Nu 0 ""). rewrite Er in Nu. simpl in Nu. repeat split; auto. destruct s; [congruence|]. exact Nu.
Qed.

Lemma hex_length n k : n < 16 ^ N.of_nat k -> (0 < k)%nat -> (0 < String.length (hex n) <= k)%nat.
Proof.
  intros H K. destruct (hex_spec n) as (Ne & _ & _ & _ & Z & G). split; [destruct (hex n); [congruence|simpl; lia]|].
  destruct (N.eq_dec n 0) as [E|E]; [rewrite (Z E); simpl; lia|]. specialize (G E).
  assert (16 ^ N.of_nat (String.length (hex n) - 1) < 16 ^ N.of_nat k) as L by lia. apply N.pow_lt_mono_r_iff in L; [|lia]. lia.
Qed.

Lemma hex_exact n k : 16 ^ N.of_nat k <= n -> n < 16 ^ N.of_nat (S k) -> String.length (hex n) = S k.
Proof.
  intros L H. destruct (hex_spec n) as (_ & _ & _ & G & _). pose proof (hex_length n (S k) H ltac:(lia)) as B.
  assert (16 ^ N.of_nat k < 16 ^ N.of_nat (String.length (hex n))) as M by lia. apply N.pow_lt_mono_r_iff in M; [|lia]. lia.
Qed.

Lemma version_bits n : N.lor (N.land n 0x0fff) 0x4000 = 0x4000 + n mod 0x1000.
Proof.
  change 0xfff with (N.ones 12). rewrite N.land_ones. change 0x1000 with (2 ^ 12). rewrite N.lor_comm.
  assert (N.land 0x4000 (n mod 2 ^ 12) = 0) as Z.
  { apply N.bits_inj. intros i. rewrite N.land_spec, N.bits_0. destruct (N.lt_ge_cases i 12) as [L|L].
    - change 0x4000 with (2 ^ 14). rewrite N.pow2_bits_false by lia. reflexivity.
    - rewrite N.mod_pow2_bits_high by auto. apply andb_false_r. }
  rewrite N.add_nocarry_lxor by auto. symmetry. now apply N.lxor_lor.
Qed.

(** Prefixes of a string that is short enough. *)
Lemma substring_all s n : (String.length s <= n)%nat -> substring 0 n s = s.
Proof. revert n. induction s as [|c s IH]; intros [|n] H; simpl in *; auto; try lia. rewrite IH; auto. lia. Qed.

(** Splitting at the first dash. *)
Lemma dash_split a b c d : all_hex a = true -> all_hex c = true -> a ++ String "-" b = c ++ String "-" d -> a = c /\ b = d.
Proof.
  revert c. induction a as [|x a IH]; intros [|y c] Ha Hc E; simpl in *.
  - now injection E as <-.
  - injection E as <- E. discriminate Hc.
  - injection E as -> E. discriminate Ha.
  - injection E as <- E. destruct (digit_of x); [|discriminate]. destruct (IH c Ha Hc E) as (-> & ->). auto.
Qed.

Ltac words_bounds H := destruct H as ((? & ?) & (? & ?) & (? & ?) & (? & ?) & (? & ?) & (? & ?) & (? & ?) & (? & ?)).

Lemma hex8 n : word_ok n -> (1 <= String.length (hex n) <= 8)%nat.
Proof. intros (A & B). pose proof (hex_length n 8 ltac:(change (16 ^ N.of_nat 8) with (2 ^ 32); auto) ltac:(lia)). lia. Qed.

(** The five groups of an id. *)
Definition group1 w := hex (w1 w) ++ hex (w2 w).
Definition group2 w := hex (w3 w).
Definition group3 w := hex (0x4000 + w4 w mod 0x1000).
Definition group4 w := hex (0x8000 + w5 w mod 0x3fff).
Definition group5 w := hex (w6 w) ++ hex (w7 w) ++ hex (w8 w).

Lemma text_groups w : uuid_text w = group1 w ++ "-" ++ group2 w ++ "-" ++ group3 w ++ "-" ++ group4 w ++ "-" ++ group5 w.
Proof. unfold uuid_text, group1, group2, group3, group4, group5. rewrite version_bits, !app_assoc_s, (N.add_comm 0x8000). reflexivity. Qed.

Lemma group_lengths w : words_ok w ->
  (2 <= String.length (group1 w) <= 16)%nat /\ (1 <= String.length (group2 w) <= 8)%nat /\ String.length (group3 w) = 4%nat /\
  String.length (group4 w) = 4%nat /\ (3 <= String.length (group5 w) <= 24)%nat.
Proof.
  intros (H1 & H2 & H3 & H4 & H5 & H6 & H7 & H8). unfold group1, group2, group5. rewrite !app_length.
  pose proof (hex8 _ H1). pose proof (hex8 _ H2). pose proof (hex8 _ H3). pose proof (hex8 _ H6). pose proof (hex8 _ H7). pose proof (hex8 _ H8).
  assert (w4 w mod 0x1000 < 0x1000) by (apply N.mod_lt; discriminate). assert (w5 w mod 0x3fff < 0x3fff) by (apply N.mod_lt; discriminate).
  repeat split; try lia; unfold group3, group4; (remember (w4 w mod 0x1000) as r eqn:Er in *; remember (w5 w mod 0x3fff) as r5 eqn:Er5 in *; apply hex_exact; [change (16 ^ N.of_nat 3) with 0x1000|change (16 ^ N.of_nat 4) with 0x10000]; lia).
Qed.

Lemma all_hex_hex n : all_hex (hex n) = true.
Proof. apply hex_spec. Qed.
Lemma numeral_hex n : numeral (hex n) = Some n.
Proof. apply hex_spec. Qed.
Lemma group_hex w : all_hex (group1 w) = true /\ all_hex (group2 w) = true /\ all_hex (group3 w) = true /\ all_hex (group4 w) = true /\ all_hex (group5 w) = true.
Proof. unfold group1, group2, group3, group4, group5. rewrite !all_hex_app, !all_hex_hex. repeat split. Qed.

Lemma text_length w : words_ok w -> (18 <= String.length (uuid_text w) <= 60)%nat.
Proof. intros H. destruct (group_lengths w H) as (A & B & C & D & E). rewrite text_groups, !app_length. simpl. lia. Qed.

(** * C40 *)

(** Every id has the five groups, is between 18 and 60 characters long, and is not truncated. *)
Theorem C40_shape : forall w, words_ok w ->
  exists g1 g2 g3 g4 g5, uuid_string (create_uuid w) = g1 ++ "-" ++ g2 ++ "-" ++ g3 ++ "-" ++ g4 ++ "-" ++ g5 /\
    all_hex g1 = true /\ all_hex g2 = true /\ all_hex g3 = true /\ all_hex g4 = true /\ all_hex g5 = true /\
    (2 <= String.length g1 <= 16)%nat /\ (1 <= String.length g2 <= 8)%nat /\ (3 <= String.length g5 <= 24)%nat /\
    numeral g2 = Some (w3 w) /\
    (String.length g3 = 4%nat /\ exists x, String "4" x = g3) /\
    (String.length g4 = 4%nat /\ exists v, numeral g4 = Some v /\ 0x8000 <= v <= 0xbffe).
Proof.
  intros w H. destruct (group_lengths w H) as (A & B & C & D & E). destruct (group_hex w) as (A' & B' & C' & D' & E').
  exists (group1 w), (group2 w), (group3 w), (group4 w), (group5 w).
  split; [unfold uuid_string, create_uuid; simpl u_content; rewrite substring_all by (pose proof (text_length w H); lia); apply text_groups|].
  repeat match goal with |- _ /\ _ => split; [assumption || apply numeral_hex|] end; split.
  - split; auto. assert (w4 w mod 0x1000 < 0x1000) as L by (apply N.mod_lt; discriminate).
    pose proof (numeral_hex (0x4000 + w4 w mod 0x1000)) as Nu. unfold group3 in *. remember (w4 w mod 0x1000) as r eqn:Er in *.
    destruct (hex (0x4000 + r)) as [|c0 [|c1 [|c2 [|c3 [|]]]]]; try discriminate. cbn [numeral numeral_from] in Nu.
    destruct (digit_of c0) as [d0|] eqn:E0; [|discriminate]. destruct (digit_of c1) as [d1|] eqn:E1; [|discriminate].
    destruct (digit_of c2) as [d2|] eqn:E2; [|discriminate]. destruct (digit_of c3) as [d3|] eqn:E3; [|discriminate].
    assert (forall c d, digit_of c = Some d -> d < 16) as Lt.
    { clear. intros c d. unfold digit_of. destruct (N.leb_spec 48 (N_of_ascii c)), (N.leb_spec (N_of_ascii c) 57), (N.leb_spec 97 (N_of_ascii c)), (N.leb_spec (N_of_ascii c) 102);
        simpl; intros E; try discriminate; injection E as <-; lia. }
    apply Lt in E1 as L1. apply Lt in E2 as L2. apply Lt in E3 as L3. clear Lt.
    assert (16 * (16 * (16 * (16 * 0 + d0) + d1) + d2) + d3 = 16384 + r) as Nu' by congruence. clear Nu. rename Nu' into Nu.
    assert (d0 = 4) as -> by (clear - Nu L L1 L2 L3; lia).
    assert (c0 = "4"%char) as ->; [|eauto].
    clear - E0. destruct c0 as [[] [] [] [] [] [] [] []]; vm_compute in E0; congruence.
  - split; auto. exists (0x8000 + w5 w mod 0x3fff). split; [apply numeral_hex|].
    assert (w5 w mod 0x3fff < 0x3fff) by (apply N.mod_lt; discriminate). remember (w5 w mod 0x3fff) as r eqn:Er in *. lia.
Qed.
Print Assumptions C40_shape.

Theorem C40_length : forall w, words_ok w ->
  (18 <= String.length (uuid_string (create_uuid w)) <= 60)%nat /\ uuid_string (create_uuid w) = uuid_text w.
Proof.
  intros w H. pose proof (text_length w H). unfold uuid_string, create_uuid. simpl u_content. rewrite substring_all by lia. auto.
Qed.
Print Assumptions C40_length.

(** Whatever the words: the text fits, with its NUL, into the buffer of 128 bytes, and is cut only if it has to be. *)
Theorem C40_buffer : forall w, (String.length (uuid_string (create_uuid w)) < 128)%nat /\ ((String.length (uuid_text w) < 128)%nat -> uuid_string (create_uuid w) = uuid_text w).
Proof.
  intros w. unfold uuid_string, create_uuid. cbn [u_content]. split.
  - assert (forall s n, (String.length (substring 0 n s) <= n)%nat) as K.
    { induction s as [|c s IH]; intros [|n]; simpl; try lia. specialize (IH n). lia. }
    specialize (K (uuid_text w) 127%nat). lia.
  - intros H. apply substring_all. lia.
Qed.
Print Assumptions C40_buffer.

(** Exactly when two ids are equal: the words 3 are; words 4 agree in twelve bits; words 5 agree
    modulo 0x3fff; and the numerals of words 1-2 and 6-8 join to the same text. *)
Theorem C40_equal : forall w w', words_ok w -> words_ok w' ->
  (uuid_eq (create_uuid w) (create_uuid w') = true <->
   hex (w1 w) ++ hex (w2 w) = hex (w1 w') ++ hex (w2 w') /\ w3 w = w3 w' /\ w4 w mod 0x1000 = w4 w' mod 0x1000 /\
   w5 w mod 0x3fff = w5 w' mod 0x3fff /\ hex (w6 w) ++ hex (w7 w) ++ hex (w8 w) = hex (w6 w') ++ hex (w7 w') ++ hex (w8 w')).
Proof.
  intros w w' H H'. destruct (C40_length w H) as (_ & E). destruct (C40_length w' H') as (_ & E'). unfold uuid_string in *.
  unfold uuid_eq. rewrite E, E'. simpl. rewrite String.eqb_eq, !text_groups.
  assert (forall a b, hex a = hex b -> a = b) as Inj.
  { intros a b Eq. pose proof (numeral_hex a) as A. rewrite Eq, numeral_hex in A. congruence. }
  destruct (group_hex w) as (A1 & A2 & A3 & A4 & _). destruct (group_hex w') as (B1 & B2 & B3 & B4 & _). split.
  - simpl. intros Eq. apply dash_split in Eq as (E1 & Eq); auto. apply dash_split in Eq as (E2 & Eq); auto.
    apply dash_split in Eq as (E3 & Eq); auto. apply dash_split in Eq as (E4 & E5); auto.
    unfold group2, group3, group4 in *. apply Inj in E2, E3, E4. repeat split; auto; lia.
  - unfold group1, group2, group3, group4, group5. intros (-> & -> & -> & -> & ->). reflexivity.
Qed.
Print Assumptions C40_equal.

(** So different words can give the same id, even when words 3, 4 and 5 are the same. *)
Theorem C40_not_injective : exists w w', words_ok w /\ words_ok w' /\ w1 w <> w1 w' /\ w2 w <> w2 w' /\
  uuid_eq (create_uuid w) (create_uuid w') = true.
Proof.
  exists (mkWords 0x1 0x11 1 1 1 1 1 1), (mkWords 0x11 0x1 1 1 1 1 1 1).
  unfold words_ok, word_ok. simpl. repeat split; try lia; try discriminate.
Qed.
Print Assumptions C40_not_injective.

Example C40_case : words_ok (mkWords 0xdeadbeef 7 0x10 0xffffffff 0xffffffff 1 2 3) /\
  uuid_string (create_uuid (mkWords 0xdeadbeef 7 0x10 0xffffffff 0xffffffff 1 2 3)) = "deadbeef7-10-4fff-800f-123".
Proof. split; [unfold words_ok, word_ok; simpl; repeat split; lia|vm_compute; reflexivity]. Qed.

(** Equality of all ids: the default id equals only itself, and equality is an equivalence. *)
Theorem C40_default : forall w, 
  uuid_eq uuid_new uuid_new = true /\ uuid_eq uuid_new (create_uuid w) = false /\ uuid_eq (create_uuid w) uuid_new = false.
Proof. intros w. auto. Qed.
Print Assumptions C40_default.

Theorem C40_equivalence : forall a b c,
  uuid_eq a a = true /\ uuid_eq a b = uuid_eq b a /\ (uuid_eq a b = true -> uuid_eq b c = true -> uuid_eq a c = true).
Proof.
  intros [[] a] [[] b] [[] c]; unfold uuid_eq; cbn [u_empty u_content negb andb orb]; rewrite ?String.eqb_refl;
    (repeat split; auto; try discriminate); try apply String.eqb_sym;
    intros E F; apply String.eqb_eq in E, F; subst; apply String.eqb_refl.
Qed.
Print Assumptions C40_equivalence.

(** * C70 *)

Lemma seeds_bound n l : NoDup l -> Forall (fun s => s < n) l -> N.of_nat (length l) <= n.
Proof.
  intros D F. set (all := map N.of_nat (seq 0 (N.to_nat n))).
  assert (L : length all = N.to_nat n) by (unfold all; now rewrite map_length, seq_length).
  assert (I : incl l all).
  { intros s Hs. rewrite Forall_forall in F. apply F in Hs. unfold all. apply in_map_iff. exists (N.to_nat s).
    split; [apply N2Nat.id|]. apply in_seq. lia. }
  pose proof (NoDup_incl_length D I) as Q. rewrite L in Q. lia.
Qed.

(** [gen] is whatever the generator makes of a seed (Uuid.h:31-42). Among more than 2^32 ids two are equal. *)
Theorem C70_repeats : forall (gen : N -> words) seeds,
  Forall (fun s => s < 2 ^ 32) seeds -> 2 ^ 32 < N.of_nat (length seeds) ->
  exists i j s t, (i < j)%nat /\ nth_error seeds i = Some s /\ nth_error seeds j = Some t /\
    uuid_eq (create_uuid (gen s)) (create_uuid (gen t)) = true.
Proof.
  intros gen seeds F L.
  assert (K : forall l, ~ NoDup l -> exists i j (s : N), (i < j)%nat /\ nth_error l i = Some s /\ nth_error l j = Some s).
  { induction l as [|x l IH]; intros H; [exfalso; apply H; constructor|].
    destruct (in_dec N.eq_dec x l) as [Hi|Hi].
    - apply In_nth_error in Hi. destruct Hi as (j & Hj). exists 0%nat, (S j), x. split; [lia|]. auto.
    - destruct IH as (i & j & s & A & B & C).
      + intros D. apply H. now constructor.
      + exists (S i), (S j), s. split; [lia|]. auto. }
  destruct (K seeds) as (i & j & s & A & B & C).
  - intros D. apply N.lt_nge in L. apply L. exact (seeds_bound _ _ D F).
  - exists i, j, s, s. split; auto. split; auto. split; auto. apply C40_equivalence; exact (create_uuid (gen s)).
Qed.
Print Assumptions C70_repeats.

Example C70_case : exists seeds, Forall (fun s => s < 2 ^ 32) seeds /\ 2 ^ 32 < N.of_nat (length seeds).
Proof.
  assert (K : forall n, 7 < n -> exists seeds, Forall (fun s => s < n) seeds /\ n < N.of_nat (length seeds)).
  { intros n Hn. exists (repeat 7 (S (N.to_nat n))). rewrite repeat_length. split; [|lia].
    apply Forall_forall. intros s Hs. apply repeat_spec in Hs. now subst. }
  apply K. reflexivity.
Qed.

(** Lemmas about the bytes that are written for a message. *)
From Coq Require Import String Ascii List Arith ZArith NArith Bool Lia.
From Verif Require Import Prelude OMap DatagramModel DatagramSpec DatagramProofs SerialModel SerialSpec SerialProofs WireModel WireSpec WireProofs.
Import ListNotations.
Open Scope list_scope.
Open Scope Z_scope.

Lemma size_app a b : size (a ++ b) = size a + size b.
Proof. unfold size. rewrite app_length. lia. Qed.
Lemma size_pos a : 0 <= size a.
Proof. unfold size. lia. Qed.

(** ** Numbers *)

Lemma le_length n v : length (le_bytes n v) = n.
Proof. revert v. induction n as [|n IH]; intros v; simpl; auto. Qed.
Lemma le_size n v : size (le_bytes n v) = Z.of_nat n.
Proof. unfold size. now rewrite le_length. Qed.

Lemma base_le n : forall v, base256 (le_bytes n v) = v mod 256 ^ Z.of_nat n.
Proof.
  induction n as [|n IH]; intros v.
  - simpl. rewrite Z.mod_1_r. reflexivity.
  - change (le_bytes (S n) v) with (ascii_of_N (Z.to_N (v mod 256)) :: le_bytes n (v / 256)).
    change (base256 (ascii_of_N (Z.to_N (v mod 256)) :: le_bytes n (v / 256))) with
      (Z.of_N (N_of_ascii (ascii_of_N (Z.to_N (v mod 256)))) + 256 * base256 (le_bytes n (v / 256))).
    rewrite IH. pose proof (Z.mod_pos_bound v 256 ltac:(lia)) as B.
    rewrite N_ascii_embedding by lia. rewrite Z2N.id by lia.
    rewrite Nat2Z.inj_succ, Z.pow_succ_r by lia.
    rewrite Z.rem_mul_r by (try lia; apply Z.pow_pos_nonneg; lia). lia.
Qed.

Lemma base_small n v : 0 <= v < 256 ^ Z.of_nat n -> base256 (le_bytes n v) = v.
Proof. intros H. rewrite base_le. apply Z.mod_small. auto. Qed.

Lemma twos_mod v : - 2 ^ 31 <= v < 2 ^ 31 -> twos 32 (v mod 256 ^ 4) = v.
Proof.
  intros H. unfold twos. change (32 - 1) with 31. change (256 ^ 4) with (2 ^ 32) in *.
  destruct (Z.leb_spec 0 v).
  - rewrite Z.mod_small by lia. destruct (Z.ltb_spec v (2 ^ 31)); lia.
  - replace (v mod 2 ^ 32) with (v + 2 ^ 32).
    + destruct (Z.ltb_spec (v + 2 ^ 32) (2 ^ 31)); lia.
    + apply (Z.mod_unique_pos v (2 ^ 32) (-1) (v + 2 ^ 32)); lia.
Qed.

(** ** Pieces *)

Lemma piece_mid b p x l y : piece b p (x ++ l ++ y) -> piece b (p + size x) l.
Proof.
  intros (u & w & -> & <-). exists (u ++ x), (y ++ w). rewrite app_length. unfold size. split; [|lia].
  rewrite <- !app_assoc. reflexivity.
Qed.
Lemma piece_left b p l y : piece b p (l ++ y) -> piece b p l.
Proof. intros H. replace p with (p + size []) by (unfold size; simpl; lia). apply (piece_mid b p [] l y). exact H. Qed.
Lemma piece_right b p x l : piece b p (x ++ l) -> piece b (p + size x) l.
Proof. intros H. apply (piece_mid b p x l []). now rewrite app_nil_r. Qed.
Lemma piece_ext x b p l : piece b p l -> piece (x ++ b) (size x + p) l.
Proof.
  intros (u & w & -> & <-). exists (x ++ u), w. rewrite app_length. unfold size. split; [|lia]. now rewrite <- app_assoc.
Qed.
Lemma piece_head l b : piece (l ++ b) 0 l.
Proof. exists [], b. auto. Qed.

(** [l] lies at distance [o] from the end of [b]. *)
Definition from_end (b : list ascii) (o : Z) (l : list ascii) : Prop := piece b (size b - o) l.

Lemma from_end_ext x b o l : from_end b o l -> from_end (x ++ b) o l.
Proof. unfold from_end. intros H. rewrite size_app. replace (size x + size b - o) with (size x + (size b - o)) by lia. now apply piece_ext. Qed.
Lemma from_end_head l b : from_end (l ++ b) (size l + size b) l.
Proof. unfold from_end. rewrite size_app, Z.sub_diag. apply piece_head. Qed.
Lemma from_end_top l b o : o = size l + size b -> from_end (l ++ b) o l.
Proof. intros ->. apply from_end_head. Qed.
Lemma from_end_le n v b o : o = Z.of_nat n + size b -> from_end (le_bytes n v ++ b) o (le_bytes n v).
Proof. intros ->. rewrite <- (le_size n v) at 1. apply from_end_head. Qed.
Lemma from_end_mid b o x l y : from_end b o (x ++ l ++ y) -> from_end b (o - size x) l.
Proof. unfold from_end. intros H. replace (size b - (o - size x)) with (size b - o + size x) by lia. eapply piece_mid; eauto. Qed.
Lemma from_end_left b o l y : from_end b o (l ++ y) -> from_end b o l.
Proof. apply piece_left. Qed.
Lemma from_end_right b o x l : from_end b o (x ++ l) -> from_end b (o - size x) l.
Proof. intros H. apply (from_end_mid b o x l []). now rewrite app_nil_r. Qed.

Lemma from_end_num b o n v : from_end b o (le_bytes n v) -> num b (size b - o) n (v mod 256 ^ Z.of_nat n).
Proof. intros H. exists (le_bytes n v). rewrite le_length, base_le. auto. Qed.
Lemma from_end_small b o n v : from_end b o (le_bytes n v) -> 0 <= v < 256 ^ Z.of_nat n -> num b (size b - o) n v.
Proof. intros H K. apply from_end_num in H. now rewrite Z.mod_small in H. Qed.

(** ** Growing *)

Definition ext (s s' : builder) : Prop := exists x, bu_bytes s' = x ++ bu_bytes s.

Lemma ext_refl s : ext s s.
Proof. exists []. reflexivity. Qed.
Lemma ext_trans a b c : ext a b -> ext b c -> ext a c.
Proof. intros (x & E) (y & F). exists (y ++ x). now rewrite F, E, app_assoc. Qed.
Lemma ext_size s s' : ext s s' -> bu_size s <= bu_size s'.
Proof. intros (x & E). unfold bu_size. rewrite E, size_app. pose proof (size_pos x). lia. Qed.
Lemma ext_from_end s s' o l : ext s s' -> from_end (bu_bytes s) o l -> from_end (bu_bytes s') o l.
Proof. intros (x & E) H. rewrite E. now apply from_end_ext. Qed.
Lemma ext_put l s : ext s (put l s).
Proof. now exists l. Qed.
Lemma ext_align len a s : ext s (pre_align len a s).
Proof. now exists (repeat zero (Z.to_nat ((- (bu_size s + len)) mod a))). Qed.
Lemma ext_push n v s : ext s (push n v s).
Proof. eapply ext_trans; [apply ext_align|apply ext_put]. Qed.
Lemma ext_push_offset o s : ext s (push_offset o s).
Proof. eapply ext_trans; [apply ext_align|apply ext_push]. Qed.

Lemma size_put l s : bu_size (put l s) = size l + bu_size s.
Proof. apply size_app. Qed.
Lemma size_align len a s : 0 < a -> bu_size (pre_align len a s) = (- (bu_size s + len)) mod a + bu_size s.
Proof.
  intros H. unfold pre_align, bu_size at 1. cbn [bu_bytes]. rewrite size_app. f_equal. unfold size. rewrite repeat_length.
  pose proof (Z.mod_pos_bound (- (bu_size s + len)) a H). lia.
Qed.
Lemma size_push n v s : (0 < n)%nat -> bu_size (push n v s) = Z.of_nat n + ((- bu_size s) mod Z.of_nat n + bu_size s).
Proof. intros H. unfold push. rewrite size_put, le_size, size_align by lia. do 3 f_equal. lia. Qed.

Lemma align_divides len a s : 0 < a -> (bu_size (pre_align len a s) + len) mod a = 0.
Proof.
  intros H. rewrite size_align by auto. set (k := bu_size s + len).
  replace ((- k) mod a + bu_size s + len) with ((- k) mod a + k) by (unfold k; lia).
  rewrite Zplus_mod_idemp_l. replace (- k + k) with 0 by lia. apply Z.mod_0_l. lia.
Qed.
Lemma mod4 v : v mod 4 = 0 -> (- v) mod 4 = 0.
Proof. intros H. rewrite Z.mod_opp_l_z; lia. Qed.
Lemma push4_size v s : bu_size s mod 4 = 0 -> bu_size (push 4 v s) = bu_size s + 4.
Proof. intros H. rewrite size_push by lia. change (Z.of_nat 4) with 4. rewrite mod4 by auto. lia. Qed.
Lemma push4_bytes v s : bu_size s mod 4 = 0 -> bu_bytes (push 4 v s) = le_bytes 4 v ++ bu_bytes s.
Proof.
  intros H. unfold push, put, pre_align. cbn [bu_bytes]. change (Z.of_nat 4) with 4. rewrite Z.add_0_r, mod4 by auto. reflexivity.
Qed.

Lemma push_here n v s : (0 < n)%nat -> from_end (bu_bytes (push n v s)) (bu_size (push n v s)) (le_bytes n v).
Proof. intros H. unfold push. rewrite size_put. apply from_end_head. Qed.

Lemma push_offset_size o s : bu_size (push_offset o s) = bu_size (pre_align 0 4 s) + 4.
Proof. unfold push_offset. apply push4_size. pose proof (align_divides 0 4 s ltac:(lia)) as H. now rewrite Z.add_0_r in H. Qed.
Lemma push_offset_here o s :
  from_end (bu_bytes (push_offset o s)) (bu_size (push_offset o s)) (le_bytes 4 (bu_size (push_offset o s) - o)).
Proof.
  rewrite push_offset_size at 2. unfold push_offset. replace (bu_size (pre_align 0 4 s) + 4 - o) with (bu_size (pre_align 0 4 s) - o + 4) by lia.
  apply push_here. lia.
Qed.

Definition vts_ok (s : builder) : Prop := Forall (fun v => 0 <= v <= bu_size s) (bu_vtables s).
Lemma vts_ext s s' : ext s s' -> bu_vtables s' = bu_vtables s -> vts_ok s -> vts_ok s'.
Proof.
  intros E V H. unfold vts_ok in *. rewrite V. apply ext_size in E. eapply Forall_impl; [|exact H]. simpl. intros; lia.
Qed.

(** ** Strings *)

Lemma length_ascii x : length (list_ascii_of_string x) = String.length x.
Proof. induction x; simpl; auto. Qed.

Lemma create_string_ok x s s' o : create_string x s = (s', o) ->
  ext s s' /\ bu_vtables s' = bu_vtables s /\ o = bu_size s' /\ bu_size s + 5 <= o /\
  forall y, size (y ++ bu_bytes s') < 2 ^ 31 -> text (y ++ bu_bytes s') (size (y ++ bu_bytes s') - o) x.
Proof.
  unfold create_string. intros H. cbn zeta in H. apply pair_equal_spec in H as [<- <-]. set (l := list_ascii_of_string x). set (s1 := pre_align (size l + 1) 4 s).
  assert (D : bu_size (put l (put [zero] s1)) mod 4 = 0).
  { rewrite !size_put. change (size [zero]) with 1. pose proof (align_divides (size l + 1) 4 s ltac:(lia)) as H. fold s1 in H.
    rewrite <- H at 1. f_equal. lia. }
  assert (X : ext s (put l (put [zero] s1))).
  { eapply ext_trans; [apply ext_align|]. eapply ext_trans; apply ext_put. }
  split; [eapply ext_trans; [exact X|apply ext_push]|]. split; [reflexivity|]. split; [reflexivity|]. split.
  { rewrite push4_size by auto. rewrite !size_put. change (size [zero]) with 1. pose proof (ext_size _ _ (ext_align (size l + 1) 4 s)) as K.
    fold s1 in K. pose proof (size_pos l). lia. }
  intros y Hy. rewrite push4_size by auto. rewrite push4_bytes in * by auto.
  assert (F : from_end (le_bytes 4 (size l) ++ bu_bytes (put l (put [zero] s1))) (bu_size (put l (put [zero] s1)) + 4)
                (le_bytes 4 (size l) ++ l)).
  { unfold put at 1. cbn [bu_bytes]. rewrite app_assoc. replace (bu_size (put l (put [zero] s1)) + 4)
      with (size (le_bytes 4 (size l) ++ l) + size (bu_bytes (put [zero] s1))).
    - apply from_end_head.
    - rewrite size_app, le_size, size_put. unfold bu_size. lia. }
  apply (from_end_ext y) in F. split.
  - replace (Z.of_nat (String.length x)) with (size l).
    + apply from_end_small; [eapply from_end_left; eauto|]. change (256 ^ Z.of_nat 4) with (2 ^ 32).
      rewrite !size_app, le_size in Hy. unfold put at 1 in Hy. cbn [bu_bytes] in Hy. rewrite size_app in Hy.
      pose proof (size_pos y). pose proof (size_pos l). pose proof (size_pos (bu_bytes (put [zero] s1))). lia.
    + unfold size, l. now rewrite length_ascii.
  - apply from_end_right in F. rewrite le_size in F. unfold from_end in F. fold l.
    match goal with H : piece _ ?p _ |- piece _ ?q _ => replace q with p by lia end. exact F.
Qed.

(** ** Vectors *)

Lemma push_offset4 o s : bu_size s mod 4 = 0 ->
  bu_size (push_offset o s) = bu_size s + 4 /\ bu_size (push_offset o s) mod 4 = 0.
Proof.
  intros H. rewrite push_offset_size. rewrite size_align by lia. rewrite Z.add_0_r, mod4 by auto.
  split; [lia|]. replace (0 + bu_size s + 4) with (bu_size s + 1 * 4) by lia. now rewrite Z.mod_add by lia.
Qed.

Lemma push_all_ok os s : bu_size s mod 4 = 0 ->
  let s' := fold_right push_offset s os in
  ext s s' /\ bu_vtables s' = bu_vtables s /\ bu_size s' = bu_size s + 4 * Z.of_nat (length os) /\ bu_size s' mod 4 = 0 /\
  forall i o, nth_error os i = Some o ->
    from_end (bu_bytes s') (bu_size s' - 4 * Z.of_nat i) (le_bytes 4 (bu_size s' - 4 * Z.of_nat i - o)).
Proof.
  intros D. induction os as [|o os IH]; cbn [fold_right length].
  - split; [apply ext_refl|]. split; [reflexivity|]. split; [simpl; lia|]. split; [auto|]. intros [|i] o; discriminate.
  - destruct IH as (X & V & SZ & M & G). set (s1 := fold_right push_offset s os) in *.
    destruct (push_offset4 o s1 M) as (S1 & M1). cbn zeta. split; [eapply ext_trans; [exact X|apply ext_push_offset]|]. split; [exact V|].
    split; [rewrite S1, SZ; lia|]. split; [exact M1|]. intros [|i] q; simpl nth_error.
    + intros [= <-]. rewrite Z.mul_0_r, Z.sub_0_r. apply push_offset_here.
    + intros N. replace (bu_size (push_offset o s1) - 4 * Z.of_nat (S i)) with (bu_size s1 - 4 * Z.of_nat i) by (rewrite S1; lia).
      eapply ext_from_end; [apply ext_push_offset|]. auto.
Qed.

Lemma create_vector_ok os s s' o : create_vector os s = (s', o) -> Forall (fun q => 0 < q <= bu_size s) os ->
  ext s s' /\ bu_vtables s' = bu_vtables s /\ o = bu_size s' /\ bu_size s + 4 <= o /\
  forall y, size (y ++ bu_bytes s') < 2 ^ 31 ->
    num (y ++ bu_bytes s') (size (y ++ bu_bytes s') - o) 4 (Z.of_nat (length os)) /\
    entries (y ++ bu_bytes s') (size (y ++ bu_bytes s') - o) (Z.of_nat (length os)) (map (fun q => size (y ++ bu_bytes s') - q) os).
Proof.
  unfold create_vector. intros H Ho. set (n := Z.of_nat (length os)) in *. cbn zeta in H. apply pair_equal_spec in H as [<- <-].
  set (s1 := pre_align (4 * n) 4 (pre_align (4 * n) 4 s)).
  assert (X1 : ext s s1) by (eapply ext_trans; apply ext_align).
  assert (D : bu_size s1 mod 4 = 0).
  { pose proof (align_divides (4 * n) 4 (pre_align (4 * n) 4 s) ltac:(lia)) as H. fold s1 in H.
    rewrite (Z.mul_comm 4 n), Z.mod_add in H by lia. exact H. }
  destruct (push_all_ok os s1 D) as (X & V & SZ & M & G). set (s2 := fold_right push_offset s1 os) in *. fold n in SZ.
  change (fold_right push_offset (pre_align (4 * n) 4 (pre_align (4 * n) 4 s)) os) with s2.
  split; [eapply ext_trans; [exact X1|]; eapply ext_trans; [exact X|apply ext_push]|]. split; [exact V|]. split; [reflexivity|].
  split; [rewrite push4_size by auto; pose proof (ext_size _ _ X1); pose proof (ext_size _ _ X); lia|].
  intros y Hy. pose proof (push_here 4 n s2 ltac:(lia)) as F. apply (from_end_ext y) in F.
  assert (Z1 : bu_size s2 + 4 <= size (y ++ bu_bytes (push 4 n s2))).
  { rewrite size_app. pose proof (size_pos y). pose proof (push4_size n s2 M) as K. unfold bu_size at 1 in K. lia. }
  assert (Z0 : 0 <= bu_size s1) by apply size_pos.
  split.
  - apply from_end_small; auto. change (256 ^ Z.of_nat 4) with (2 ^ 32). unfold n in *. lia.
  - split; [now rewrite map_length|]. intros i q Hq. apply nth_error_In in Hq as Hin. rewrite nth_error_map in Hq.
    destruct (nth_error os i) as [q0|] eqn:N; [|discriminate]. apply (f_equal (fun o => match o with Some z => z | None => 0 end)) in Hq. cbn [option_map] in Hq. subst q.
    exists (bu_size s2 - 4 * Z.of_nat i - q0).
    assert (Hi : (i < length os)%nat) by (apply nth_error_Some; congruence).
    assert (Hq0 : 0 < q0 <= bu_size s) by (rewrite Forall_forall in Ho; apply Ho; eapply nth_error_In; eauto).
    pose proof (ext_size _ _ X1) as L1.
    assert (P : size (y ++ bu_bytes (push 4 n s2)) - bu_size (push 4 n s2) + 4 + 4 * Z.of_nat i
                = size (y ++ bu_bytes (push 4 n s2)) - (bu_size s2 - 4 * Z.of_nat i)) by (rewrite (push4_size n s2 M); lia).
    split.
    + rewrite P. apply from_end_small.
      * apply from_end_ext. eapply ext_from_end; [apply ext_push|]. apply G. exact N.
      * change (256 ^ Z.of_nat 4) with (2 ^ 32). unfold n in *. lia.
    + rewrite P. lia.
Qed.

(** ** Tables *)

Definition growth (p q : partial) : Prop :=
  ext (fst p) (fst q) /\ bu_vtables (fst q) = bu_vtables (fst p) /\ bu_size (fst q) <= bu_size (fst p) + 16.

Lemma mod_small_bound v n : (0 < n <= 8)%nat -> 0 <= v mod Z.of_nat n <= 7.
Proof. intros H. pose proof (Z.mod_pos_bound v (Z.of_nat n) ltac:(lia)). lia. Qed.

Lemma add_scalar_grows n id v d p : (0 < n <= 8)%nat -> growth p (add_scalar n id v d p).
Proof.
  intros Hn. unfold add_scalar. destruct d; [split; [apply ext_refl|split; [reflexivity|lia]]|].
  split; [apply ext_push|]. split; [reflexivity|]. cbn [fst]. rewrite size_push by lia.
  pose proof (mod_small_bound (- bu_size (fst p)) n Hn). lia.
Qed.
Lemma add_offset_grows id o p : growth p (add_offset id o p).
Proof.
  unfold add_offset. destruct o as [o|]; [|split; [apply ext_refl|split; [reflexivity|lia]]].
  split; [apply ext_push_offset|]. split; [reflexivity|]. cbn [fst]. rewrite push_offset_size, size_align by lia.
  pose proof (Z.mod_pos_bound (- (bu_size (fst p) + 0)) 4 ltac:(lia)). lia.
Qed.

(** The fields lie between [start] and the current end; their numbers are even. *)
Definition fields_ok (start : Z) (p : partial) : Prop :=
  Forall (fun f => start < snd f <= bu_size (fst p) /\ 4 <= fst f <= 20 /\ fst f mod 2 = 0) (snd p).

Lemma fields_grow start p q : growth p q -> fields_ok start p -> snd q = snd p -> fields_ok start q.
Proof.
  intros (X & _) H E. unfold fields_ok in *. rewrite E. apply ext_size in X. eapply Forall_impl; [|exact H]. simpl. intros; lia.
Qed.

Lemma add_scalar_fields n id v d p start : (0 < n <= 8)%nat -> 4 <= id <= 20 -> id mod 2 = 0 -> start <= bu_size (fst p) ->
  fields_ok start p -> fields_ok start (add_scalar n id v d p).
Proof.
  intros Hn Hid Hev Hs H. pose proof (add_scalar_grows n id v d p Hn) as (X & _). unfold add_scalar in *. destruct d; auto. cbn [fst] in X.
  constructor; cbn [fst snd].
  - rewrite size_push by lia. pose proof (mod_small_bound (- bu_size (fst p)) n Hn). split; [lia|auto].
  - apply ext_size in X. eapply Forall_impl; [|exact H]. simpl. intros; lia.
Qed.
Lemma add_offset_fields id o p start : 4 <= id <= 20 -> id mod 2 = 0 -> start <= bu_size (fst p) ->
  fields_ok start p -> fields_ok start (add_offset id o p).
Proof.
  intros Hid Hev Hs H. pose proof (add_offset_grows id o p) as (X & _). unfold add_offset in *. destruct o as [o|]; auto. cbn [fst] in X.
  constructor; cbn [fst snd].
  - rewrite push_offset_size. pose proof (ext_size _ _ (ext_align 0 4 (fst p))). split; [lia|auto].
  - apply ext_size in X. eapply Forall_impl; [|exact H]. simpl. intros; lia.
Qed.

Lemma find_scalar_other n id id' v d p : id' <> id -> find_field id (snd (add_scalar n id' v d p)) = find_field id (snd p).
Proof. intros H. unfold add_scalar. destruct d; auto. simpl. destruct (Z.eqb_spec id' id); congruence. Qed.
Lemma find_offset_other id id' o p : id' <> id -> find_field id (snd (add_offset id' o p)) = find_field id (snd p).
Proof. intros H. unfold add_offset. destruct o; auto. simpl. destruct (Z.eqb_spec id' id); congruence. Qed.

Lemma find_bound start p id off : fields_ok start p -> find_field id (snd p) = Some off ->
  start < off <= bu_size (fst p) /\ id <= vtable_size (snd p) - 2.
Proof.
  intros H. unfold vtable_size. set (m := fold_right (fun f m => Z.max (fst f) m) 0 (snd p)).
  enough (G : find_field id (snd p) = Some off -> start < off <= bu_size (fst p) /\ id <= m) by (intros E; destruct (G E); split; [auto|lia]).
  unfold fields_ok, m in *. induction H as [|[i x] l Hx H IH]; [discriminate|]. cbn [find_field fold_right fst snd] in *.
  destruct (Z.eqb_spec i id).
  - intros [= <-]. lia.
  - intros E. specialize (IH E). lia.
Qed.

Lemma vtable_size_ok start p : fields_ok start p -> 4 <= vtable_size (snd p) <= 22 /\ vtable_size (snd p) mod 2 = 0.
Proof.
  intros H. unfold vtable_size. set (m := fold_right (fun f m => Z.max (fst f) m) 0 (snd p)).
  assert (G : 0 <= m <= 20 /\ m mod 2 = 0).
  { unfold m, fields_ok in *. induction H as [|[i x] l Hx H IH]; [split; [simpl; lia|reflexivity]|]. cbn [fold_right fst snd] in *.
    destruct IH as (B & E), Hx as (_ & B' & E'). destruct (Z.max_spec i (fold_right (fun f m => Z.max (fst f) m) 0 l)) as [(_ & ->)|(_ & ->)]; auto. split; lia. }
  destruct G as (B & E). split; [lia|]. destruct (Z.max_spec (m + 2) 4) as [(_ & ->)|(_ & ->)]; [reflexivity|].
  replace (m + 2) with (m + 1 * 2) by lia. now rewrite Z.mod_add by lia.
Qed.

Lemma flat_le_length (g : nat -> Z) l : length (flat_map (fun i => le_bytes 2 (g i)) l) = (2 * length l)%nat.
Proof. induction l as [|x l IH]; [reflexivity|]. cbn [flat_map length]. rewrite app_length, le_length, IH. lia. Qed.

Lemma flat_le_at b p (g : nat -> Z) n i : piece b p (flat_map (fun i => le_bytes 2 (g i)) (seq 0 n)) -> (i < n)%nat ->
  piece b (p + 2 * Z.of_nat i) (le_bytes 2 (g i)).
Proof.
  intros H Hi. replace n with (i + S (n - i - 1))%nat in H by lia. rewrite seq_app, flat_map_app in H.
  apply piece_right in H. unfold size in H. rewrite flat_le_length, seq_length in H. cbn [seq flat_map plus] in H. apply piece_left in H.
  match goal with H : piece _ ?p _ |- piece _ ?q _ => replace q with p by lia end. exact H.
Qed.

Lemma vtable_length start loc p st : fields_ok st p -> size (vtable start loc (snd p)) = vtable_size (snd p).
Proof.
  intros H. destruct (vtable_size_ok _ _ H) as (B & E). unfold vtable, size. rewrite !app_length, !le_length, flat_le_length, seq_length.
  rewrite !Nat2Z.inj_add, Nat2Z.inj_mul. rewrite Z2Nat.id by (apply Z.div_pos; lia).
  rewrite (Z.div_mod (vtable_size (snd p)) 2) at 2 by lia. rewrite E.
  replace (vtable_size (snd p) - 4) with (vtable_size (snd p) + (-2) * 2) by lia. rewrite Z.div_add by lia. lia.
Qed.

(** A vtable somewhere gives the places of the fields. *)
Lemma vtable_reads b vt t start loc p id : fields_ok start p -> start <= bu_size (fst p) -> bu_size (fst p) < loc -> loc - start < 2 ^ 16 ->
  piece b vt (vtable start loc (snd p)) -> vtable_of b t vt -> 4 <= id <= 20 -> id mod 2 = 0 -> t = size b - loc ->
  slot b t id (match find_field id (snd p) with Some off => Some (size b - off) | None => None end).
Proof.
  intros H Hs Hl Hb P V Hid Hev ->. destruct (vtable_size_ok _ _ H) as (B & E). unfold vtable in P.
  assert (N0 : num b vt 2 (vtable_size (snd p))).
  { apply piece_left in P. exists (le_bytes 2 (vtable_size (snd p))). split; auto. split; [apply le_length|].
    rewrite base_small; auto. change (256 ^ Z.of_nat 2) with (2 ^ 16). lia. }
  destruct (Z.ltb_spec id (vtable_size (snd p))) as [L|L].
  - rewrite app_assoc in P. apply piece_right in P. rewrite size_app, !le_size in P. cbn [Z.of_nat] in P.
    set (g := fun i => match find_field (4 + 2 * Z.of_nat i) (snd p) with Some off => loc - off | None => 0 end).
    change (piece b (vt + (Z.of_nat 2 + Z.of_nat 2)) (flat_map (fun i => le_bytes 2 (g i)) (seq 0 (Z.to_nat ((vtable_size (snd p) - 4) / 2))))) in P.
    apply flat_le_at with (i := Z.to_nat ((id - 4) / 2)) in P.
    2:{ apply Z2Nat.inj_lt; try (apply Z.div_pos; lia).
        pose proof (Z.div_mod (vtable_size (snd p) - 4) 2 ltac:(lia)). pose proof (Z.div_mod (id - 4) 2 ltac:(lia)).
        replace (vtable_size (snd p) - 4) with (vtable_size (snd p) + (-2) * 2) in H0 at 3 by lia. rewrite Z.mod_add in H0 by lia.
        replace (id - 4) with (id + (-2) * 2) in H1 at 3 by lia. rewrite Z.mod_add in H1 by lia. lia. }
    assert (I : 4 + 2 * Z.of_nat (Z.to_nat ((id - 4) / 2)) = id).
    { rewrite Z2Nat.id by (apply Z.div_pos; lia). pose proof (Z.div_mod (id - 4) 2 ltac:(lia)) as D.
      replace (id - 4) with (id + (-2) * 2) in D at 3 by lia. rewrite Z.mod_add in D by lia. lia. }
    unfold g in P. rewrite I in P.
    replace (vt + (Z.of_nat 2 + Z.of_nat 2) + 2 * Z.of_nat (Z.to_nat ((id - 4) / 2))) with (vt + id) in P by lia.
    destruct (find_field id (snd p)) as [off|] eqn:F.
    + apply (find_bound start) in F as (K & _); auto. replace (size b - off) with (size b - loc + (loc - off)) by lia.
      eapply slot_at; eauto; [|lia]. exists (le_bytes 2 (loc - off)). split; auto. split; [apply le_length|].
      rewrite base_small; auto. change (256 ^ Z.of_nat 2) with (2 ^ 16). lia.
    + eapply slot_zero; eauto. exists (le_bytes 2 0). split; auto.
  - replace (find_field id (snd p)) with (@None Z); [eapply slot_short; eauto|].
    destruct (find_field id (snd p)) as [off|] eqn:F; auto. apply (find_bound start) in F as (_ & K); auto. lia.
Qed.

Lemma ascii_list_eqb_eq a : forall b, ascii_list_eqb a b = true -> a = b.
Proof.
  induction a as [|x a IH]; intros [|y b]; simpl; try discriminate; auto. intros H. apply andb_true_iff in H as (H & K).
  apply Ascii.eqb_eq in H as ->. f_equal. auto.
Qed.

Lemma find_vtable_ok vt b vs v : find_vtable vt b vs = Some v -> Forall (fun v => 0 <= v <= size b) vs ->
  piece b (size b - v) vt /\ 0 <= v <= size b.
Proof.
  induction vs as [|w vs IH]; [discriminate|]. cbn [find_vtable]. intros E H. inversion H as [|? ? Hw Hvs]; subst.
  destruct (ascii_list_eqb vt _) eqn:Eq.
  - injection E as <-. apply ascii_list_eqb_eq in Eq. split; auto.
    exists (firstn (Z.to_nat (size b - w)) b), (skipn (length vt) (skipn (Z.to_nat (size b - w)) b)).
    split; [|rewrite firstn_length; unfold size in *; lia].
    rewrite Eq at 1. rewrite firstn_skipn, firstn_skipn. reflexivity.
  - auto.
Qed.

Lemma end_table_ok start p s loc : end_table start p = (s, loc) -> fields_ok start p -> start <= bu_size (fst p) -> bu_size (fst p) <= start + 200 ->
  vts_ok (fst p) ->
  ext (fst p) s /\ vts_ok s /\ bu_size (fst p) + 4 <= loc <= bu_size s /\
  forall y, size (y ++ bu_bytes s) < 2 ^ 31 -> forall id, 4 <= id <= 20 -> id mod 2 = 0 ->
    slot (y ++ bu_bytes s) (size (y ++ bu_bytes s) - loc) id
      (match find_field id (snd p) with Some off => Some (size (y ++ bu_bytes s) - off) | None => None end).
Proof.
  unfold end_table. intros E H Hs Hb Hv. set (s1 := pre_align 0 4 (fst p)) in *.
  assert (X1 : ext (fst p) s1) by apply ext_align. pose proof (ext_size _ _ X1) as L1.
  assert (L2 : bu_size s1 <= bu_size (fst p) + 3).
  { unfold s1. rewrite size_align by lia. pose proof (Z.mod_pos_bound (- (bu_size (fst p) + 0)) 4 ltac:(lia)). lia. }
  set (l := bu_size s1 + 4) in *. set (vt := vtable start l (snd p)) in *.
  assert (V1 : vts_ok s1) by (eapply vts_ext; eauto).
  destruct (find_vtable vt (bu_bytes s1) (bu_vtables s1)) as [v|] eqn:F; cbn zeta in E; apply pair_equal_spec in E as [<- <-].
  - destruct (find_vtable_ok _ _ _ _ F V1) as (P & B).
    split; [eapply ext_trans; [exact X1|apply ext_put]|]. split; [eapply vts_ext; [apply ext_put|reflexivity|exact V1]|].
    split; [rewrite size_put, le_size; unfold l; lia|]. intros y Hy id Hid Hev.
    eapply (vtable_reads _ (size (y ++ bu_bytes (put (le_bytes 4 (v - l)) s1)) - v)); eauto; try lia.
    + apply from_end_ext. unfold put. cbn [bu_bytes]. apply from_end_ext. exact P.
    + assert (Q : from_end (y ++ bu_bytes (put (le_bytes 4 (v - l)) s1)) l (le_bytes 4 (v - l))).
      { apply from_end_ext. apply from_end_le. unfold l, bu_size. lia. }
      apply from_end_num in Q. eexists. split; [exact Q|]. change (Z.of_nat 4) with 4. rewrite twos_mod; [lia|].
      rewrite size_app in Hy. fold (bu_size (put (le_bytes 4 (v - l)) s1)) in Hy. rewrite size_put, le_size in Hy.
      pose proof (size_pos y). unfold l, bu_size in *. lia.
  - assert (Lv : size vt = vtable_size (snd p)) by (eapply vtable_length; eauto).
    destruct (vtable_size_ok _ _ H) as (Bv & _).
    assert (X2 : ext s1 (mkB (vt ++ le_bytes 4 (l + size vt - l) ++ bu_bytes s1) (bu_align s1) (bu_vtables s1 ++ [l + size vt]))).
    { exists (vt ++ le_bytes 4 (l + size vt - l)). cbn [bu_bytes]. now rewrite app_assoc. }
    assert (S2 : bu_size (mkB (vt ++ le_bytes 4 (l + size vt - l) ++ bu_bytes s1) (bu_align s1) (bu_vtables s1 ++ [l + size vt])) = l + size vt).
    { unfold bu_size at 1. cbn [bu_bytes]. rewrite !size_app, le_size. unfold l, bu_size. lia. }
    split; [eapply ext_trans; eauto|]. split.
    + unfold vts_ok. rewrite S2. cbn [bu_vtables]. apply Forall_app. split.
      * eapply Forall_impl; [|exact V1]. simpl. intros a Ha. unfold l. lia.
      * constructor; auto. pose proof (size_pos (bu_bytes s1)) as Z0. fold (bu_size s1) in Z0. unfold l. lia.
    + split; [rewrite S2; unfold l; lia|]. intros y Hy id Hid Hev. cbn [bu_bytes] in *.
      set (b := y ++ vt ++ le_bytes 4 (l + size vt - l) ++ bu_bytes s1) in *.
      assert (P : from_end b (l + size vt) vt).
      { apply from_end_ext. apply from_end_top. rewrite size_app, le_size. unfold l, bu_size. lia. }
      eapply (vtable_reads b (size b - (l + size vt))); eauto; try lia.
      assert (Q : from_end b l (le_bytes 4 (l + size vt - l))).
      { unfold b. rewrite app_assoc. apply from_end_ext. apply from_end_le. unfold l, bu_size. lia. }
      apply from_end_num in Q. eexists. split; [exact Q|]. change (Z.of_nat 4) with 4. rewrite twos_mod; lia.
Qed.

(** What is known of a field of a table under construction. *)
Definition has_num (p : partial) (id : Z) (n : nat) (v : Z) : Prop :=
  (find_field id (snd p) = None /\ v = 0) \/
  exists off, find_field id (snd p) = Some off /\ from_end (bu_bytes (fst p)) off (le_bytes n v).
Definition has_ptr (p : partial) (id : Z) (o : Z) : Prop :=
  exists off, find_field id (snd p) = Some off /\ o < off /\ from_end (bu_bytes (fst p)) off (le_bytes 4 (off - o)).

Lemma num_new n id v d p : (0 < n)%nat -> (d = true -> v = 0) -> find_field id (snd p) = None -> has_num (add_scalar n id v d p) id n v.
Proof.
  intros Hn Hd F. unfold add_scalar. destruct d; [left; auto|]. right. exists (bu_size (push n v (fst p))). cbn [fst snd find_field].
  rewrite Z.eqb_refl. split; auto. apply push_here. auto.
Qed.
Lemma ptr_new id o p : o <= bu_size (fst p) -> has_ptr (add_offset id (Some o) p) id o.
Proof.
  intros H. exists (bu_size (push_offset o (fst p))). cbn [add_offset fst snd find_field]. rewrite Z.eqb_refl. split; auto. split.
  - rewrite push_offset_size. pose proof (ext_size _ _ (ext_align 0 4 (fst p))). lia.
  - apply push_offset_here.
Qed.
Lemma num_keep p q id n v : growth p q -> find_field id (snd q) = find_field id (snd p) -> has_num p id n v -> has_num q id n v.
Proof.
  intros (X & _) E [(F & V)|(off & F & P)]; [left; rewrite E; auto|right]. exists off. rewrite E. split; auto. eapply ext_from_end; eauto.
Qed.
Lemma ptr_keep p q id o : growth p q -> find_field id (snd q) = find_field id (snd p) -> has_ptr p id o -> has_ptr q id o.
Proof. intros (X & _) E (off & F & L & P). exists off. rewrite E. split; auto. split; auto. eapply ext_from_end; eauto. Qed.

Lemma num_scalar n id v d p id' n' v' : (0 < n <= 8)%nat -> id <> id' -> has_num p id' n' v' -> has_num (add_scalar n id v d p) id' n' v'.
Proof. intros Hn Hi. apply num_keep; [now apply add_scalar_grows|now apply find_scalar_other]. Qed.
Lemma num_offset id o p id' n' v' : id <> id' -> has_num p id' n' v' -> has_num (add_offset id o p) id' n' v'.
Proof. intros Hi. apply num_keep; [now apply add_offset_grows|now apply find_offset_other]. Qed.
Lemma ptr_scalar n id v d p id' o' : (0 < n <= 8)%nat -> id <> id' -> has_ptr p id' o' -> has_ptr (add_scalar n id v d p) id' o'.
Proof. intros Hn Hi. apply ptr_keep; [now apply add_scalar_grows|now apply find_scalar_other]. Qed.
Lemma ptr_offset id o p id' o' : id <> id' -> has_ptr p id' o' -> has_ptr (add_offset id o p) id' o'.
Proof. intros Hi. apply ptr_keep; [now apply add_offset_grows|now apply find_offset_other]. Qed.

Lemma num_value start p s loc y id n v : end_table start p = (s, loc) -> fields_ok start p -> start <= bu_size (fst p) -> bu_size (fst p) <= start + 200 ->
  vts_ok (fst p) -> size (y ++ bu_bytes s) < 2 ^ 31 -> 4 <= id <= 20 -> id mod 2 = 0 -> has_num p id n v ->
  value (y ++ bu_bytes s) (size (y ++ bu_bytes s) - loc) id n (v mod 256 ^ Z.of_nat n).
Proof.
  intros E H Hs Hb Hv Hy Hid Hev K. destruct (end_table_ok _ _ _ _ E H Hs Hb Hv) as (X & _ & _ & G). specialize (G y Hy id Hid Hev).
  destruct K as [(F & ->)|(off & F & P)]; rewrite F in G.
  - rewrite Z.mod_0_l by (apply Z.pow_nonzero; lia). now apply value_none.
  - eapply value_some; [exact G|]. apply from_end_num. apply from_end_ext. eapply ext_from_end; eauto.
Qed.
Lemma ptr_points start p s loc y id o : end_table start p = (s, loc) -> fields_ok start p -> start <= bu_size (fst p) -> bu_size (fst p) <= start + 200 ->
  vts_ok (fst p) -> size (y ++ bu_bytes s) < 2 ^ 31 -> 4 <= id <= 20 -> id mod 2 = 0 -> 0 < o -> has_ptr p id o ->
  points (y ++ bu_bytes s) (size (y ++ bu_bytes s) - loc) id (Some (size (y ++ bu_bytes s) - o)).
Proof.
  intros E H Hs Hb Hv Hy Hid Hev Ho (off & F & L & P). destruct (end_table_ok _ _ _ _ E H Hs Hb Hv) as (X & _ & B & G). specialize (G y Hy id Hid Hev).
  rewrite F in G. set (b := y ++ bu_bytes s) in *. replace (size b - o) with (size b - off + (off - o)) by lia.
  eapply points_to; [exact G|]. apply from_end_small.
  - apply from_end_ext. eapply ext_from_end; eauto.
  - change (256 ^ Z.of_nat 4) with (2 ^ 32). apply (find_bound start) in F as (K & _); auto.
    assert (bu_size s <= size b) by (unfold b; rewrite size_app; pose proof (size_pos y); unfold bu_size; lia). lia.
Qed.

(** The table of a datagram. *)
Definition datagram_partial (dt vt : Z) (so : option Z) (i : Z) (d : N) (x : bool) (lo ko vo : option Z) (s : builder) : partial :=
    add_scalar 1 id_datagram_type dt (dt =? 0)
    (add_scalar 1 id_value_type vt (vt =? 0)
    (add_scalar 1 id_boolean (if x then 1 else 0) (negb x)
    (add_offset id_string so
    (add_scalar 4 id_integer i (i =? 0)
    (add_offset id_list lo
    (add_offset id_keys ko
    (add_offset id_contents vo
    (add_scalar 8 id_double (Z.of_N d) (dbl_eqb d 0) (s, []))))))))).

Lemma growth_le p q : growth p q -> bu_size (fst p) <= bu_size (fst q).
Proof. intros (X & _). now apply ext_size in X. Qed.

(** Steps through the fields, from the inside out. *)
Definition built_fields (start k : Z) (p0 p : partial) : Prop :=
  ext (fst p0) (fst p) /\ bu_vtables (fst p) = bu_vtables (fst p0) /\ start <= bu_size (fst p) <= start + 16 * k /\ fields_ok start p.

Lemma built_scalar start k p0 p n id v d : (0 < n <= 8)%nat -> 4 <= id <= 20 -> id mod 2 = 0 -> built_fields start k p0 p ->
  built_fields start (k + 1) p0 (add_scalar n id v d p).
Proof.
  intros Hn Hid Hev (X & V & B & F). destruct (add_scalar_grows n id v d p Hn) as (X' & V' & B'). split; [eapply ext_trans; eauto|].
  split; [congruence|]. pose proof (ext_size _ _ X'). split; [lia|]. apply add_scalar_fields; auto. lia.
Qed.
Lemma built_offset start k p0 p id o : 4 <= id <= 20 -> id mod 2 = 0 -> built_fields start k p0 p ->
  built_fields start (k + 1) p0 (add_offset id o p).
Proof.
  intros Hid Hev (X & V & B & F). destruct (add_offset_grows id o p) as (X' & V' & B'). split; [eapply ext_trans; eauto|].
  split; [congruence|]. pose proof (ext_size _ _ X'). split; [lia|]. apply add_offset_fields; auto. lia.
Qed.

Lemma datagram_built dt vt so i d x lo ko vo s :
  built_fields (bu_size s) 9 (s, []) (datagram_partial dt vt so i d x lo ko vo s).
Proof.
  unfold datagram_partial.
  assert (B0 : built_fields (bu_size s) 0 (s, []) (s, [])).
  { split; [apply ext_refl|]. split; [reflexivity|]. split; [cbn [fst]; lia|constructor]. }
  apply (built_scalar _ 8); [lia|vm_compute; split; congruence|reflexivity|].
  apply (built_scalar _ 7); [lia|vm_compute; split; congruence|reflexivity|].
  apply (built_scalar _ 6); [lia|vm_compute; split; congruence|reflexivity|].
  apply (built_offset _ 5); [vm_compute; split; congruence|reflexivity|].
  apply (built_scalar _ 4); [lia|vm_compute; split; congruence|reflexivity|].
  apply (built_offset _ 3); [vm_compute; split; congruence|reflexivity|].
  apply (built_offset _ 2); [vm_compute; split; congruence|reflexivity|].
  apply (built_offset _ 1); [vm_compute; split; congruence|reflexivity|].
  apply (built_scalar _ 0); [lia|vm_compute; split; congruence|reflexivity|]. exact B0.
Qed.

Ltac peel := repeat first [rewrite find_scalar_other by (vm_compute; discriminate)|rewrite find_offset_other by (vm_compute; discriminate)]; reflexivity.
Ltac keep_num := repeat first [apply num_scalar; [lia|vm_compute; discriminate|]|apply num_offset; [vm_compute; discriminate|]].
Ltac keep_ptr := repeat first [apply ptr_scalar; [lia|vm_compute; discriminate|]|apply ptr_offset; [vm_compute; discriminate|]].

Lemma offset_size id o p : bu_size (fst p) + 4 <= bu_size (fst (add_offset id (Some o) p)).
Proof. cbn [add_offset fst]. rewrite push_offset_size. pose proof (ext_size _ _ (ext_align 0 4 (fst p))). lia. Qed.
Lemma offset_size' id o p : bu_size (fst p) <= bu_size (fst (add_offset id o p)).
Proof. apply growth_le, add_offset_grows. Qed.
Lemma scalar_size n id v d p : (0 < n <= 8)%nat -> bu_size (fst p) <= bu_size (fst (add_scalar n id v d p)).
Proof. intros H. apply growth_le, add_scalar_grows. auto. Qed.

Definition some_le (o : option Z) (k : Z) : Prop := match o with Some o => o <= k | None => True end.

Lemma datagram_fields dt vt so i d x lo ko vo s : (dbl_eqb d 0 = true -> d = 0%N) ->
  some_le so (bu_size s) -> lo <= bu_size s -> ko <= bu_size s -> vo <= bu_size s ->
  let p := datagram_partial dt vt so i d x (Some lo) (Some ko) (Some vo) s in
  has_num p 4 1 dt /\ has_num p 6 1 vt /\ (forall o, so = Some o -> has_ptr p 8 o) /\ has_num p 10 4 i /\
  has_num p 12 8 (Z.of_N d) /\ has_num p 14 1 (if x then 1 else 0) /\ has_ptr p 16 lo /\ has_ptr p 18 ko /\ has_ptr p 20 vo /\
  bu_size s + 12 <= bu_size (fst p).
Proof.
  intros Hd Hso Hlo Hko Hvo. unfold datagram_partial. cbn zeta.
  set (p1 := add_scalar 8 id_double (Z.of_N d) (dbl_eqb d 0) (s, [])).
  assert (L1 : bu_size s <= bu_size (fst p1)) by (apply (scalar_size 8 id_double (Z.of_N d) (dbl_eqb d 0) (s, [])); lia).
  set (p2 := add_offset id_contents (Some vo) p1).
  pose proof (offset_size id_contents vo p1 : bu_size (fst p1) + 4 <= bu_size (fst p2)) as L2.
  set (p3 := add_offset id_keys (Some ko) p2).
  pose proof (offset_size id_keys ko p2 : bu_size (fst p2) + 4 <= bu_size (fst p3)) as L3.
  set (p4 := add_offset id_list (Some lo) p3).
  pose proof (offset_size id_list lo p3 : bu_size (fst p3) + 4 <= bu_size (fst p4)) as L4.
  set (p5 := add_scalar 4 id_integer i (i =? 0) p4).
  assert (L5 : bu_size (fst p4) <= bu_size (fst p5)) by (apply scalar_size; lia).
  set (p6 := add_offset id_string so p5).
  pose proof (offset_size' id_string so p5 : bu_size (fst p5) <= bu_size (fst p6)) as L6.
  set (p7 := add_scalar 1 id_boolean (if x then 1 else 0) (negb x) p6).
  assert (L7 : bu_size (fst p6) <= bu_size (fst p7)) by (apply scalar_size; lia).
  set (p8 := add_scalar 1 id_value_type vt (vt =? 0) p7).
  assert (L8 : bu_size (fst p7) <= bu_size (fst p8)) by (apply scalar_size; lia).
  set (p9 := add_scalar 1 id_datagram_type dt (dt =? 0) p8).
  assert (L9 : bu_size (fst p8) <= bu_size (fst p9)) by (apply scalar_size; lia).
  split. { apply num_new; [lia|apply Z.eqb_eq|unfold p8, p7, p6, p5, p4, p3, p2, p1; peel]. }
  split. { unfold p9. keep_num. apply num_new; [lia|apply Z.eqb_eq|unfold p7, p6, p5, p4, p3, p2, p1; peel]. }
  split. { intros o ->. unfold p9, p8, p7. keep_ptr. apply ptr_new. simpl in Hso. lia. }
  split. { unfold p9, p8, p7, p6. keep_num. apply num_new; [lia|apply Z.eqb_eq|unfold p4, p3, p2, p1; peel]. }
  split. { unfold p9, p8, p7, p6, p5, p4, p3, p2. keep_num. apply num_new; [lia|intros E; now rewrite (Hd E)|reflexivity]. }
  split. { unfold p9, p8. keep_num. apply num_new; [lia|destruct x; [discriminate|auto]|unfold p6, p5, p4, p3, p2, p1; peel]. }
  split. { unfold p9, p8, p7, p6, p5. keep_ptr. apply ptr_new. lia. }
  split. { unfold p9, p8, p7, p6, p5, p4. keep_ptr. apply ptr_new. lia. }
  split. { unfold p9, p8, p7, p6, p5, p4, p3. keep_ptr. apply ptr_new. lia. }
  lia.
Qed.

Lemma create_datagram_ok dt vt so i d x lo ko vo s s' o :
  create_datagram dt vt so i d x (Some lo) (Some ko) (Some vo) s = (s', o) -> (dbl_eqb d 0 = true -> d = 0%N) -> vts_ok s ->
  (forall q, so = Some q -> 0 < q <= bu_size s) -> 0 < lo <= bu_size s -> 0 < ko <= bu_size s -> 0 < vo <= bu_size s ->
  ext s s' /\ vts_ok s' /\ bu_size s + 16 <= o <= bu_size s' /\
  forall y, let b := y ++ bu_bytes s' in let t := size b - o in size b < 2 ^ 31 ->
    value b t 4 1 (dt mod 256) /\ value b t 6 1 (vt mod 256) /\ (forall q, so = Some q -> points b t 8 (Some (size b - q))) /\
    value b t 10 4 (i mod 2 ^ 32) /\ value b t 12 8 (Z.of_N d mod 2 ^ 64) /\ value b t 14 1 (if x then 1 else 0) /\
    points b t 16 (Some (size b - lo)) /\ points b t 18 (Some (size b - ko)) /\ points b t 20 (Some (size b - vo)).
Proof.
  intros E Hd Hv Hso Hlo Hko Hvo.
  change (create_datagram dt vt so i d x (Some lo) (Some ko) (Some vo) s) with
    (end_table (bu_size s) (datagram_partial dt vt so i d x (Some lo) (Some ko) (Some vo) s)) in E.
  destruct (datagram_built dt vt so i d x (Some lo) (Some ko) (Some vo) s) as (X & V & B & F).
  assert (Hso' : some_le so (bu_size s)) by (destruct so as [q|]; simpl; auto; destruct (Hso q eq_refl); auto).
  pose proof (datagram_fields dt vt so i d x lo ko vo s Hd Hso' (proj2 Hlo) (proj2 Hko) (proj2 Hvo)) as K. cbn zeta in K.
  set (p := datagram_partial dt vt so i d x (Some lo) (Some ko) (Some vo) s) in *. cbn [fst] in X, V.
  assert (V' : vts_ok (fst p)) by (eapply vts_ext; eauto).
  destruct (end_table_ok _ _ _ _ E F (proj1 B) ltac:(lia) V') as (X2 & V2 & B2 & _).
  destruct K as (K4 & K6 & K8 & K10 & K12 & K14 & K16 & K18 & K20 & Sz).
  split; [eapply ext_trans; eauto|]. split; [exact V2|]. split; [lia|]. intros y b t Hb.
  assert (N : forall id n v, 4 <= id <= 20 -> id mod 2 = 0 -> has_num p id n v -> value b t id n (v mod 256 ^ Z.of_nat n)).
  { intros id n v Hid He. eapply num_value; eauto; lia. }
  assert (P : forall id q, 4 <= id <= 20 -> id mod 2 = 0 -> 0 < q -> has_ptr p id q -> points b t id (Some (size b - q))).
  { intros id q Hid He Hq. eapply ptr_points; eauto; lia. }
  split; [apply (N 4 1%nat dt); auto; lia|]. split; [apply (N 6 1%nat vt); auto; lia|].
  split; [intros q Eq; apply P; auto; [lia|apply (Hso q Eq)]|].
  split; [apply (N 10 4%nat i); auto; lia|]. split; [apply (N 12 8%nat (Z.of_N d)); auto; lia|].
  split. { replace (if x then 1 else 0) with ((if x then 1 else 0) mod 256 ^ Z.of_nat 1) by (destruct x; reflexivity). apply N; auto; lia. }
  split; [apply P; auto; lia|]. split; apply P; auto; lia.
Qed.

(** ** Datagrams *)

Fixpoint build_items (l : list fbd) (s : builder) : builder * list Z :=
  match l with
  | [] => (s, [])
  | y :: l' => let (s, o) := build y s in let (s, os) := build_items l' s in (s, o :: os)
  end.
Fixpoint build_pairs (ks : list string) (vs : list fbd) (s : builder) {struct vs} : builder * list Z * list Z :=
  match ks, vs with
  | k :: ks', y :: vs' =>
    let (s, o) := create_string k s in
    let (s, o') := build y s in
    let '(s, os, os') := build_pairs ks' vs' s in (s, o :: os, o' :: os')
  | _, _ => (s, [], [])
  end.

Definition opt_string (str : option string) (s : builder) : builder * option Z :=
  match str with Some y => let (s, o) := create_string y s in (s, Some o) | None => (s, None) end.

Lemma build_eq dt vt str i d x l ks vs s :
  build (Fb dt vt str i d x (Some l) (Some ks) (Some vs)) s =
    let (s, so) := opt_string str s in
    let (s, los) := build_items l s in
    let '(s, kos, vos) := build_pairs ks vs s in
    let (s, lo) := create_vector los s in
    let (s, ko) := create_vector kos s in
    let (s, vo) := create_vector vos s in
    create_datagram dt vt so i d x (Some lo) (Some ko) (Some vo) s.
Proof.
  unfold opt_string. destruct str as [y|].
  - cbn [build]. destruct (create_string y s) as [s1 o]. fold build_items build_pairs. destruct (build_items l s1) as [s2 los].
    destruct (build_pairs ks vs s2) as [[s3 kos] vos]. cbn [opt_vector]. destruct (create_vector los s3). destruct (create_vector kos _). now destruct (create_vector vos _).
  - cbn [build]. fold build_items build_pairs. destruct (build_items l s) as [s2 los].
    destruct (build_pairs ks vs s2) as [[s3 kos] vos]. cbn [opt_vector]. destruct (create_vector los s3). destruct (create_vector kos _). now destruct (create_vector vos _).
Qed.

(** Something true of every buffer that ends in the bytes written so far. *)
Definition at_end (s : builder) (P : list ascii -> Prop) : Prop :=
  forall y, size (y ++ bu_bytes s) < 2 ^ 31 -> P (y ++ bu_bytes s).
Lemma at_end_ext s s' P : ext s s' -> at_end s P -> at_end s' P.
Proof. intros (x & E) H y. rewrite E, app_assoc. apply H. Qed.

Definition built (t : dg) : Prop := forall s s' o, build (ser t) s = (s', o) -> vts_ok s ->
  ext s s' /\ vts_ok s' /\ 0 < o <= bu_size s' /\ bu_size s + 28 * nodes t <= bu_size s' /\
  at_end s' (fun b => holds b (size b - o) (wire t)).

Lemma items_ok ts : Forall built ts -> forall s s' os, build_items (map ser ts) s = (s', os) -> vts_ok s ->
  ext s s' /\ vts_ok s' /\ length os = length ts /\ Forall (fun q => 0 < q <= bu_size s') os /\
  bu_size s + 28 * fold_right Z.add 0 (map nodes ts) <= bu_size s' /\
  at_end s' (fun b => Forall2 (holds b) (map (fun q => size b - q) os) (map wire ts)).
Proof.
  induction 1 as [|t ts Ht Hts IH]; intros s s' os E V; cbn [map build_items fold_right length] in *.
  - injection E as <- <-. split; [apply ext_refl|]. split; auto. split; auto. split; auto. split; [lia|]. intros y _. constructor.
  - destruct (build (ser t) s) as [s1 o] eqn:E1. destruct (build_items (map ser ts) s1) as [s2 os'] eqn:E2. injection E as <- <-.
    destruct (Ht _ _ _ E1 V) as (X1 & V1 & B1 & S1 & H1). destruct (IH _ _ _ E2 V1) as (X2 & V2 & L2 & B2 & S2 & H2).
    pose proof (ext_size _ _ X2) as L. split; [eapply ext_trans; eauto|]. split; auto. split; [simpl; lia|]. split; [constructor; [lia|auto]|]. split; [lia|].
    apply (at_end_ext _ _ _ X2) in H1. intros y Hy. cbn [map]. constructor; [apply (H1 y Hy)|apply (H2 y Hy)].
Qed.

Lemma pairs_ok kvs : Forall (fun p => built (snd p)) kvs -> forall s s' kos vos,
  build_pairs (map fst kvs) (map (fun p => ser (snd p)) kvs) s = (s', kos, vos) -> vts_ok s ->
  ext s s' /\ vts_ok s' /\ length kos = length kvs /\ length vos = length kvs /\ Forall (fun q => 0 < q <= bu_size s') kos /\ Forall (fun q => 0 < q <= bu_size s') vos /\
  bu_size s + 28 * fold_right Z.add 0 (map (fun p => nodes (snd p)) kvs) <= bu_size s' /\
  at_end s' (fun b => Forall2 (text b) (map (fun q => size b - q) kos) (map fst kvs)) /\
  at_end s' (fun b => Forall2 (holds b) (map (fun q => size b - q) vos) (map (fun p => wire (snd p)) kvs)).
Proof.
  induction 1 as [|[k t] kvs Ht Hts IH]; intros s s' kos vos E V; cbn [map build_pairs fold_right length fst snd] in *.
  - injection E as <- <- <-. split; [apply ext_refl|]. repeat (split; [auto; lia|]). split; intros y _; constructor.
  - destruct (create_string k s) as [s0 o] eqn:E0. destruct (build (ser t) s0) as [s1 o'] eqn:E1.
    destruct (build_pairs _ _ s1) as [[s2 os] os'] eqn:E2. injection E as <- <- <-.
    destruct (create_string_ok _ _ _ _ E0) as (X0 & V0 & O0 & S0 & T0).
    assert (V0' : vts_ok s0) by (eapply vts_ext; eauto).
    destruct (Ht _ _ _ E1 V0') as (X1 & V1 & B1 & S1 & H1). destruct (IH _ _ _ _ E2 V1) as (X2 & V2 & L2 & L2' & B2 & B2' & S2 & T2 & H2).
    pose proof (ext_size _ _ X2) as L. pose proof (ext_size _ _ X1) as L1. pose proof (size_pos (bu_bytes s)) as Z0. fold (bu_size s) in Z0.
    split; [eapply ext_trans; [eauto|eapply ext_trans; eauto]|]. split; auto. split; [simpl; lia|]. split; [simpl; lia|].
    split; [constructor; [lia|auto]|]. split; [constructor; [lia|auto]|]. split; [lia|].
    apply (at_end_ext _ _ _ X2) in H1.
    assert (T1 : at_end s2 (fun b => text b (size b - o) k)) by (apply (at_end_ext s0); [eapply ext_trans; eauto|exact T0]).
    split; intros y Hy; cbn [map]; constructor; [apply (T1 y Hy)|apply (T2 y Hy)|apply (H1 y Hy)|apply (H2 y Hy)].
Qed.

(** The common part of all tables. *)
Definition tail (dt vt : Z) (so : option Z) (i : Z) (d : N) (x : bool) (los kos vos : list Z) (s : builder) : builder * Z :=
  let (s, lo) := create_vector los s in
  let (s, ko) := create_vector kos s in
  let (s, vo) := create_vector vos s in
  create_datagram dt vt so i d x (Some lo) (Some ko) (Some vo) s.

Definition vector_at (b : list ascii) (v : Z) (qs : list Z) : Prop :=
  num b v 4 (Z.of_nat (length qs)) /\ entries b v (Z.of_nat (length qs)) (map (fun q => size b - q) qs).

Definition written (dt vt : Z) (so : option Z) (i : Z) (d : N) (x : bool) (los kos vos : list Z) (b : list ascii) (t : Z) : Prop :=
  exists lo ko vo,
    value b t 4 1 (dt mod 256) /\ value b t 6 1 (vt mod 256) /\ (forall q, so = Some q -> points b t 8 (Some (size b - q))) /\
    value b t 10 4 (i mod 2 ^ 32) /\ value b t 12 8 (Z.of_N (fb_double d) mod 2 ^ 64) /\ value b t 14 1 (if x then 1 else 0) /\
    points b t 16 (Some lo) /\ points b t 18 (Some ko) /\ points b t 20 (Some vo) /\
    vector_at b lo los /\ vector_at b ko kos /\ vector_at b vo vos.

Lemma grow_bound s s' os : ext s s' -> Forall (fun q => 0 < q <= bu_size s) os -> Forall (fun q => 0 < q <= bu_size s') os.
Proof. intros X H. apply ext_size in X. eapply Forall_impl; [|exact H]. simpl. intros; lia. Qed.

Lemma fb_double_zero d : dbl_eqb (fb_double d) 0 = true -> fb_double d = 0%N.
Proof. unfold fb_double. destruct (dbl_eqb d 0) eqn:E; auto. congruence. Qed.

Lemma tail_ok dt vt so i d x los kos vos s s' o : tail dt vt so i (fb_double d) x los kos vos s = (s', o) -> vts_ok s ->
  (forall q, so = Some q -> 0 < q <= bu_size s) ->
  Forall (fun q => 0 < q <= bu_size s) los -> Forall (fun q => 0 < q <= bu_size s) kos -> Forall (fun q => 0 < q <= bu_size s) vos ->
  ext s s' /\ vts_ok s' /\ 0 < o <= bu_size s' /\ bu_size s + 28 <= bu_size s' /\
  at_end s' (fun b => written dt vt so i d x los kos vos b (size b - o)).
Proof.
  unfold tail. intros E V Hso Hl Hk Hv. pose proof (size_pos (bu_bytes s)) as Z0. fold (bu_size s) in Z0.
  destruct (create_vector los s) as [s1 lo] eqn:E1. destruct (create_vector_ok _ _ _ _ E1 Hl) as (X1 & V1 & O1 & S1 & G1).
  assert (V1' : vts_ok s1) by (eapply vts_ext; eauto).
  destruct (create_vector kos s1) as [s2 ko] eqn:E2. destruct (create_vector_ok _ _ _ _ E2 (grow_bound _ _ _ X1 Hk)) as (X2 & V2 & O2 & S2 & G2).
  assert (V2' : vts_ok s2) by (eapply vts_ext; eauto).
  assert (X12 : ext s s2) by (eapply ext_trans; eauto).
  destruct (create_vector vos s2) as [s3 vo] eqn:E3. destruct (create_vector_ok _ _ _ _ E3 (grow_bound _ _ _ X12 Hv)) as (X3 & V3 & O3 & S3 & G3).
  assert (V3' : vts_ok s3) by (eapply vts_ext; eauto).
  assert (X13 : ext s s3) by (eapply ext_trans; eauto). pose proof (ext_size _ _ X13) as L13.
  destruct (create_datagram_ok _ _ _ _ _ _ _ _ _ _ _ _ E (fb_double_zero d) V3') as (X4 & V4 & B4 & G4); try lia.
  { intros q Eq. specialize (Hso q Eq). lia. }
  split; [eapply ext_trans; eauto|]. split; auto. split; [lia|]. split; [lia|].
  apply (at_end_ext s1 s' (fun b => vector_at b (size b - lo) los)) in G1; [|eapply ext_trans; [exact X2|eapply ext_trans; eauto]].
  apply (at_end_ext s2 s' (fun b => vector_at b (size b - ko) kos)) in G2; [|eapply ext_trans; eauto].
  apply (at_end_ext s3 s' (fun b => vector_at b (size b - vo) vos)) in G3; [|eauto].
  intros y Hy. specialize (G4 y Hy). destruct G4 as (A4 & A6 & A8 & A10 & A12 & A14 & A16 & A18 & A20).
  exists (size (y ++ bu_bytes s') - lo), (size (y ++ bu_bytes s') - ko), (size (y ++ bu_bytes s') - vo).
  repeat (split; [assumption|]). split; [apply (G1 y Hy)|]. split; [apply (G2 y Hy)|apply (G3 y Hy)].
Qed.

Lemma build_tail dt vt str i d x l ks vs s :
  build (fb_table dt vt str i d x l ks vs) s =
    let (s, so) := opt_string str s in
    let (s, los) := build_items l s in
    let '(s, kos, vos) := build_pairs ks vs s in
    tail dt vt so i (fb_double d) x los kos vos s.
Proof. apply build_eq. Qed.

Lemma build_list dt vt i d x l s :
  build (fb_table dt vt None i d x l [] []) s = let (s, los) := build_items l s in tail dt vt None i (fb_double d) x los [] [] s.
Proof. rewrite build_tail. cbn [opt_string build_pairs]. reflexivity. Qed.
Lemma build_string dt vt str i d x s :
  build (fb_table dt vt (Some str) i d x [] [] []) s = let (s, o) := create_string str s in tail dt vt (Some o) i (fb_double d) x [] [] [] s.
Proof. rewrite build_tail. unfold opt_string. destruct (create_string str s). cbn [build_items build_pairs]. reflexivity. Qed.

Lemma scalar_table dt vt i d x s s' o : build (fb_table dt vt None i d x [] [] []) s = (s', o) -> vts_ok s ->
  ext s s' /\ vts_ok s' /\ 0 < o <= bu_size s' /\ bu_size s + 28 <= bu_size s' /\
  at_end s' (fun b => written dt vt None i d x [] [] [] b (size b - o)).
Proof. rewrite build_tail. cbn [opt_string build_items build_pairs]. intros E V. eapply tail_ok; eauto. discriminate. Qed.

Lemma build_ok t : fits t -> dg_wf t -> built t.
Proof.
  induction t as [|v|ts IH|kvs IH] using dg_ind'; intros Hf Hw s s' o E V; cbn [ser nodes] in *.
  - destruct (scalar_table _ _ _ _ _ _ _ _ E V) as (X & V' & B & S & G). do 4 (split; auto). intros y Hy. specialize (G y Hy). cbn beta in G.
    destruct G as (lo & ko & vo & G4 & _). eapply holds_other; [exact G4|]. vm_compute. intros (A & _). now apply A.
  - destruct v as [z|x|d|str|ty r].
    + destruct (scalar_table _ _ _ _ _ _ _ _ E V) as (X & V' & B & S & G). do 4 (split; auto). intros y Hy. specialize (G y Hy). cbn beta in G.
      destruct G as (lo & ko & vo & G4 & G6 & _ & G10 & _). cbn [wire]. inversion Hf; subst.
      replace z with (twos 32 (z mod 2 ^ 32)) by (apply twos_mod; auto). now apply holds_integer.
    + destruct (scalar_table _ _ _ _ _ _ _ _ E V) as (X & V' & B & S & G). do 4 (split; auto). intros y Hy. specialize (G y Hy). cbn beta in G.
      destruct G as (lo & ko & vo & G4 & G6 & _ & _ & _ & G14 & _). cbn [wire].
      replace x with (negb ((if x then 1 else 0) =? 0)) by (destruct x; reflexivity). apply holds_boolean; auto.
    + destruct (scalar_table _ _ _ _ _ _ _ _ E V) as (X & V' & B & S & G). do 4 (split; auto). intros y Hy. specialize (G y Hy). cbn beta in G.
      destruct G as (lo & ko & vo & G4 & G6 & _ & _ & G12 & _). cbn [wire]. inversion Hf; subst.
      replace (if dbl_is_zero d then 0%N else d) with (fb_double d) by (unfold fb_double; now rewrite dbl_eqb_zero).
      replace (fb_double d) with (Z.to_N (Z.of_N (fb_double d) mod 2 ^ 64)); [now apply holds_double|].
      rewrite Z.mod_small; [apply N2Z.id|]. unfold fb_double. destruct (dbl_eqb d 0); lia.
    + rewrite build_string in E. destruct (create_string str s) as [s1 q] eqn:E1.
      destruct (create_string_ok _ _ _ _ E1) as (X1 & V1 & O1 & S1 & T1).
      assert (V1' : vts_ok s1) by (eapply vts_ext; eauto). pose proof (size_pos (bu_bytes s)) as Z0. fold (bu_size s) in Z0.
      eapply tail_ok in E as (X & V' & B & S & G); auto; [|intros q' [= <-]; lia].
      split; [eapply ext_trans; eauto|]. split; auto. split; auto. split; [lia|].
      apply (at_end_ext s1 s' (fun b => text b (size b - q) str)) in T1; auto. intros y Hy. specialize (G y Hy). specialize (T1 y Hy). cbn beta in G, T1.
      destruct G as (lo & ko & vo & G4 & G6 & G8 & _). cbn [wire]. eapply holds_string; eauto.
    + destruct (scalar_table _ _ _ _ _ _ _ _ E V) as (X & V' & B & S & G). do 4 (split; auto). intros y Hy. specialize (G y Hy). cbn beta in G.
      destruct G as (lo & ko & vo & G4 & _). eapply holds_other; [exact G4|]. vm_compute. intros (A & _). now apply A.
  - assert (Hts : Forall built ts).
    { inversion Hf as [| | | | | |? Fts|]; subst. inversion Hw as [| |? Wts|]; subst. rewrite Forall_forall in *. auto. }
    rewrite build_list in E. destruct (build_items (map ser ts) s) as [s1 los] eqn:E1.
    destruct (items_ok ts Hts _ _ _ E1 V) as (X1 & V1 & L1 & B1 & S1 & T1).
    eapply tail_ok in E as (X & V' & B & S & G); auto; [|discriminate].
    split; [eapply ext_trans; eauto|]. split; auto. split; auto. split; [lia|].
    eapply at_end_ext in T1; [|exact X]. intros y Hy. specialize (G y Hy). specialize (T1 y Hy). cbn beta in G, T1.
    destruct G as (lo & ko & vo & G4 & _ & _ & _ & _ & _ & G16 & _ & _ & (N & En) & _).
    replace (wire (Lst ts)) with (match map wire ts with [] => Emp | _ => Lst (map wire ts) end) by (destruct ts; reflexivity).
    eapply holds_list; eauto.
  - assert (Hts : Forall (fun p => built (snd p)) kvs).
    { inversion Hf as [| | | | | | |? Fts]; subst. inversion Hw as [| | |? Wts]; subst. rewrite Forall_forall in *. auto. }
    rewrite build_tail in E. cbn [opt_string build_items] in E. destruct (build_pairs _ _ s) as [[s1 kos] vos] eqn:E1.
    destruct (pairs_ok kvs Hts _ _ _ _ E1 V) as (X1 & V1 & L1 & L1' & B1 & B1' & S1 & T1 & T1').
    eapply tail_ok in E as (X & V' & B & S & G); auto; [|discriminate].
    split; [eapply ext_trans; eauto|]. split; auto. split; auto. split; [lia|].
    eapply at_end_ext in T1; [|exact X]. eapply at_end_ext in T1'; [|exact X].
    intros y Hy. specialize (G y Hy). specialize (T1 y Hy). specialize (T1' y Hy). cbn beta in G, T1, T1'.
    destruct G as (lo & ko & vo & G4 & _ & _ & _ & _ & _ & _ & G18 & G20 & _ & (Nk & Ek) & (Nv & Ev)).
    replace (wire (Dct kvs)) with (match map (fun p => (fst p, wire (snd p))) kvs with [] => Emp | _ => Dct (map (fun p => (fst p, wire (snd p))) kvs) end)
      by (destruct kvs; reflexivity).
    eapply (holds_dict _ _ ko vo); eauto; [| |].
    + rewrite L1, L1', Z.min_id. rewrite L1 in Ek. eauto.
    + rewrite L1, L1', Z.min_id. rewrite L1' in Ev. eauto.
    + rewrite combine_fst_map. apply dict_of_sorted. inversion Hw as [| | |? Hs]; subst. unfold osorted, okeys in *. rewrite map_map. exact Hs.
Qed.

(** ** Messages *)

Lemma finish_ok root s : 0 < root <= bu_size s -> size (finish root s) < 2 ^ 31 ->
  exists y, finish root s = y ++ bu_bytes s /\ num (finish root s) 0 4 (size (finish root s) - root).
Proof.
  intros Hr. unfold finish. set (s1 := pre_align 4 (bu_align s) s). intros Hs.
  assert (X : ext s (push_offset root s1)) by (eapply ext_trans; [apply ext_align|apply ext_push_offset]).
  destruct X as (y & E) eqn:EX. exists y. split; [exact E|]. pose proof (push_offset_here root s1) as H. apply from_end_small in H.
  - fold (bu_size (push_offset root s1)) in H |- *. now rewrite Z.sub_diag in H.
  - change (256 ^ Z.of_nat 4) with (2 ^ 32). clear EX. fold (bu_size (push_offset root s1)) in Hs.
    assert (bu_size s <= bu_size (push_offset root s1)) by (apply ext_size; exists y; exact E). lia.
Qed.

Lemma build_message_ok se tp t b : b = build_message (mkFbm (Some se) (Some tp) (Some (ser t))) -> fits t -> dg_wf t -> size b < 2 ^ 31 ->
  message b se tp (wire t) /\ 28 * nodes t + 10 < size b.
Proof.
  unfold build_message. cbn [fb_sender fb_topic fb_datagram]. intros Eb Hf Hw.
  destruct (create_string se bu_init) as [s1 so] eqn:E1. destruct (create_string_ok _ _ _ _ E1) as (X1 & V1 & O1 & S1 & T1).
  assert (V1' : vts_ok s1) by (eapply vts_ext; [exact X1|exact V1|constructor]).
  destruct (create_string tp s1) as [s2 to] eqn:E2. destruct (create_string_ok _ _ _ _ E2) as (X2 & V2 & O2 & S2 & T2).
  assert (V2' : vts_ok s2) by (eapply vts_ext; eauto).
  destruct (build (ser t) s2) as [s3 d] eqn:E3. destruct (build_ok t Hf Hw _ _ _ E3 V2') as (X3 & V3 & B3 & S3 & T3).
  set (p0 := (s3, []) : partial) in *.
  assert (B0 : built_fields (bu_size s3) 0 p0 p0).
  { split; [apply ext_refl|]. split; [reflexivity|]. split; [cbn [fst p0]; lia|constructor]. }
  set (p1 := add_offset id_datagram (Some d) p0) in *.
  assert (B1 : built_fields (bu_size s3) 1 p0 p1) by (apply (built_offset _ 0); [vm_compute; split; congruence|reflexivity|auto]).
  set (p2 := add_offset id_topic (Some to) p1) in *.
  assert (B2 : built_fields (bu_size s3) 2 p0 p2) by (apply (built_offset _ 1); [vm_compute; split; congruence|reflexivity|auto]).
  set (p := add_offset id_sender (Some so) p2) in *.
  assert (B : built_fields (bu_size s3) 3 p0 p) by (apply (built_offset _ 2); [vm_compute; split; congruence|reflexivity|auto]).
  destruct (end_table (bu_size s3) p) as [s4 root] eqn:E4. destruct B as (X & V & Bd & F). cbn [fst p0] in X, V.
  assert (V' : vts_ok (fst p)) by (eapply vts_ext; eauto).
  destruct (end_table_ok _ _ _ _ E4 F (proj1 Bd) ltac:(lia) V') as (X4 & _ & B4 & _). intros Hs.
  assert (Z0 : bu_size bu_init = 0) by reflexivity.
  pose proof (ext_size _ _ X1) as L1. pose proof (ext_size _ _ X2) as L2. pose proof (ext_size _ _ X3) as L3.
  pose proof (ext_size _ _ X4) as L4. pose proof (ext_size _ _ X) as L.
  assert (Lp1 : bu_size s3 <= bu_size (fst p1)) by apply (proj1 (proj2 (proj2 B1))).
  assert (Lp2 : bu_size s3 <= bu_size (fst p2)) by apply (proj1 (proj2 (proj2 B2))).
  assert (Hr : 0 < root <= bu_size s4) by lia.
  rewrite Eb in Hs. destruct (finish_ok root s4 Hr Hs) as (y & Ey & Nr). rewrite <- Eb in *.
  assert (X34 : ext s3 s4) by (eapply ext_trans; eauto).
  assert (X24 : ext s2 s4) by (eapply ext_trans; eauto).
  assert (X14 : ext s1 s4) by (eapply ext_trans; eauto).
  apply (at_end_ext s1 s4 (fun b => text b (size b - so) se)) in T1; auto.
  apply (at_end_ext s2 s4 (fun b => text b (size b - to) tp)) in T2; auto.
  apply (at_end_ext s3 s4) in T3; auto.
  assert (Hy : size (y ++ bu_bytes s4) < 2 ^ 31) by (rewrite <- Ey; auto).
  specialize (T1 y Hy). specialize (T2 y Hy). specialize (T3 y Hy). cbn beta in T1, T2, T3. rewrite <- Ey in T1, T2, T3.
  assert (P : forall id q, 4 <= id <= 20 -> id mod 2 = 0 -> 0 < q -> has_ptr p id q -> points b (size b - root) id (Some (size b - q))).
  { intros id q Hid He Hq Hp. rewrite Ey. eapply ptr_points; eauto; lia. }
  split.
  - exists (size b - root), (size b - so), (size b - to), (size b - d). split; [exact Nr|].
    split; [apply P; auto; try lia; apply ptr_new; lia|]. split; [exact T1|].
    split; [apply P; auto; try lia; unfold p; keep_ptr; apply ptr_new; lia|]. split; [exact T2|].
    split; [apply P; auto; try lia; unfold p, p2; keep_ptr; apply ptr_new; cbn [fst p0]; lia|]. exact T3.
  - rewrite Ey, size_app. fold (bu_size s4). pose proof (size_pos y). lia.
Qed.

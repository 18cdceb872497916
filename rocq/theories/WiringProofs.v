(** Lemmas for C95. *)
From Coq Require Import String Ascii List Arith ZArith Bool Lia DecimalString DecimalZ DecimalPos.
From Verif Require Import Prelude DatagramModel DatagramSpec DatagramStmt PrintModel PluginModel LinkModel LinkProps NodeModel NetModel ClusterProofs WideSpec WiringModel WiringSpec.
Import ListNotations.
Open Scope list_scope.

(** ** Endpoints *)

Fixpoint colon_free (s : string) : bool := match s with EmptyString => true | String c s' => negb (Ascii.eqb c ":") && colon_free s' end.
Lemma split_none s : colon_free s = true -> split_last s = None.
Proof.
  induction s as [|c s IH]; cbn; [reflexivity|]. intros H. apply andb_true_iff in H as (A & B). rewrite (IH B). apply negb_true_iff in A. now rewrite A.
Qed.
Lemma split_some a b : colon_free b = true -> split_last (a ++ ":" ++ b)%string = Some (a, b).
Proof.
  intros H. induction a as [|c a IH]; cbn in *; [rewrite split_none by exact H; reflexivity|now rewrite IH].
Qed.
Lemma colon_free_uint u : colon_free (NilEmpty.string_of_uint u) = true.
Proof. induction u; cbn; auto. Qed.
Lemma colon_free_int z : colon_free (show_int z) = true.
Proof.
  unfold show_int, NilZero.string_of_int. destruct (Z.to_int z) as [d|d]; cbn; unfold NilZero.string_of_uint; destruct d; cbn; auto using colon_free_uint.
Qed.
Lemma split_endpoint a p : split_last (endpoint a p) = Some (("tcp://" ++ a)%string, show_int p).
Proof.
  exact (split_some ("tcp://" ++ a)%string (show_int p) (colon_free_int p)).
Qed.

Lemma show_int_inj p q : show_int p = show_int q -> p = q.
Proof.
  unfold show_int. intros H. assert (forall z, NilZero.int_of_string (NilZero.string_of_int (Z.to_int z)) = Some (Z.to_int z)) as R.
  { intros z. apply NilZero.isi; destruct z as [|z|z]; cbn; try discriminate; intros E; injection E as E; eapply Unsigned.to_uint_nonnil; exact E. }
  apply (f_equal NilZero.int_of_string) in H. rewrite !R in H. injection H as H. now rewrite <- (DecimalZ.of_to p), <- (DecimalZ.of_to q), H.
Qed.

Lemma reaches_endpoints leads i a p j b q : reaches leads i (endpoint a p) j (endpoint b q) = true <-> p = q /\ leads i ("tcp://" ++ a)%string j ("tcp://" ++ b)%string = true.
Proof.
  unfold reaches. rewrite !split_endpoint, andb_true_iff, String.eqb_eq. split; intros (A & B); (split; [|exact B]); [now apply show_int_inj|now rewrite A].
Qed.

(** ** Calls *)

Definition calls_of (w : wish) : list zcall :=
  server_calls (w_server w) (w_spub w) (w_ssub w) (w_interface w) ++ client_calls (w_client w) (w_cpub w) (w_csub w) (w_host w).
Lemma runs_calls p w : runs_as p w -> pl_calls p = calls_of w.
Proof.
  intros (t & (A1 & A2 & A3 & A4 & A5 & A6 & A7 & A8) & h & l & D & E).
  destruct (C61_settings h l t D) as (a & b & c & d & e & f & g & k & B1 & B2 & B3 & B4 & B5 & B6 & B7 & B8 & E'). rewrite E in E'. injection E' as ->.
  pose proof (C61_determined _ _ _ _ _ A1 B1) as Q. injection Q as <-. pose proof (C61_determined _ _ _ _ _ A2 B2) as Q. injection Q as <-.
  pose proof (C61_determined _ _ _ _ _ A3 B3) as Q. injection Q as <-. pose proof (C61_determined _ _ _ _ _ A4 B4) as Q. injection Q as <-.
  pose proof (C61_determined _ _ _ _ _ A5 B5) as Q. injection Q as <-. pose proof (C61_determined _ _ _ _ _ A6 B6) as Q. injection Q as <-.
  pose proof (C61_determined _ _ _ _ _ A7 B7) as Q. injection Q as <-. pose proof (C61_determined _ _ _ _ _ A8 B8) as Q. injection Q as <-. reflexivity.
Qed.
Lemma configured_runs t p : configured t (pl_calls p) -> exists w, asks t w /\ runs_as p w.
Proof.
  intros (h & l & D & E). destruct (C61_settings h l t D) as (a & b & c & d & e & f & g & k & B1 & B2 & B3 & B4 & B5 & B6 & B7 & B8 & E').
  exists (mkWish a b c d e f g k). assert (asks t (mkWish a b c d e f g k)) as A by (repeat (split; [assumption|]); assumption). split; [exact A|]. exists t. split; [exact A|]. exists h, l. auto.
Qed.

Lemma binds_of w s : binds (calls_of w) s =
  match s with ServerPub => if w_server w then [endpoint (w_interface w) (w_spub w)] else [] | ServerSub => if w_server w then [endpoint (w_interface w) (w_ssub w)] else [] | _ => [] end.
Proof. unfold calls_of, server_calls, client_calls. destruct (w_server w), (w_client w), s; reflexivity. Qed.
Lemma connects_of w s : connects (calls_of w) s =
  match s with ClientPub => if w_client w then [endpoint (w_host w) (w_cpub w)] else [] | ClientSub => if w_client w then [endpoint (w_host w) (w_csub w)] else [] | _ => [] end.
Proof. unfold calls_of, server_calls, client_calls. destruct (w_server w), (w_client w), s; reflexivity. Qed.
Lemma subscribes_of w s : subscribes (calls_of w) s = match s with ServerSub => w_server w | ClientSub => w_client w | _ => false end.
Proof. unfold calls_of, server_calls, client_calls. destruct (w_server w), (w_client w), s; reflexivity. Qed.
Lemma opened_of w s : opened (calls_of w) s = match s with ServerPub | ServerSub => w_server w | _ => w_client w end.
Proof. unfold calls_of, server_calls, client_calls. destruct (w_server w), (w_client w), s; reflexivity. Qed.

Lemma fed_of leads i x r j y r' : fed leads i (calls_of x) r j (calls_of y) r' = true <->
  match r, r' with
  | Server, Client => w_server x = true /\ w_client y = true /\ w_spub x = w_csub y /\ leads j ("tcp://" ++ w_host y)%string i ("tcp://" ++ w_interface x)%string = true
  | Client, Server => w_client x = true /\ w_server y = true /\ w_cpub x = w_ssub y /\ leads i ("tcp://" ++ w_host x)%string j ("tcp://" ++ w_interface y)%string = true
  | _, _ => False
  end.
Proof.
  unfold fed, connected. rewrite !binds_of, !connects_of, subscribes_of. destruct r, r'; cbn [pub_socket sub_socket].
  - cbn. destruct (w_server x), (w_server y); cbn; intuition discriminate.
  - destruct (w_server x), (w_client y); cbn [existsb orb andb]; rewrite ?orb_false_r, ?andb_true_r, ?reaches_endpoints; intuition (try discriminate; congruence).
  - destruct (w_client x), (w_server y); cbn [existsb orb andb]; rewrite ?orb_false_r, ?andb_true_r, ?reaches_endpoints; intuition (try discriminate; congruence).
  - destruct (w_client x), (w_client y); cbn; intuition discriminate.
Qed.

(** ** Wires *)

Lemma wires_in leads count setup i a r j b : In (j, b) (nt_wires (network leads count setup) i a r) <->
  i < count /\ j < count /\ exists x y, nth_error (setup i) a = Some x /\ nth_error (setup j) b = Some y /\ exists r', fed leads i (pl_calls x) r j (pl_calls y) r' = true.
Proof.
  cbn [network nt_wires]. destruct (Nat.ltb_spec i count) as [Hi|Hi]; [|split; [intros []|intros (Q & _); lia]].
  destruct (nth_error (setup i) a) as [x|] eqn:Ex; [|split; [intros []|intros (_ & _ & x & y & Q & _); discriminate Q]]. split.
  - intros I. apply in_flat_map in I as (j' & Ij & I). apply in_flat_map in I as ((b' & y) & Iy & I). apply in_flat_map in I as (r' & Ir & I). cbn [fst snd] in I.
    destruct (fed leads i (pl_calls x) r j' (pl_calls y) r') eqn:F; [|destruct I]. destruct I as [I|[]]. injection I as -> ->. apply in_seq in Ij. apply in_indexed in Iy.
    split; [exact Hi|]. split; [lia|]. exists x, y. repeat (split; [auto|]). exists r'. exact F.
  - intros (_ & Hj & x' & y & Q & Ey & r' & F). injection Q as <-. apply in_flat_map. exists j. split; [apply in_seq; lia|]. apply in_flat_map. exists (b, y). split; [now apply in_indexed|].
    apply in_flat_map. exists r'. split; [destruct r'; cbn; auto|]. cbn [fst snd]. rewrite F. now left.
Qed.

Lemma one_way leads i x r j y r1 r2 : fed leads i (calls_of x) r j (calls_of y) r1 = true -> fed leads i (calls_of x) r j (calls_of y) r2 = true -> r1 = r2.
Proof. rewrite !fed_of. destruct r, r1, r2; tauto. Qed.

Lemma nodup_flat_in {A B} (g : A -> list B) l : NoDup l -> (forall x, In x l -> NoDup (g x)) -> (forall x y z, In x l -> In y l -> In z (g x) -> In z (g y) -> x = y) -> NoDup (flat_map g l).
Proof.
  intros D. induction D as [|x l N D IH]; cbn; intros G J; [constructor|].
  assert (forall a b : list B, NoDup a -> NoDup b -> (forall z, In z a -> In z b -> False) -> NoDup (a ++ b)) as K.
  { clear. induction a as [|c a IH]; cbn; auto. intros b Da Db H. inversion Da; subst. constructor.
    - rewrite in_app_iff. intros [I|I]; [contradiction|]. apply (H c); auto.
    - apply IH; auto. intros z I. apply H. auto. }
  apply K; [apply G; now left|apply IH; [intros y I; apply G; now right|intros a b z Ia Ib; apply J; now right]|].
  intros z I L. apply in_flat_map in L as (y & Iy & Iz). rewrite (J x y z (or_introl eq_refl) (or_intror Iy) I Iz) in N. contradiction.
Qed.
Lemma indexed_nodup {A} (l : list A) : NoDup (indexed l).
Proof. apply (NoDup_map_inv fst). rewrite indexed_fst. apply seq_NoDup. Qed.

Lemma wires_nodup leads count setup i a r : (forall j p, In p (setup j) -> exists w, runs_as p w) -> NoDup (nt_wires (network leads count setup) i a r).
Proof.
  intros H. cbn [network nt_wires]. destruct (Nat.ltb i count); [|constructor]. destruct (nth_error (setup i) a) as [x|] eqn:Ex; [|constructor].
  destruct (H _ _ (nth_error_In _ _ Ex)) as (wx & Rx). rewrite (runs_calls _ _ Rx). clear Ex Rx x.
  assert (forall j yb (z : nat * nat), In z (flat_map (fun r' : role => if fed leads i (calls_of wx) r j (pl_calls (snd yb)) r' then [(j, fst yb)] else []) [Server; Client]) -> z = (j, fst yb)) as Z.
  { intros j yb z I. apply in_flat_map in I as (r' & _ & I). destruct (fed _ _ _ _ _ _ _); [destruct I as [<-|[]]; reflexivity|destruct I]. }
  apply nodup_flat_in; [apply seq_NoDup|intros j Ij|].
  - apply nodup_flat_in; [apply indexed_nodup|intros (b & y) Iy|].
    + apply in_indexed in Iy. destruct (H _ _ (nth_error_In _ _ Iy)) as (wy & Ry). cbn [fst snd flat_map]. rewrite (runs_calls _ _ Ry).
      destruct (fed leads i (calls_of wx) r j (calls_of wy) Server) eqn:F1, (fed leads i (calls_of wx) r j (calls_of wy) Client) eqn:F2; cbn; repeat constructor; try (intros []; fail).
      pose proof (one_way _ _ _ _ _ _ _ _ F1 F2) as Q. discriminate Q.
    + intros (b & y) (b' & y') z I I' Iz Iz'. apply Z in Iz. apply Z in Iz'. subst z. injection Iz' as <-. apply in_indexed in I. apply in_indexed in I'. rewrite I in I'. now injection I' as <-.
  - intros j j' z _ _ I I'. apply in_flat_map in I as (y & _ & I). apply in_flat_map in I' as (y' & _ & I'). apply Z in I. apply Z in I'. congruence.
Qed.

(** ** One link on every process *)

Section Single.
  Variable leads : nat -> string -> nat -> string -> bool.
  Variable k : nat.
  Variable name : string.
  Variable setup : nat -> list plug.
  Variable w : nat -> wish.
  Hypothesis single : forall i, i <= k -> exists p, setup i = [p] /\ pl_name p = name /\ runs_as p (w i).

  Lemma single_wires i a r : nt_wires (network leads (S k) setup) i a r =
    if Nat.leb i k && Nat.eqb a 0 then flat_map (fun j => flat_map (fun r' => if fed leads i (calls_of (w i)) r j (calls_of (w j)) r' then [(j, 0)] else []) [Server; Client]) (seq 0 (S k)) else [].
  Proof.
    cbn [network nt_wires]. change (Nat.ltb i (S k)) with (Nat.leb i k). destruct (Nat.leb_spec i k) as [L|L]; [|reflexivity]. cbn [andb].
    destruct (single i L) as (x & Ex & _ & Rx). rewrite Ex. destruct a as [|a]; cbn [nth_error Nat.eqb]; [|destruct a; reflexivity]. rewrite (runs_calls _ _ Rx).
    rewrite !flat_map_concat_map. f_equal. apply map_ext_in. intros j I. apply in_seq in I.
    destruct (single j ltac:(lia)) as (y & Ey & _ & Ry). rewrite Ey. unfold indexed. cbn [length seq combine flat_map fst snd]. rewrite (runs_calls _ _ Ry), !app_nil_r. reflexivity.
  Qed.

  Lemma single_in i r j b : i <= k -> j <= k -> In (j, b) (nt_wires (network leads (S k) setup) i 0 r) <-> b = 0 /\ exists r', fed leads i (calls_of (w i)) r j (calls_of (w j)) r' = true.
  Proof.
    intros Li Lj. rewrite wires_in. destruct (single i Li) as (x & Ex & _ & Rx). destruct (single j Lj) as (y & Ey & _ & Ry). rewrite Ex, Ey. cbn [nth_error]. split.
    - intros (_ & _ & x' & y' & Qx & Qy & r' & F). injection Qx as <-. destruct b as [|b]; cbn in Qy; [injection Qy as <-|destruct b; discriminate Qy]. split; [reflexivity|]. rewrite (runs_calls _ _ Rx), (runs_calls _ _ Ry) in F. eauto.
    - intros (-> & r' & F). split; [lia|]. split; [lia|]. exists x, y. split; [reflexivity|]. split; [reflexivity|]. exists r'. now rewrite (runs_calls _ _ Rx), (runs_calls _ _ Ry).
  Qed.

  Lemma single_star :
    (w_server (w 0) = true /\ w_client (w 0) = false /\
     forall c, 1 <= c <= k -> w_server (w c) = false /\ w_client (w c) = true /\ w_cpub (w c) = w_ssub (w 0) /\ w_csub (w c) = w_spub (w 0) /\
       leads c ("tcp://" ++ w_host (w c))%string 0 ("tcp://" ++ w_interface (w 0))%string = true) <->
    a_star k name (network leads (S k) setup).
  Proof.
    split.
    - intros (S0 & C0 & Hc). split.
      + intros i. cbn [network nt_links]. change (Nat.ltb i (S k)) with (Nat.leb i k). destruct (Nat.leb_spec i k) as [L|L]; [|exact L].
        destruct (single i L) as (x & -> & Nx & Rx). cbn [map]. split; [exact L|]. split; [exact Nx|]. intros s. cbn [lk_socket]. rewrite (runs_calls _ _ Rx), opened_of.
        destruct i as [|i]; [rewrite S0, C0; destruct s; reflexivity|]. destruct (Hc (S i)) as (A & B & _); [lia|]. rewrite A, B. destruct s; reflexivity.
      + intros i a r Li. rewrite single_wires. rewrite (proj2 (Nat.leb_le i k) Li). destruct a as [|a]; [|destruct i; reflexivity]. cbn [andb Nat.eqb].
        assert (forall r' c, 1 <= c <= k -> fed leads 0 (calls_of (w 0)) Server c (calls_of (w c)) r' = match r' with Client => true | _ => false end) as F0.
        { intros r' c Lc. destruct (Hc c Lc) as (A & B & E1 & E2 & E3). destruct r'; [apply not_true_iff_false; rewrite fed_of; tauto|]. apply fed_of. repeat split; auto. }
        assert (forall r' c, fed leads 0 (calls_of (w 0)) Client c (calls_of (w c)) r' = false) as F1.
        { intros r' c. apply not_true_iff_false. rewrite fed_of. destruct r'; [|tauto]. rewrite C0. intuition discriminate. }
        assert (forall r' c, 1 <= i <= k -> fed leads i (calls_of (w i)) Server c (calls_of (w c)) r' = false) as F2.
        { intros r' c Li0. apply not_true_iff_false. rewrite fed_of. destruct r'; [tauto|]. destruct (Hc i Li0) as (A & _). rewrite A. intuition discriminate. }
        assert (forall r', 1 <= i <= k -> fed leads i (calls_of (w i)) Client 0 (calls_of (w 0)) r' = match r' with Server => true | _ => false end) as F3.
        { intros r' Li0. destruct (Hc i Li0) as (A & B & E1 & E2 & E3). destruct r'; [|apply not_true_iff_false; rewrite fed_of; tauto]. apply fed_of. repeat split; auto. }
        assert (forall r' r c, i <= k -> 1 <= c <= k -> (i = 0 -> r = Client) -> fed leads i (calls_of (w i)) r c (calls_of (w c)) r' = false) as F4.
        { intros r' r0 c Li0 Lc Hr. apply not_true_iff_false. rewrite fed_of. destruct (Hc c Lc) as (A & _). destruct r0, r'; try tauto; rewrite ?A; [|intuition discriminate].
          destruct i as [|i]; [discriminate (Hr eq_refl)|]. destruct (Hc (S i) ltac:(lia)) as (A' & _). rewrite A'. intuition discriminate. }
        assert (forall (g : nat -> list (nat * nat)) l, (forall j, In j l -> g j = []) -> flat_map g l = []) as Nil.
        { intros g l. induction l as [|j l IH]; intros H; [reflexivity|]. cbn. rewrite (H j) by now left. apply IH. intros; apply H; now right. }
        destruct i as [|i], r.
        * rewrite flat_map_concat_map. cbn [seq map concat flat_map].
          replace (fed leads 0 (calls_of (w 0)) Server 0 (calls_of (w 0)) Server) with false by (symmetry; apply not_true_iff_false; rewrite fed_of; tauto).
          replace (fed leads 0 (calls_of (w 0)) Server 0 (calls_of (w 0)) Client) with false by (symmetry; apply not_true_iff_false; rewrite fed_of, C0; intuition discriminate). cbn [app].
          transitivity (concat (map (fun c => [(c, 0)]) (seq 1 k))); [|induction (seq 1 k) as [|c l IH]; cbn; [reflexivity|now rewrite IH]].
          f_equal. apply map_ext_in. intros c I. apply in_seq in I. rewrite !F0 by lia. reflexivity.
        * apply Nil. intros c _. cbn [flat_map]. now rewrite !F1.
        * apply Nil. intros c _. cbn [flat_map]. now rewrite !F2 by lia.
        * rewrite flat_map_concat_map. cbn [seq map concat]. rewrite <- flat_map_concat_map. rewrite Nil by (intros c I; apply in_seq in I; cbn [flat_map]; rewrite !F4 by (try lia; discriminate); reflexivity).
          cbn [flat_map]. rewrite !F3 by lia. reflexivity.
    - intros (L & W).
      assert (forall i, i <= k -> forall s, opened (calls_of (w i)) s = match s with ServerPub | ServerSub => Nat.eqb i 0 | ClientPub | ClientSub => negb (Nat.eqb i 0) end) as Op.
      { intros i Li. specialize (L i). cbn [network nt_links] in L. change (Nat.ltb i (S k)) with (Nat.leb i k) in L. rewrite (proj2 (Nat.leb_le i k) Li) in L.
        destruct (single i Li) as (x & Ex & _ & Rx). rewrite Ex in L. cbn [map] in L. destruct L as (_ & _ & So). intros s. rewrite <- So. cbn [lk_socket]. now rewrite (runs_calls _ _ Rx). }
      pose proof (Op 0 ltac:(lia) ServerPub) as A. pose proof (Op 0 ltac:(lia) ClientPub) as B. rewrite opened_of in A, B. cbn in A, B. split; [exact A|]. split; [exact B|]. intros c Lc.
      pose proof (Op c ltac:(lia) ServerPub) as A1. pose proof (Op c ltac:(lia) ClientPub) as B1. rewrite opened_of in A1, B1. destruct c as [|c]; [lia|]. cbn in A1, B1. split; [exact A1|]. split; [exact B1|].
      assert (In (0, 0) (nt_wires (network leads (S k) setup) (S c) 0 Client)) as I1 by (rewrite W by lia; now left).
      assert (In (S c, 0) (nt_wires (network leads (S k) setup) 0 0 Server)) as I2 by (rewrite W by lia; apply in_map_iff; exists (S c); split; [reflexivity|apply in_seq; lia]).
      apply single_in in I1 as (_ & r1 & I1); [|lia..]. apply single_in in I2 as (_ & r2 & I2); [|lia..]. apply fed_of in I1. apply fed_of in I2. destruct r1; [|contradiction]. destruct r2; [contradiction|].
      destruct I1 as (_ & _ & E1 & E2). destruct I2 as (_ & _ & E3 & _). auto.
  Qed.
End Single.

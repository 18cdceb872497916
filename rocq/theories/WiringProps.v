(** * C95: from configuration files to connected processes *)
From Coq Require Import String Ascii List Arith ZArith NArith Bool Lia Permutation.
From Verif Require Import Prelude OMap DatagramModel DatagramSpec DatagramStmt SerialModel SerialSpec FilesystemModel BusModel BusSpec PluginModel PluginSpec AppModel AppSpec AppProps
  LinkModel LinkProps NodeModel NodeProps NetModel NetProps LifeModel ProgModel MainModel ShippedModel ShippedSpec ShippedProps WideSpec WiringModel WiringSpec WiringProofs MainProofs MainSpec.
From Verif Require ClusterSpec.
Import ListNotations.
Open Scope list_scope.

(** Whatever the configurations: what link [a] of process [i] sends as a server comes to link [b] of process [j] exactly if the first is a server, the second
    a client, the first publishes on the port to which the second subscribes, and the host of the second leads to the first; what it sends
    as a client exactly if the first is a client, the second a server, the first publishes on the port to which the second subscribes, and the host of the first leads to the second. *)
Theorem C95_wired : forall leads count setup i a x wx j b y wy r,
  i < count -> j < count -> nth_error (setup i) a = Some x -> nth_error (setup j) b = Some y -> runs_as x wx -> runs_as y wy ->
  (In (j, b) (nt_wires (network leads count setup) i a r) <->
   match r with
   | Server => w_server wx = true /\ w_client wy = true /\ w_spub wx = w_csub wy /\ leads j ("tcp://" ++ w_host wy)%string i ("tcp://" ++ w_interface wx)%string = true
   | Client => w_client wx = true /\ w_server wy = true /\ w_cpub wx = w_ssub wy /\ leads i ("tcp://" ++ w_host wx)%string j ("tcp://" ++ w_interface wy)%string = true
   end).
Proof.
  intros leads count setup i a x wx j b y wy r Li Lj Ex Ey Rx Ry. rewrite wires_in. split.
  - intros (_ & _ & x' & y' & Qx & Qy & r' & F). rewrite Ex in Qx. injection Qx as <-. rewrite Ey in Qy. injection Qy as <-. rewrite (runs_calls _ _ Rx), (runs_calls _ _ Ry) in F. apply fed_of in F. destruct r, r'; tauto.
  - intros H. split; [exact Li|]. split; [exact Lj|]. exists x, y. split; [exact Ex|]. split; [exact Ey|]. rewrite (runs_calls _ _ Rx), (runs_calls _ _ Ry). exists (match r with Server => Client | Client => Server end). apply fed_of. destruct r; exact H.
Qed.
Print Assumptions C95_wired.

(** Nothing comes twice to one link, and nothing comes to a link that is not there. *)
Theorem C95_once : forall leads count setup, (forall i p, In p (setup i) -> exists w, runs_as p w) ->
  forall i a r, NoDup (nt_wires (network leads count setup) i a r) /\
    forall j b, In (j, b) (nt_wires (network leads count setup) i a r) -> nth_error (nt_links (network leads count setup) j) b <> None.
Proof.
  intros leads count setup H i a r. split; [now apply wires_nodup|]. intros j b I. apply wires_in in I as (_ & Lj & x & y & _ & Ey & _).
  cbn [network nt_links]. rewrite (proj2 (Nat.ltb_lt j count) Lj). rewrite nth_error_map, Ey. discriminate.
Qed.
Print Assumptions C95_once.

(** Every connection leads to a link that listens on the socket of the other role: with C91_taken, nothing is stuck on the way. *)
Theorem C95_matched : forall leads count setup, (forall i p, In p (setup i) -> exists w, runs_as p w) -> ClusterSpec.matched (network leads count setup).
Proof.
  intros leads count setup H i k r j l I. apply wires_in in I as (_ & Lj & x & y & Ex & Ey & r' & F).
  destruct (H _ _ (nth_error_In _ _ Ex)) as (wx & Rx). destruct (H _ _ (nth_error_In _ _ Ey)) as (wy & Ry).
  rewrite (runs_calls _ _ Rx), (runs_calls _ _ Ry) in F. apply fed_of in F.
  cbn [network nt_links]. rewrite (proj2 (Nat.ltb_lt j count) Lj). rewrite nth_error_map, Ey. eexists. split; [reflexivity|]. cbn [lk_socket].
  rewrite (runs_calls _ _ Ry), opened_of. destruct r, r'; tauto.
Qed.
Print Assumptions C95_matched.

(** With one link on every process, the processes are a server and its clients, as C94 has it, exactly if the configurations say so: process 0 is a server only, the others are clients only, the
    clients publish on the port the server listens to and the other way around, and their host leads to the server. *)
Theorem C95_star : forall leads k name setup w, (forall i, i <= k -> exists p, setup i = [p] /\ pl_name p = name /\ runs_as p (w i)) ->
  (a_star k name (network leads (S k) setup) <->
   w_server (w 0) = true /\ w_client (w 0) = false /\
   forall c, 1 <= c <= k ->
     w_server (w c) = false /\ w_client (w c) = true /\ w_cpub (w c) = w_ssub (w 0) /\ w_csub (w c) = w_spub (w 0) /\
     leads c ("tcp://" ++ w_host (w c))%string 0 ("tcp://" ++ w_interface (w 0))%string = true).
Proof. intros leads k name setup w H. symmetry. now apply single_star. Qed.
Print Assumptions C95_star.

(** ** Both roles in one link *)

(** A configuration that enables both roles and says nothing else. *)
Theorem C95_bare : forall t w, asks t w ->
  (forall role key, In role ["server-role"; "client-role"]%string -> In key ["port-pub"; "port-sub"; "interface"; "server-host"]%string -> dg_find t [role; key] = None) ->
  w = mkWish (w_server w) 6967 6968 "*" (w_client w) 6968 6967 "127.0.0.1".
Proof.
  intros t [s sp ss si c cp cs ch] (A1 & A2 & A3 & A4 & A5 & A6 & A7 & A8) H. cbn [w_server w_spub w_ssub w_interface w_client w_cpub w_csub w_host] in *.
  assert (forall role key d v, In role ["server-role"; "client-role"]%string -> In key ["port-pub"; "port-sub"; "interface"; "server-host"]%string -> chosen t [role; key] d v -> v = d) as Q.
  { intros role key d v I1 I2 [(F & _)|(F & _)]; [rewrite (H _ _ I1 I2) in F; discriminate F|exact F]. }
  apply Q in A2, A3, A4, A6, A7, A8; try (cbn; tauto). congruence.
Qed.
Print Assumptions C95_bare.

(** A link that is a server and a client with matching ports, and whose host leads to its own process, is its own peer: each message published on the process, unless its sender
    is marked already, is distributed there three times, twice with its sender marked. *)
Definition own_out (name : string) (x : item) : list delivery :=
  match x with
  | Dist i m => (i, m) :: (if Nat.eqb i 0 && negb (markedb name m) then [(0, mark name m); (0, mark name m)] else [])
  | Arrive i k m => [(i, mark name m)]
  end.
Definition own_good (x : item) : Prop := match x with Arrive i k m => i = 0 /\ k = 0 | Dist i m => i = 0 end.
Theorem C95_self : forall leads setup p w, setup 0 = [p] -> runs_as p w ->
  w_server w = true -> w_client w = true -> w_spub w = w_csub w -> w_cpub w = w_ssub w -> leads 0 ("tcp://" ++ w_host w)%string 0 ("tcp://" ++ w_interface w)%string = true ->
  forall ls dels, wexec (network leads 1 setup) ls ([], []) = Some ([], dels) -> (forall i m, In (WPublish i m) ls -> i = 0) ->
  Permutation dels
    (flat_map (fun d => d :: (if markedb (pl_name p) (snd d) then [] else [(0, mark (pl_name p) (snd d)); (0, mark (pl_name p) (snd d))])) (published ls)).
Proof.
  intros leads setup p w Es R S C P1 P2 L ls dels X Z. set (n := network leads 1 setup) in *.
  assert (forall i, i <= 0 -> exists p0, setup i = [p0] /\ pl_name p0 = pl_name p /\ runs_as p0 w) as Sg by (intros i Li; exists p; replace i with 0 by lia; auto).
  assert (nt_links n 0 = [mkLink (pl_name p) (pl_bus p) (pl_cb p) (opened (pl_calls p))]) as El by (subst n; cbn [network nt_links Nat.ltb Nat.leb]; rewrite Es; reflexivity).
  assert (forall r, nt_wires n 0 0 r = [(0, 0)]) as Ew.
  { intros r. subst n. rewrite (single_wires leads 0 (pl_name p) setup (fun _ => w) Sg 0 0 r). cbn [Nat.leb Nat.eqb andb seq flat_map].
    assert (forall r', fed leads 0 (calls_of w) r 0 (calls_of w) r' = match r, r' with Server, Client | Client, Server => true | _, _ => false end) as F.
    { intros r'. destruct (fed leads 0 (calls_of w) r 0 (calls_of w) r') eqn:F; [apply fed_of in F; destruct r, r'; tauto|]. apply not_true_iff_false in F. rewrite fed_of in F. destruct r, r'; try reflexivity; destruct F; auto. }
    rewrite !F. destruct r; reflexivity. }
  assert (forall m, forward n 0 m = if markedb (pl_name p) m then [] else [Arrive 0 0 m; Arrive 0 0 m]) as Fw.
  { intros m. unfold forward. rewrite El. unfold indexed. cbn [length seq combine flat_map fst snd]. unfold on_message. cbn [lk_id lk_socket]. rewrite sent_by_marked, (runs_calls _ _ R), !opened_of, S, C.
    cbn [lk_id]. destruct (markedb (pl_name p) m); [reflexivity|]. cbn [List.app flat_map]. rewrite !Ew. reflexivity. }
  assert (forall m, process n (Arrive 0 0 m) = ([], [Dist 0 (mark (pl_name p) m)])) as Pr by (intros m; cbn [process]; rewrite El; reflexivity).
  destruct (account n own_good (own_out (pl_name p)) (fun x => match x with Arrive _ _ _ => 2 | Dist _ m => if markedb (pl_name p) m then 1 else 5 end)) with (ls := ls) (pend := @nil item) (dels := @nil delivery) (pend' := @nil item) (dels' := dels) as (_ & B & _).
  - intros [i m|i k m]; cbn [own_good]; [intros ->|intros (-> & ->)].
    + cbn [process snd]. rewrite Fw. destruct (markedb (pl_name p) m); repeat constructor.
    + rewrite Pr. repeat constructor.
  - intros [i m|i k m]; cbn [own_good]; [intros ->|intros (-> & ->)].
    + cbn [process fst snd]. rewrite Fw. cbn [own_out Nat.eqb andb List.app]. destruct (markedb (pl_name p) m); reflexivity.
    + rewrite Pr. cbn [fst snd flat_map own_out Nat.eqb List.app]. rewrite mark_marked. reflexivity.
  - intros [i m|i k m]; cbn [own_good]; [intros ->|intros (-> & ->)].
    + cbn [process snd]. rewrite Fw. destruct (markedb (pl_name p) m); reflexivity.
    + rewrite Pr. cbn [snd map list_sum fold_right]. rewrite mark_marked. reflexivity.
  - exact X.
  - constructor.
  - apply Forall_forall. intros (i & m) I. unfold published in I. apply in_flat_map in I as (l & Il & I). destruct l as [i' m'|]; [|destruct I]. destruct I as [I|[]]. injection I as <- <-. exact (Z _ _ Il).
  - cbn [flat_map List.app] in B. rewrite app_nil_r in B. rewrite B. apply Permutation_refl'. clear - Z.
    assert (forall d, In d (published ls) -> fst d = 0) as Z'.
    { intros (i & m) I. unfold published in I. apply in_flat_map in I as (l & Il & I). destruct l as [i' m'|]; [|destruct I]. destruct I as [I|[]]. injection I as <- <-. exact (Z _ _ Il). }
    induction (published ls) as [|(i & m) l IH]; [reflexivity|]. cbn [flat_map]. rewrite IH by (intros d I; apply Z'; now right). f_equal. cbn [fst snd own_out].
    specialize (Z' (i, m) (or_introl eq_refl)). cbn in Z'. subst i. cbn [Nat.eqb andb]. destruct (markedb (pl_name p) m); reflexivity.
Qed.
Print Assumptions C95_self.

(** ** The configurations that come with LampPost *)

(** config/default_server.cfg and config/default_client.cfg *)
Definition default_server : json := JObject [("general", JObject []); ("plugins", JArray [
  JObject [("type", JString "SysInfo"); ("configuration", JObject [("send-datagram", JBool false)])];
  JObject [("type", JString "Link"); ("configuration", JObject [("server-role",
    JObject [("enabled", JBool true); ("port-pub", JInt 6967); ("port-sub", JInt 6968); ("interface", JString "*")])])]])]%string.
Definition default_client : json := JObject [("general", JObject []); ("plugins", JArray [
  JObject [("type", JString "SysInfo"); ("configuration", JObject [("send-datagram", JBool true)])];
  JObject [("type", JString "Link"); ("configuration", JObject [("client-role",
    JObject [("enabled", JBool true); ("server-host", JString "127.0.0.1"); ("port-pub", JInt 6968); ("port-sub", JInt 6967)])])]])]%string.

(** What they mean. *)
Definition sysinfo_conf (on : bool) : dg := Dct [("send-datagram"%string, Val (DBool on))].
Definition server_conf : dg := Dct [("server-role"%string, Dct [("enabled", Val (DBool true)); ("interface", Val (DStr "*")); ("port-pub", Val (DInt 6967)); ("port-sub", Val (DInt 6968))]%string)].
Definition client_conf : dg := Dct [("client-role"%string, Dct [("enabled", Val (DBool true)); ("port-pub", Val (DInt 6968)); ("port-sub", Val (DInt 6967)); ("server-host", Val (DStr "127.0.0.1"))]%string)].
Definition default_means (client : bool) : dg := Dct [("general", Emp); ("plugins", Lst [
  Dct [("configuration", sysinfo_conf client); ("type", Val (DStr "SysInfo"))];
  Dct [("configuration", if client then client_conf else server_conf); ("type", Val (DStr "Link"))]])]%string.

Lemma default_readable tokener text client : tokener text = Some (if client : bool then default_client else default_server) -> readable tokener [text] [default_means client].
Proof.
  intros E. split; [|split].
  - constructor; [|constructor]. unfold file_means. rewrite E. destruct client; apply (means_by_parser _ _ 10); vm_compute; reflexivity.
  - intros t j [<-|[]] Ej. rewrite E in Ej. injection Ej as <-. apply has_nul_ok. destruct client; vm_compute; reflexivity.
  - repeat constructor.
Qed.

Definition default_wish (client : bool) : wish := mkWish (negb client) 6967 6968 "*" client 6968 6967 "127.0.0.1".
Lemma default_asks client : asks (if client : bool then client_conf else server_conf) (default_wish client).
Proof.
  destruct client; cbn; unfold asks, default_wish, chosen; cbn; repeat split; try (left; split; reflexivity); right; (split; [reflexivity|]); intros w Q; discriminate Q.
Qed.

(** A program that was started with the file [j] as its configuration, with plugins that can be created and initialised and whose names
    do not clash, whose bus runs, and which has loaded the two plugins: these instances run. *)
Definition runs_with (E : env) (fuel : nat) (argv : list string) (l : list inst) : Prop :=
  exists ls s T S rest, mexec E fuel argv ls minit = Some (s, T) /\ T = running S ++ rest /\ available S "SysInfo" /\ available S "Link" /\ l = set_going S.

Lemma running_inj S S' rest rest' : running S ++ rest = running S' ++ rest' -> S = S'.
Proof.
  unfold running, begun. cbn. intros H. injection H as H. rewrite <- !app_assoc in H. cbn in H. revert S' H. induction S as [|e S IH]; intros [|e' S'] H; cbn in H; try discriminate H; [reflexivity|].
  injection H as -> H. f_equal. now apply IH.
Qed.

(** Each starts SysInfo and a link, on buses 1 and 2. *)
Theorem C95_default_instances : forall E argv f client, configuration_files argv = [f] -> en_json E (en_text E f) = Some (if client : bool then default_client else default_server) -> able E -> clash_free E ->
  exists N, forall fuel l, N <= fuel -> runs_with E fuel argv l ->
    l = [mkInst 0 "SysInfo0" 1 (sysinfo_conf client); mkInst 1 "Link0" 2 (if client then client_conf else server_conf)].
Proof.
  intros E argv f client F J Ab Cf. pose proof (default_readable (en_json E) (en_text E f) client J) as Rb.
  destruct (C93_running E argv [default_means client]) as (N & H); [rewrite F; exact Rb|exact Ab|exact Cf|]. exists N. intros fuel l Le (ls & s & T & S & rest & X & -> & A1 & A2 & ->).
  destruct (H fuel ls s _ Le X) as (S' & rest' & here & Et & Hh & Ho & _).
  { unfold running. rewrite !phases_app. apply in_app_iff. left. apply in_app_iff. right. now left. }
  apply running_inj in Et. subst S'. apply Hh in A1, A2. destruct client; cbn in Ho; rewrite A1, A2 in Ho; destruct Ho as (Hl & Hn);
    (destruct (set_going S) as [|a [|b [|]]]; try discriminate Hl;
     pose proof (Hn [] _ _ _ eq_refl) as N1; pose proof (Hn [_] _ _ _ eq_refl) as N2; cbn in N1, N2; injection N1 as ->; injection N2 as ->; reflexivity).
Qed.
Print Assumptions C95_default_instances.

(** The server's file on one process and the client's on [k] others, where for the clients 127.0.0.1 is the computer of the server: together
    they are a server with [k] clients, so that C94 says what is delivered where. *)
Theorem C95_default : forall leads k (E : nat -> env) (argv : nat -> list string) (f : nat -> string),
  (forall i, i <= k -> configuration_files (argv i) = [f i] /\ en_json (E i) (en_text (E i) (f i)) = Some (match i with 0 => default_server | _ => default_client end) /\ able (E i) /\ clash_free (E i)) ->
  (forall c, 1 <= c <= k -> leads c "tcp://127.0.0.1"%string 0 "tcp://*"%string = true) ->
  exists N, forall (fuel : nat -> nat) (insts : nat -> list inst) (setup : nat -> list plug),
    (forall i, i <= k -> N <= fuel i /\ runs_with (E i) (fuel i) (argv i) (insts i) /\ links_of (insts i) (setup i)) ->
    a_star k "Link0" (network leads (S k) setup).
Proof.
  intros leads k E argv f H L.
  assert (forall k', k' <= k -> exists N, forall i, i <= k' -> forall fuel l, N <= fuel -> runs_with (E i) fuel (argv i) l ->
    l = [mkInst 0 "SysInfo0" 1 (sysinfo_conf (negb (Nat.eqb i 0))); mkInst 1 "Link0" 2 (if negb (Nat.eqb i 0) then client_conf else server_conf)]) as Q.
  { induction k' as [|k' IH]; intros Lk.
    - destruct (H 0 Lk) as (A & B & C & D). destruct (C95_default_instances _ _ _ false A B C D) as (N & HN). exists N. intros i Li fuel l. replace i with 0 by lia. apply HN.
    - destruct IH as (N1 & H1); [lia|]. destruct (H (S k') Lk) as (A & B & C & D). destruct (C95_default_instances _ _ _ true A B C D) as (N2 & H2). exists (Nat.max N1 N2). intros i Li fuel l Lf R.
      destruct (Nat.eq_dec i (S k')) as [->|Ne]; [apply (H2 fuel l ltac:(lia) R)|apply (H1 i ltac:(lia) fuel l ltac:(lia) R)]. }
  destruct (Q k (le_n k)) as (N & HN). exists N. intros fuel insts setup Hs.
  apply (C95_star leads k "Link0" setup (fun i => default_wish (negb (Nat.eqb i 0)))).
  - intros i Li. destruct (Hs i Li) as (Lf & R & Lo). rewrite (HN i Li _ _ Lf R) in Lo.
    inversion Lo as [|? ? ? ? k1 E1|? ? ps N1 Lo1]; subst; [cbn in E1; destruct k1; discriminate E1|].
    inversion Lo1 as [|i2 l2 p ps2 k2 E2 En Eb Ec Lo2|? ? ? N2 Lo2]; subst; [|exfalso; apply (N2 0); reflexivity].
    inversion Lo2; subst. exists p. split; [reflexivity|]. split; [exact En|]. exists (if negb (Nat.eqb i 0) then client_conf else server_conf). split; [apply default_asks|exact Ec].
  - cbn. split; [reflexivity|]. split; [reflexivity|]. intros c Lc. destruct c as [|c]; [lia|]. cbn. repeat split. now apply L.
Qed.
Print Assumptions C95_default.

(** ** Cases *)

(** Programs started with one or the other file as "x", and /p with the two libraries. *)
Definition default_place (client : bool) : env :=
  mkEnv (Some "/p/lamppost"%string) (Some "/w"%string) shipped_world (fun f => f) true plain_plugs (fun _ => Some (if client then default_client else default_server)) no_text no_text2 (fun _ => true).
Lemma default_runs client n : runs_with (default_place client) (10 + n) ["lamppost"; "x"]%string
  [mkInst 0 "SysInfo0" 1 (sysinfo_conf client); mkInst 1 "Link0" 2 (if client then client_conf else server_conf)].
Proof.
  destruct (mexec (default_place client) (10 + n) ["lamppost"; "x"]%string up_and_running minit) as [[s T]|] eqn:E.
  - exists up_and_running, s, T, (deeds T), []. split; [exact E|]. rewrite app_nil_r. apply (f_equal (option_map snd)) in E. cbn [option_map snd] in E.
    destruct client; vm_compute in E; injection E as <-; (split; [reflexivity|]); (split; [eexists; vm_compute; eauto 6|]); (split; [eexists; vm_compute; eauto 6|]); reflexivity.
  - exfalso. apply (f_equal (option_map snd)) in E. destruct client; vm_compute in E; discriminate E.
Qed.

(** Configurations as datagrams: the two, and one that enables both roles of a link and says nothing else. *)
Definition server_heap : heap := [
  mkNode [("server-role", Some 1)] [] None TDict; mkNode [("enabled", Some 2); ("interface", Some 3); ("port-pub", Some 4); ("port-sub", Some 5)] [] None TDict;
  mkNode [] [] (Some (DBool true)) TValue; mkNode [] [] (Some (DStr "*")) TValue; mkNode [] [] (Some (DInt 6967)) TValue; mkNode [] [] (Some (DInt 6968)) TValue]%string.
Definition client_heap : heap := [
  mkNode [("client-role", Some 1)] [] None TDict; mkNode [("enabled", Some 2); ("port-pub", Some 3); ("port-sub", Some 4); ("server-host", Some 5)] [] None TDict;
  mkNode [] [] (Some (DBool true)) TValue; mkNode [] [] (Some (DInt 6968)) TValue; mkNode [] [] (Some (DInt 6967)) TValue; mkNode [] [] (Some (DStr "127.0.0.1")) TValue]%string.
Definition both_heap : heap := [
  mkNode [("client-role", Some 1); ("server-role", Some 3)] [] None TDict; mkNode [("enabled", Some 2)] [] None TDict; mkNode [] [] (Some (DBool true)) TValue;
  mkNode [("enabled", Some 4)] [] None TDict; mkNode [] [] (Some (DBool true)) TValue]%string.
Definition both_conf : dg := Dct [("client-role", Dct [("enabled", Val (DBool true))]); ("server-role", Dct [("enabled", Val (DBool true))])]%string.

Ltac owned := repeat first [apply own_val; reflexivity | eapply own_dct; [reflexivity|repeat constructor|reflexivity|cbn [map snd]] | eapply owns_cons | apply owns_nil].
Lemma server_configured : configured server_conf (calls_of (default_wish false)).
Proof. exists server_heap, 0. split; [eexists; owned|vm_compute; reflexivity]. Qed.
Lemma client_configured : configured client_conf (calls_of (default_wish true)).
Proof. exists client_heap, 0. split; [eexists; owned|vm_compute; reflexivity]. Qed.
Definition both_wish : wish := mkWish true 6967 6968 "*" true 6968 6967 "127.0.0.1".
Lemma both_configured : configured both_conf (calls_of both_wish).
Proof. exists both_heap, 0. split; [eexists; owned|vm_compute; reflexivity]. Qed.

(** All on one computer, where 127.0.0.1 leads to what is bound on every interface. *)
Definition one_computer (i : nat) (a : string) (j : nat) (b : string) : bool := String.eqb a "tcp://127.0.0.1" && String.eqb b "tcp://*".
Definition default_setup (i : nat) : list plug := [mkPlug "Link0" 2 7 (calls_of (default_wish (negb (Nat.eqb i 0))))].

(** A server and two clients. *)
Example C95_default_case :
  (forall i, i <= 2 -> let E := default_place (negb (Nat.eqb i 0)) in let argv := ["lamppost"; "x"]%string in let insts := [mkInst 0 "SysInfo0" 1 (sysinfo_conf (negb (Nat.eqb i 0))); mkInst 1 "Link0" 2 (if negb (Nat.eqb i 0) then client_conf else server_conf)] in
     configuration_files argv = ["x"%string] /\ en_json E (en_text E "x"%string) = Some (match i with 0 => default_server | _ => default_client end) /\ able E /\ clash_free E /\
     (forall n, runs_with E (10 + n) argv insts) /\ links_of insts (default_setup i)) /\
  (forall c, 1 <= c <= 2 -> one_computer c "tcp://127.0.0.1" 0 "tcp://*" = true) /\
  a_star 2 "Link0" (network one_computer 3 default_setup) /\
  map (fun i => map (fun r => nt_wires (network one_computer 3 default_setup) i 0 r) [Server; Client]) [0; 1; 2; 3] = [[[(1, 0); (2, 0)]; []]; [[]; [(0, 0)]]; [[]; [(0, 0)]]; [[]; []]].
Proof.
  assert (forall client, able (default_place client) /\ clash_free (default_place client)) as AC.
  { intros client. apply C93_shipped; [|apply C93_shipped_case]. intros n. exists SysInfo, sends_conf, 0. eexists. split; [exact sends_denotes|]. vm_compute. reflexivity. }
  assert (forall i, configured (if negb (Nat.eqb i 0) then client_conf else server_conf) (calls_of (default_wish (negb (Nat.eqb i 0))))) as Cd by (intros [|i]; [exact server_configured|exact client_configured]).
  split; [|split; [reflexivity|split]].
  - intros i Li. cbn zeta. split; [reflexivity|]. split; [destruct i; reflexivity|]. split; [apply AC|]. split; [apply AC|]. split; [intros n; apply default_runs|].
    apply lo_other; [intros k; cbn; discriminate|]. eapply (lo_link _ _ _ _ 0); [reflexivity|reflexivity|reflexivity|apply Cd|constructor].
  - apply (C95_star one_computer 2 "Link0" default_setup (fun i => default_wish (negb (Nat.eqb i 0)))).
    + intros i Li. eexists. split; [reflexivity|]. split; [reflexivity|]. eexists. split; [apply default_asks|apply Cd].
    + cbn. split; [reflexivity|]. split; [reflexivity|]. intros [|c] Lc; [lia|]. cbn. auto.
  - vm_compute. reflexivity.
Qed.

(** One link with both roles and no other settings: its own peer. *)
Lemma both_asks : asks both_conf both_wish.
Proof. unfold asks, both_wish, chosen; cbn; repeat split; try (left; split; reflexivity); right; (split; [reflexivity|]); intros w Q; discriminate Q. Qed.
Definition own_setup (i : nat) : list plug := [mkPlug "Link0" 1 7 (calls_of both_wish)].
Example C95_self_case :
  asks both_conf both_wish /\
  (forall role key, In role ["server-role"; "client-role"]%string -> In key ["port-pub"; "port-sub"; "interface"; "server-host"]%string -> dg_find both_conf [role; key] = None) /\
  runs_as (mkPlug "Link0" 1 7 (calls_of both_wish)) both_wish /\ w_spub both_wish = w_csub both_wish /\ w_cpub both_wish = w_ssub both_wish /\
  one_computer 0 ("tcp://" ++ w_host both_wish)%string 0 ("tcp://" ++ w_interface both_wish)%string = true /\
  wexec (network one_computer 1 own_setup) (WPublish 0 (mkM "root" "t" Emp) :: repeat (WTake 0) 5) ([], []) =
    Some ([], [(0, mkM "root" "t" Emp); (0, mkM "Link0/root" "t" Emp); (0, mkM "Link0/root" "t" Emp)]).
Proof.
  split; [exact both_asks|]. split; [cbn; intros role key [<-|[<-|[]]] [<-|[<-|[<-|[<-|[]]]]]; reflexivity|]. split; [exists both_conf; split; [exact both_asks|exact both_configured]|].
  split; [reflexivity|]. split; [reflexivity|]. split; [reflexivity|]. vm_compute. reflexivity.
Qed.

(** Two processes: a client with the server's ports, not exchanged, is connected but not with sockets that exchange anything. *)
Example C95_wired_case :
  let w := mkWish false 6967 6968 "*" true 6967 6968 "127.0.0.1" in
  map (fun i => map (fun r => nt_wires (network one_computer 2 (fun i => match i with 0 => default_setup 0 | _ => [mkPlug "Link0" 2 7 (calls_of w)] end)) i 0 r) [Server; Client]) [0; 1] = [[[]; []]; [[]; []]].
Proof. vm_compute. reflexivity. Qed.

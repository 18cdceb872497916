(** C58, C61: what a link receives from the frames on the wire; its settings. *)
From Coq Require Import String Ascii List Arith ZArith Bool Lia.
From Verif Require Import Prelude OMap DatagramModel DatagramSpec DatagramProofs SerialModel SerialSpec SerialProps DatagramProps
  DatagramHeap WireModel WireSpec WireProofs WireBuild WireProps LinkModel.
Import ListNotations.
Open Scope nat_scope.
Open Scope string_scope.
Open Scope list_scope.

(** * C58 *)

(** A message of several frames on a socket: all but the last say that more follow. *)
Fixpoint multipart (frames : list string) : queue :=
  match frames with
  | [] => []
  | [f] => [(f, false)]
  | f :: fs => (f, true) :: multipart fs
  end.

Lemma sapp_assoc (a b c : string) : ((a ++ b) ++ c)%string = (a ++ (b ++ c))%string.
Proof. induction a; simpl; congruence. Qed.
Lemma sapp_nil (a : string) : (a ++ "")%string = a.
Proof. induction a; simpl; congruence. Qed.
Lemma concat_cons x l : String.concat "" (x :: l) = (x ++ String.concat "" l)%string.
Proof. destruct l; simpl; [now rewrite sapp_nil|reflexivity]. Qed.

Lemma receive_rest fs : forall rest bytes, fs <> [] -> receive_frames (multipart fs ++ rest) true bytes = ((bytes ++ String.concat "" fs)%string, rest).
Proof.
  induction fs as [|f fs IH]; intros rest bytes H; [congruence|]. destruct fs as [|f1 fs]; [reflexivity|].
  change (multipart (f :: f1 :: fs) ++ rest) with ((f, true) :: (multipart (f1 :: fs) ++ rest)). cbn [receive_frames].
  rewrite IH by discriminate. rewrite (concat_cons f). now rewrite sapp_assoc.
Qed.
Lemma receive_all f fs rest : receive_frames (multipart (f :: fs) ++ rest) false "" = (String.concat "" fs, rest).
Proof.
  destruct fs as [|f1 fs]; [reflexivity|]. change (multipart (f :: f1 :: fs) ++ rest) with ((f, true) :: (multipart (f1 :: fs) ++ rest)). cbn [receive_frames].
  rewrite receive_rest by discriminate. reflexivity.
Qed.

Lemma receive_bytes fuel f fs rest h : String.concat "" fs <> "" ->
  receive_message fuel true (multipart (f :: fs) ++ rest) h =
    (rest, bind (msg_from_wire fuel (list_ascii_of_string (String.concat "" fs))) (fun m => ret (Some m)) h).
Proof. intros H. unfold receive_message. rewrite receive_all. destruct (String.concat "" fs) eqn:E; [congruence|]. reflexivity. Qed.

Lemma message_not_empty b s tp d : message (list_ascii_of_string b) s tp d -> b <> "".
Proof. intros (t & _ & _ & _ & N & _) ->. apply num_in in N. cbn in N. lia. Qed.

(** The next message on the socket: its first frame is skipped whatever it is, the others together are read as a
    message, which is received, and is gone from the socket. *)
Theorem C58_receive : forall f fs rest s tp d, message (list_ascii_of_string (String.concat "" fs)) s tp d ->
  forall fuel h, String.length (String.concat "" fs) < fuel ->
  exists h' m, receive_message fuel true (multipart (f :: fs) ++ rest) h = (rest, (h', Ok (Some m))) /\
    m_sender m = s /\ m_topic m = tp /\ denotes h' (m_dg m) d /\ forall x u, denotes h x u -> denotes h' x u.
Proof.
  intros f fs rest s tp d H fuel h Hf. rewrite receive_bytes by (eapply message_not_empty; eauto).
  destruct (C81_message _ _ _ _ H fuel h) as (h' & m & F & E & A & B & O & _ & _ & K).
  { unfold size. rewrite length_ascii. lia. }
  exists h', m. rewrite (bind_ok _ _ _ _ _ E). split; [reflexivity|]. split; auto. split; auto. split; [eexists; eauto|auto].
Qed.
Print Assumptions C58_receive.

(** Nothing comes from a socket that is null, from an empty one, and from a message that has only a first frame, or
    only empty ones after it; the latter is gone nevertheless. *)
Theorem C58_nothing : forall fuel h,
  (forall q, receive_message fuel false q h = (q, (h, Ok None))) /\
  receive_message fuel true [] h = ([], (h, Ok None)) /\
  (forall f rest, receive_message fuel true (multipart [f] ++ rest) h = (rest, (h, Ok None))) /\
  (forall f fs rest, Forall (eq "") fs -> receive_message fuel true (multipart (f :: fs) ++ rest) h = (rest, (h, Ok None))).
Proof.
  intros fuel h. split; [reflexivity|]. split; [reflexivity|]. split; [reflexivity|].
  intros f fs rest H. unfold receive_message. rewrite receive_all.
  replace (String.concat "" fs) with ""; [reflexivity|]. induction H as [|x l <- _ IH]; [reflexivity|]. now rewrite concat_cons.
Qed.
Print Assumptions C58_nothing.

(** What is sent is received: sending a message gives two frames, "A" and another. If the other is shorter than 2 GiB,
    whoever finds these next on their socket gets the message with the same sender and topic and the normalised
    datagram. *)
Theorem C58_round_trip : forall h m t, denotes h (m_dg m) t -> fits t ->
  exists bytes, (forall fuel, dg_depth t < fuel -> send_message fuel h m = Ok (multipart ["A"; bytes])) /\
  ((Z.of_nat (String.length bytes) < 2 ^ 31)%Z -> forall rest fuel h0, String.length bytes < fuel ->
   exists h' m', receive_message fuel true (multipart ["A"; bytes] ++ rest) h0 = (rest, (h', Ok (Some m'))) /\
    m_sender m' = m_sender m /\ m_topic m' = m_topic m /\ denotes h' (m_dg m') (wire t) /\
    forall x u, denotes h0 x u -> denotes h' x u).
Proof.
  intros h m t D F. destruct (C83_written _ _ _ D) as (b & W & G). exists (string_of_list_ascii b). split.
  - intros fuel Hf. unfold send_message. rewrite (W _ Hf). reflexivity.
  - intros Hs rest fuel h0 Hf. rewrite <- length_ascii, list_ascii_of_string_of_list_ascii in Hs.
    apply C58_receive; auto. cbn [String.concat]. rewrite list_ascii_of_string_of_list_ascii. apply G; auto.
Qed.
Print Assumptions C58_round_trip.

(** Nothing is checked: bytes that are no message are undefined behaviour. *)
Theorem C58_unchecked : forall fuel f fs rest h, String.concat "" fs <> "" -> String.length (String.concat "" fs) < fuel ->
  (forall s tp d, ~ message (list_ascii_of_string (String.concat "" fs)) s tp d) ->
  exists h', receive_message fuel true (multipart (f :: fs) ++ rest) h = (rest, (h', UB)).
Proof.
  intros fuel f fs rest h Hb Hf H. rewrite receive_bytes by auto.
  pose proof (C81_otherwise _ H fuel h) as K. unfold bind.
  destruct (msg_from_wire fuel _ h) as [h' r]. cbn [snd] in K. rewrite K; [eauto|]. unfold size. rewrite length_ascii. lia.
Qed.
Print Assumptions C58_unchecked.

(** A first frame that is not "A", a payload in three pieces, and a message behind it. *)
Example C58_frames : receive_frames (multipart ["topic"; "ab"; ""; "c"] ++ multipart ["A"; "d"]) false "" = ("abc", multipart ["A"; "d"]).
Proof. reflexivity. Qed.

(** The bytes of [C81_case] in two pieces; one byte less is no message. *)
Example C58_case :
  let b := string_of_list_ascii small_bytes in
  message (list_ascii_of_string (String.concat "" [substring 0 30 b; substring 30 38 b])) "" "" (Val (DInt (-7))) /\
  (forall s tp d, ~ message (list_ascii_of_string (String.concat "" [substring 0 67 b])) s tp d).
Proof.
  destruct C81_case as (M & _ & N & _). split; [exact M|]. intros s tp d H. apply N. exists s, tp, d. exact H.
Qed.

(** * C61 *)

(** [v] is what [t] has under the keys [ks] if that is a value of the type of [def], and [def] otherwise. *)
Definition chosen (t : dg) (ks : list string) (def v : data) : Prop :=
  (dg_find t ks = Some (Val v) /\ data_ty v = data_ty def) \/
  (v = def /\ forall w, dg_find t ks = Some (Val w) -> data_ty w <> data_ty def).

Lemma chosen_path h l t path def : denotes h l t -> exists v, dg_path h l (data_ty def) path def = Ok v /\ chosen t (path_keys path) def v /\ data_ty v = data_ty def.
Proof.
  intros D. rewrite (C10_path_lookup _ _ _ _ _ _ D). unfold spec_path. eexists. split; [reflexivity|]. unfold chosen.
  destruct (dg_find t (path_keys path)) as [[|v|ts|kvs]|]; try (split; [right; split; [reflexivity|discriminate]|reflexivity]).
  destruct (vty_eqb (data_ty v) (data_ty def)) eqn:E.
  - apply C09_types_distinct in E. auto.
  - split; [|reflexivity]. right. split; [reflexivity|]. intros w W. injection W as <-. intros X. apply C09_types_distinct in X. congruence.
Qed.
Lemma bool_path h l t path def : denotes h l t -> exists b, get_bool h l path def = Ok b /\ chosen t (path_keys path) (DBool def) (DBool b).
Proof.
  intros D. destruct (chosen_path _ _ _ path (DBool def) D) as (v & E & C & T). cbn [data_ty] in E. unfold get_bool. rewrite E. cbn [res_bind].
  destruct v; try discriminate T. eauto.
Qed.
Lemma int_path h l t path def : denotes h l t -> exists z, get_int h l path def = Ok z /\ chosen t (path_keys path) (DInt def) (DInt z).
Proof.
  intros D. destruct (chosen_path _ _ _ path (DInt def) D) as (v & E & C & T). cbn [data_ty] in E. unfold get_int. rewrite E. cbn [res_bind].
  destruct v; try discriminate T. eauto.
Qed.
Lemma string_path h l t path def : denotes h l t -> exists s, get_string h l path def = Ok s /\ chosen t (path_keys path) (DStr def) (DStr s).
Proof.
  intros D. destruct (chosen_path _ _ _ path (DStr def) D) as (v & E & C & T). cbn [data_ty] in E. unfold get_string. rewrite E. cbn [res_bind].
  destruct v; try discriminate T. eauto.
Qed.

(** The zmq calls a link makes for a configuration. *)
Theorem C61_settings : forall h l t, denotes h l t ->
  exists server spub ssub interface client cpub csub host,
    chosen t ["server-role"; "enabled"] (DBool false) (DBool server) /\
    chosen t ["server-role"; "port-pub"] (DInt 6967) (DInt spub) /\
    chosen t ["server-role"; "port-sub"] (DInt 6968) (DInt ssub) /\
    chosen t ["server-role"; "interface"] (DStr "*") (DStr interface) /\
    chosen t ["client-role"; "enabled"] (DBool false) (DBool client) /\
    chosen t ["client-role"; "port-pub"] (DInt 6968) (DInt cpub) /\
    chosen t ["client-role"; "port-sub"] (DInt 6967) (DInt csub) /\
    chosen t ["client-role"; "server-host"] (DStr "127.0.0.1") (DStr host) /\
    link_setup h l = Ok (
      (if server then [ZSocket ServerPub; ZBind ServerPub ("tcp://" ++ interface ++ ":" ++ int_text spub)%string;
                       ZSocket ServerSub; ZBind ServerSub ("tcp://" ++ interface ++ ":" ++ int_text ssub)%string; ZSubscribe ServerSub "A"] else []) ++
      (if client then [ZSocket ClientPub; ZConnect ClientPub ("tcp://" ++ host ++ ":" ++ int_text cpub)%string;
                       ZSocket ClientSub; ZConnect ClientSub ("tcp://" ++ host ++ ":" ++ int_text csub)%string; ZSubscribe ClientSub "A"] else [])).
Proof.
  intros h l t D. unfold link_setup.
  destruct (bool_path _ _ _ "server-role/enabled" false D) as (server & E1 & C1). rewrite E1. cbn [res_bind].
  destruct (int_path _ _ _ "server-role/port-pub" 6967 D) as (spub & E2 & C2). rewrite E2. cbn [res_bind].
  destruct (int_path _ _ _ "server-role/port-sub" 6968 D) as (ssub & E3 & C3). rewrite E3. cbn [res_bind].
  destruct (string_path _ _ _ "server-role/interface" "*" D) as (interface & E4 & C4). rewrite E4. cbn [res_bind].
  destruct (bool_path _ _ _ "client-role/enabled" false D) as (client & E5 & C5). rewrite E5. cbn [res_bind].
  destruct (int_path _ _ _ "client-role/port-pub" 6968 D) as (cpub & E6 & C6). rewrite E6. cbn [res_bind].
  destruct (int_path _ _ _ "client-role/port-sub" 6967 D) as (csub & E7 & C7). rewrite E7. cbn [res_bind].
  destruct (string_path _ _ _ "client-role/server-host" "127.0.0.1" D) as (host & E8 & C8). rewrite E8. cbn [res_bind].
  exists server, spub, ssub, interface, client, cpub, csub, host.
  repeat (split; [assumption|]). reflexivity.
Qed.
Print Assumptions C61_settings.

(** The settings are determined by the configuration. *)
Theorem C61_determined : forall t ks def v w, chosen t ks def v -> chosen t ks def w -> v = w.
Proof.
  intros t ks def v w [(A & B)|(-> & A)] [(C & D)|(-> & C)]; auto.
  - congruence.
  - destruct (C _ A B).
  - destruct (A _ C D).
Qed.
Print Assumptions C61_determined.

(** A configuration with one role, one port of the wrong type and a host. *)
Definition link_conf : heap := [
  mkNode [("client-role", Some 1); ("server-role", Some 5)] [] None TDict;
  mkNode [("enabled", Some 2); ("port-pub", Some 3); ("server-host", Some 4)] [] None TDict;
  mkNode [] [] (Some (DBool true)) TValue; mkNode [] [] (Some (DStr "7000")) TValue; mkNode [] [] (Some (DStr "lamp")) TValue;
  mkNode [] [] (Some (DBool true)) TValue].
Example C61_case : link_setup link_conf 0 = Ok [ZSocket ClientPub; ZConnect ClientPub "tcp://lamp:6968"; ZSocket ClientSub; ZConnect ClientSub "tcp://lamp:6967"; ZSubscribe ClientSub "A"].
Proof. vm_compute. reflexivity. Qed.
Example C61_case_denotes : denotes link_conf 0
  (Dct [("client-role", Dct [("enabled", Val (DBool true)); ("port-pub", Val (DStr "7000")); ("server-host", Val (DStr "lamp"))]); ("server-role", Val (DBool true))]).
Proof.
  eexists. eapply own_dct; [reflexivity|repeat constructor|reflexivity|]. cbn [map snd].
  eapply owns_cons; [|eapply owns_cons; [apply own_val; reflexivity|constructor]].
  eapply own_dct; [reflexivity|repeat constructor|reflexivity|]. cbn [map snd].
  repeat (eapply owns_cons; [apply own_val; reflexivity|]). constructor.
Qed.

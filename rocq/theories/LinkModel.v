(** Model of the link plugin, src/plugins/link/Link.cpp ("Link"): settings, sending, receiving.

    Simplifications:
    - zmq is represented by what it hands over: a receiving socket holds a queue of frames, each with
      the flag ZMQ_RCVMORE reports; a message with several frames arrives as a whole or not at all.
      zmq_msg_init and the read of ZMQ_RCVMORE do not fail.
    - zmq_socket may fail: [lk_socket] says which sockets are not null. The results of zmq_bind,
      zmq_connect, zmq_send and zmq_msg_send only decide what is logged and do not appear; TransportModel.v has
      what happens when calls of sending and receiving fail.
    - The bytes of a frame are a string. RawBytes::Append is concatenation (C17). *)
From Coq Require Import String Ascii List Arith ZArith Bool.
From Verif Require Import Prelude OMap DatagramModel SerialModel WireModel PrintModel BusModel.
Import ListNotations.
Open Scope string_scope.
Open Scope list_scope.

(** ** Settings *)

Definition get_bool (h : heap) (l : loc) (path : string) (def : bool) : res bool :=
  res_bind (dg_path h l TyBool path (DBool def)) (fun d => match d with DBool b => Ok b | _ => UB end).
Definition get_int (h : heap) (l : loc) (path : string) (def : Z) : res Z :=
  res_bind (dg_path h l TyInt path (DInt def)) (fun d => match d with DInt z => Ok z | _ => UB end).
Definition get_string (h : heap) (l : loc) (path : string) (def : string) : res string :=
  res_bind (dg_path h l TyStr path (DStr def)) (fun d => match d with DStr s => Ok s | _ => UB end).

(** Link.h:25-28 *)
Inductive sock : Type := ServerPub | ServerSub | ClientPub | ClientSub.

(** Calls of zmq functions. *)
Inductive zcall : Type :=
| ZSocket (k : sock)
| ZBind (k : sock) (endpoint : string)
| ZConnect (k : sock) (endpoint : string)
| ZSubscribe (k : sock) (prefix : string).

(** Link:34-35, 56-57; std::to_string is decimal *)
Definition endpoint (host : string) (port : Z) : string := ("tcp://" ++ host ++ ":" ++ show_int port)%string.

(** Link:32-47 *)
Definition server_calls (on : bool) (pub sub : Z) (interface : string) : list zcall :=
  if on then [ZSocket ServerPub; ZBind ServerPub (endpoint interface pub);
              ZSocket ServerSub; ZBind ServerSub (endpoint interface sub); ZSubscribe ServerSub "A"]
  else [].
(** Link:54-69 *)
Definition client_calls (on : bool) (pub sub : Z) (host : string) : list zcall :=
  if on then [ZSocket ClientPub; ZConnect ClientPub (endpoint host pub);
              ZSocket ClientSub; ZConnect ClientSub (endpoint host sub); ZSubscribe ClientSub "A"]
  else [].

(** Link:27-69, on the configuration datagram at [l]. *)
Definition link_setup (h : heap) (l : loc) : res (list zcall) :=
  res_bind (get_bool h l "server-role/enabled" false) (fun server =>
  res_bind (get_int h l "server-role/port-pub" 6967) (fun spub =>
  res_bind (get_int h l "server-role/port-sub" 6968) (fun ssub =>
  res_bind (get_string h l "server-role/interface" "*") (fun interface =>
  res_bind (get_bool h l "client-role/enabled" false) (fun client =>
  res_bind (get_int h l "client-role/port-pub" 6968) (fun cpub =>
  res_bind (get_int h l "client-role/port-sub" 6967) (fun csub =>
  res_bind (get_string h l "client-role/server-host" "127.0.0.1") (fun host =>
  Ok (server_calls server spub ssub interface ++ client_calls client cpub csub host))))))))).

(** ** Frames *)

Definition queue : Type := list (string * bool).

(** Link:203-232: the bytes collected, and what is left of the queue. *)
Fixpoint receive_frames (q : queue) (skipped : bool) (bytes : string) : string * queue :=
  match q with
  | [] => (bytes, [])                                         (* zmq_recvmsg: EAGAIN *)
  | (frame, more) :: q' =>
      let bytes' := if skipped then (bytes ++ frame)%string else bytes in
      if more then receive_frames q' true bytes' else (bytes', q')
  end.

(** Link:190-242. [None]: returns false. The socket is null when [present] is false. *)
Definition receive_message (fuel : nat) (present : bool) (q : queue) (h : heap) : queue * (heap * res (option msg)) :=
  if present then
    let (bytes, q') := receive_frames q false "" in
    if Nat.ltb 0 (String.length bytes)
    then (q', bind (msg_from_wire fuel (list_ascii_of_string bytes)) (fun m => ret (Some m)) h)
    else (q', (h, Ok None))
  else (q, (h, Ok None)).

(** Link:249-256: the frames handed to zmq. *)
Definition send_message (fuel : nat) (h : heap) (m : msg) : res queue :=
  res_map (fun bytes => [("A", true); (string_of_list_ascii bytes, false)]) (msg_to_wire fuel h m).

(** ** What the link does with messages *)

Inductive role : Type := Server | Client.

(** One link plugin instance: identifier, bus, the callback of Link:73-97, and which sockets are not null. *)
Record link : Type := mkLink { lk_id : string; lk_bus : nat; lk_cb : nat; lk_socket : sock -> bool }.

Definition pub_socket (r : role) : sock := match r with Server => ServerPub | Client => ClientPub end.
Definition sub_socket (r : role) : sock := match r with Server => ServerSub | Client => ClientSub end.

(** Message.cpp:72-75 and 59-62, as in SerialModel *)
Definition sent_by (name : string) (m : bmsg) : bool :=
  String.eqb (substring 0 (String.length name + 1) (bm_sender m)) (name ++ "/").
Definition prepend (name : string) (m : bmsg) : bmsg := mkM (name ++ "/" ++ bm_sender m)%string (bm_topic m) (bm_data m).

(** Link:75-96: the roles over which the message goes out. *)
Definition on_message (k : link) (m : bmsg) : list role :=
  if sent_by (lk_id k) m then []
  else (if lk_socket k ServerPub then [Server] else []) ++ (if lk_socket k ClientPub then [Client] else []).

(** Link:163-171, 178-183: what is published on the link's bus for a received message. *)
Definition on_receive (k : link) (m : bmsg) : bmsg := prepend (lk_id k) m.

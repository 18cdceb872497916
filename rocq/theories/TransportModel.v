(** Model of what a link does when calls of ZeroMQ fail: Link::SendZmqMessage and Link::ReceiveMessage
    (src/plugins/link/Link.cpp, "Link"). LinkModel.v has them without failures.

    Simplifications:
    - A socket collects the frames sent with ZMQ_SNDMORE until one is sent without; then they are one message. A call that fails
      leaves the socket as it was. This is ZeroMQ's documented behaviour, not derived from its sources (an empty submodule).
    - A subscriber gets the messages whose first frame begins with what it subscribed to, in order, none lost.
    - Which calls fail is open. zmq_getsockopt and zmq_msg_close do not fail. The bytes of the message are given (C58, C83). *)
From Coq Require Import String Ascii List Arith ZArith Bool.
From Verif Require Import Prelude OMap DatagramModel SerialModel WireModel LinkModel.
Import ListNotations.
Open Scope string_scope.
Open Scope list_scope.

(** ** Sending *)

(** A publishing socket: the frames of the message begun, and the complete messages. *)
Record tx : Type := mkTx { tx_open : list string; tx_out : list (list string) }.
Definition tx_init : tx := mkTx [] [].

(** zmq_send and zmq_msg_send of one frame *)
Definition zsend (ok more : bool) (frame : string) (s : tx) : tx :=
  if ok then if more then mkTx (tx_open s ++ [frame]) (tx_out s) else mkTx [] (tx_out s ++ [tx_open s ++ [frame]])
  else s.

(** What zmq_msg_send returns, an int: the size, cut off at INT_MAX, or -1. *)
Definition send_result (ok : bool) (frame : string) : Z :=
  if ok then Z.min (Z.of_nat (String.length frame)) 2147483647 else (-1)%Z.

(** Which of the three calls succeed: zmq_msg_init_size, zmq_send, zmq_msg_send. *)
Record outcome : Type := mkOutcome { o_init : bool; o_topic : bool; o_payload : bool }.

(** Link:244-277. The comparison of Link:258 is one of unsigned 64-bit numbers. *)
Definition send_zmq (o : outcome) (bytes : string) (s : tx) : tx * bool :=
  if o_init o then                                                              (* Link:251 *)
    let s := zsend (o_topic o) true "A" s in                                    (* Link:255 *)
    let s := zsend (o_payload o) false bytes s in                               (* Link:256 *)
    (s, Z.eqb (send_result (o_payload o) bytes mod 2 ^ 64) (Z.of_nat (String.length bytes)))
  else (s, false).

(** A sequence of calls, as the callback of Link:73-97 makes them. *)
Fixpoint send_all (l : list (outcome * string)) (s : tx) : tx * list bool :=
  match l with
  | [] => (s, [])
  | (o, bytes) :: l' =>
      let (s1, r) := send_zmq o bytes s in
      let (s2, rs) := send_all l' s1 in
      (s2, r :: rs)
  end.

(** ** On the way *)

(** The frames of a message as a receiving socket reports them, with ZMQ_RCVMORE *)
Fixpoint as_frames (fs : list string) : queue :=
  match fs with
  | [] => []
  | [f] => [(f, false)]
  | f :: fs' => (f, true) :: as_frames fs'
  end.
(** The subscription of Link:46 and 68 *)
Definition subscribed (fs : list string) : bool := match fs with f :: _ => String.prefix "A" f | [] => false end.
Definition arrivals (out : list (list string)) : queue := flat_map as_frames (filter subscribed out).

(** ** Receiving *)

(** In each round of the loop: zmq_msg_init fails, zmq_recvmsg fails, or it gives the next frame, if there is one. *)
Inductive round : Type := InitFails | RecvFails | Receives.

(** Link:203-232. [None]: still in the loop when the rounds are used up. *)
Fixpoint receive_rounds (rs : list round) (q : queue) (more skipped : bool) (bytes : string) : option (string * queue) :=
  match rs with
  | [] => None
  | InitFails :: rs' => if more then receive_rounds rs' q more skipped bytes else Some (bytes, q)      (* Link:205 *)
  | RecvFails :: _ => Some (bytes, q)                                                                  (* Link:225-228 *)
  | Receives :: rs' =>
      match q with
      | [] => Some (bytes, [])
      | (frame, m) :: q' =>
          let bytes' := if skipped then (bytes ++ frame)%string else bytes in                          (* Link:214-221 *)
          if m then receive_rounds rs' q' true true bytes' else Some (bytes', q')
      end
  end.

(** Model of code that holds datagrams and messages: src/lamppost/messages/Message.cpp ("M.cpp") and
    include/lamppost/messages/Message.h ("M.h"). The datagrams are those of [DatagramModel]; every way of using them is
    a command of the holder. Messages are made from the holder's datagrams, copied, and read.

    Simplifications: messages are never destroyed; senders and topics do not change here (C18 is about them). *)
From Coq Require Import String List Arith Bool.
From Verif Require Import Prelude OMap DatagramModel SerialModel.
Import ListNotations.
Open Scope list_scope.

(** The implicit copy constructor of Message (M.h:19-34): memberwise, so Datagram's copy constructor for the payload. A
    message is copied by Bus.cpp:22 (push_back), 159 (deque), 166 and 200 (Distribute), Subscriber.cpp:26-32 (Receive). *)
Definition msg_copy (fuel : nat) (m : msg) : M msg :=
  c <- dg_copy_ctor fuel (m_dg m) ;; ret (mkMsg (m_sender m) (m_topic m) c).

Inductive mop : Type :=
| MUse (c : cmd)                                   (* any use of the holder's datagrams *)
| MMake (s : nat) (sender topic : string)          (* Message(sender, topic, datagram s): M.cpp:6-11 *)
| MCopy (i : nat)                                  (* a copy of message i *)
| MGet (i : nat).                                  (* Datagram d = message i .GetDatagram(): M.cpp:23-26 *)

(** The heap, the holder's datagrams and the messages. *)
Record mstate : Type := mkMS { ms_heap : heap; ms_env : list loc; ms_msgs : list msg }.

Definition minit : mstate := mkMS [] [] [].

(** The state after an operation and how it ended. *)
Definition mstep (fuel : nat) (o : mop) (st : mstate) : mstate * res unit :=
  match o with
  | MUse c =>
      let '((h, env), r) := exec fuel c (ms_heap st, ms_env st) in (mkMS h env (ms_msgs st), res_map (fun _ => tt) r)
  | MMake s sender topic =>
      match nth_error (ms_env st) s with
      | Some l =>
          let (h, r) := msg_new fuel sender topic l (ms_heap st) in
          (mkMS h (ms_env st) (ms_msgs st ++ match r with Ok m => [m] | _ => [] end), res_map (fun _ => tt) r)
      | None => (st, Ok tt)
      end
  | MCopy i =>
      match nth_error (ms_msgs st) i with
      | Some x =>
          let (h, r) := msg_copy fuel x (ms_heap st) in
          (mkMS h (ms_env st) (ms_msgs st ++ match r with Ok m => [m] | _ => [] end), res_map (fun _ => tt) r)
      | None => (st, Ok tt)
      end
  | MGet i =>
      match nth_error (ms_msgs st) i with
      | Some x =>
          let (h, r) := msg_datagram fuel x (ms_heap st) in
          (mkMS h (ms_env st ++ match r with Ok d => [d] | _ => [] end) (ms_msgs st), res_map (fun _ => tt) r)
      | None => (st, Ok tt)
      end
  end.

(** Operations one after the other; [None] if one of them is undefined or does not end. *)
Fixpoint mrun (fuel : nat) (os : list mop) (st : mstate) : option mstate :=
  match os with
  | [] => Some st
  | o :: os' =>
      match mstep fuel o st with
      | (st', Ok _) | (st', Throw _) => mrun fuel os' st'
      | (_, UB) | (_, NoFuel) => None
      end
  end.

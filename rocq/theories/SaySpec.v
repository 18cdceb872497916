(** Vocabulary of the theorems on SayModel. *)
From Coq Require Import String List Arith Bool NArith ZArith.
From Verif Require Import Prelude DatagramModel DatagramSpec SerialSpec BusModel BusSpec SysInfoModel LogModel SayModel.
From Verif Require Import BusModel.
Import ListNotations.
Open Scope list_scope.

(** What happened on the bus. *)
Definition on_bus (T : list yevent) : list event := flat_map (fun e => match e with YEv e => [e] | _ => [] end) T.

(** The callbacks entered by the bus thread of [r]. *)
Definition entered (r : nat) (T : list yevent) : list call :=
  flat_map (fun e => match e with YEv (EvInvoke r' _ _ c) => if Nat.eqb r' r then [c] else [] | _ => [] end) T.

(** What is written on the bus thread of [r], and by which instance. *)
Definition written (r : nat) (T : list yevent) : list (nat * LogModel.call) :=
  flat_map (fun e => match e with YLine k (Thread r') c => if Nat.eqb r' r then [(k, c)] else [] | _ => [] end) T.

(** What the worker of instance [k] does. *)
Definition done_by (k : nat) (T : list yevent) : list yevent :=
  filter (fun e => match e with YPub k' _ | YLine k' Worker _ => Nat.eqb k' k | _ => false end) T.

(** Instance number [k] of [is] is to write [line] for callback [c]. *)
Definition to_write (sd : N -> string) (so : string -> string -> string) (is : list yinst) (c : call) (k : nat) (line : LogModel.call) : Prop :=
  exists i, nth_error is k = Some i /\ c_prefix line = yi_name i /\ c_indent line = 0%Z /\
    ((exists s, c = CallData (yi_hear i) (Val (DStr s)) /\ c_message line = ("Got it: " ++ s)%string) \/
     (exists p id d, c = CallProvider p id (yi_answer i) d /\ c_message line = ("Received action request: " ++ render sd so d)%string)).

(** No two instances share a lambda. *)
Definition distinct (is : list yinst) : Prop := NoDup (map yi_hear is) /\ NoDup (map yi_answer is).

(** The callbacks [cs] and the lines [ls]: one line for each callback that is to write one, in order; none for the others. *)
Inductive lines_for (sd : N -> string) (so : string -> string -> string) (is : list yinst) : list call -> list (nat * LogModel.call) -> Prop :=
| lf_nil : lines_for sd so is [] []
| lf_line c k l cs ls : to_write sd so is c k l -> lines_for sd so is cs ls -> lines_for sd so is (c :: cs) ((k, l) :: ls)
| lf_none c cs ls : (forall k l, ~ to_write sd so is c k l) -> lines_for sd so is cs ls -> lines_for sd so is (c :: cs) ls.

(** How many publications, and how many lines, there are among [T]. *)
Definition pubs (T : list yevent) : nat := length (filter (fun e => match e with YPub _ _ => true | _ => false end) T).
Definition says_n (T : list yevent) : nat := length (filter (fun e => match e with YLine _ _ _ => true | _ => false end) T).

(** Instance [k], called [name], does its rounds [ns] and then [rest]: a round is a publication and, once it is back, the line. *)
Definition rounds (k : nat) (name : string) (ns : list nat) (rest : list yevent) : list yevent :=
  flat_map (fun n => [YPub k n; YLine k Worker (mkCall name "Sent datagram" 0%Z)]) ns ++ rest.

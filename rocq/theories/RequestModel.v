(** Model of one call of the synchronous ActionConsumer::Request
    (src/lamppost/bus/ActionConsumer.cpp:42-71) with the bus thread and the clock.

    The threads are the one inside Request ("the waiter") and the bus thread, which may invoke the
    registered lambda any number of times, one invocation after the other, with any datagram, once
    line 33 has registered it (C36 and C64 say when it does).

    Granularity and simplifications:
    - Every access to [waiting], to [response] and to the condition variable is one step; the
      assignment to [response] is two (it is not atomic).
    - std::condition_variable::wait_for with a predicate is the loop the standard prescribes: test;
      sleep until notified, woken for no reason, or timed out; after a timeout one more test.
    - Only the waiter locks [mtx] (the lambda does not), so the mutex has no state.
    - Evaluating [return response] and ending the lifetime of the locals is one step.
    - Accesses are sequentially consistent. *)
From Coq Require Import List Arith Bool.
From Verif Require Import Prelude DatagramSpec.
Import ListNotations.
Open Scope list_scope.

(** The waiter. *)
Inductive wpc : Type :=
| WRegister                     (* before line 33, called from 52 *)
| WPublish                      (* before line 39 *)
| WCheck                        (* 64-68: about to test the predicate *)
| WBlock                        (* it was false: about to sleep *)
| WAsleep (notified : bool)
| WFinal                        (* timed out: about to test it for the last time *)
| WReturn                       (* before line 70 *)
| WLeft.                        (* Request has returned or thrown: its locals are gone *)

(** The lambda of lines 54-62 on the bus thread, with its argument. *)
Inductive cpc : Type :=
| CIdle
| CTest (d : dg)                (* before 56 *)
| CWrite (d : dg)               (* before 58 *)
| CWriting (d : dg)             (* within 58 *)
| CClear (d : dg)               (* before 59 *)
| CNotify (d : dg)              (* before 60 *)
| CEnd (d : dg).                (* before 62 *)

(** The locals of Request (44-50), and where the two threads are. [q_reg]: the lambda is in
    mOpenRequests. *)
Record qstate : Type := mkQ { q_w : wpc; q_c : cpc; q_reg : bool; q_waiting : bool; q_resp : dg }.

(** Undefined behaviour is a state of its own. *)
Inductive qmach : Type := QLive (st : qstate) | QUndef.

(** Lines 44-50 done, nothing registered. *)
Definition qinit : qmach := QLive (mkQ WRegister CIdle false true Emp).

Inductive qlabel : Type :=
| QRegister | QPublish | QFail (e : exc)    (* RequestAsync: 33; 39 returns; 39 throws *)
| QCheck | QBlock | QWake | QSpurious | QTimeout | QFinal   (* 64-68 *)
| QReturn                                   (* 70 *)
| QEnter (d : dg) | QTest | QWrite | QWritten | QClear | QNotify | QEnd.  (* the bus thread *)

(** Observed: an invocation begins, ends; Request returns, throws. *)
Inductive qevent : Type :=
| QeEnter (d : dg) | QeEnd (d : dg) | QeReturn (v : dg) | QeThrow (e : exc).

Definition w_set (st : qstate) (w : wpc) : qmach := QLive (mkQ w (q_c st) (q_reg st) (q_waiting st) (q_resp st)).
Definition c_set (st : qstate) (c : cpc) : qmach := QLive (mkQ (q_w st) c (q_reg st) (q_waiting st) (q_resp st)).

(** Is the waiter past line 70? *)
Definition w_left (w : wpc) : bool := match w with WLeft => true | _ => false end.

(** A step of the lambda that touches a local of Request: undefined once that is gone. *)
Definition local (st : qstate) (m : qmach) : qmach := if w_left (q_w st) then QUndef else m.

Definition qstep1 (l : qlabel) (st : qstate) : option (qmach * list qevent) :=
  match l, q_w st, q_c st with
  | QRegister, WRegister, c => Some (QLive (mkQ WPublish c true (q_waiting st) (q_resp st)), [])
  | QPublish, WPublish, _ => Some (w_set st WCheck, [])
  | QFail e, WPublish, _ => Some (w_set st WLeft, [QeThrow e])
  | QCheck, WCheck, _ => Some (w_set st (if q_waiting st then WBlock else WReturn), [])
  | QBlock, WBlock, _ => Some (w_set st (WAsleep false), [])
  | QWake, WAsleep true, _ => Some (w_set st WCheck, [])
  | QSpurious, WAsleep _, _ => Some (w_set st WCheck, [])
  | QTimeout, WAsleep _, _ => Some (w_set st WFinal, [])
  | QFinal, WFinal, _ => Some (w_set st WReturn, [])           (* the value of the last test is not used *)
  | QReturn, WReturn, CWriting _ => Some (QUndef, [])          (* reads [response] while it is written *)
  | QReturn, WReturn, _ => Some (w_set st WLeft, [QeReturn (q_resp st)])
  | QEnter d, _, CIdle => if q_reg st then Some (c_set st (CTest d), [QeEnter d]) else None
  | QTest, _, CTest d => Some (local st (c_set st (if q_waiting st then CWrite d else CEnd d)), [])
  | QWrite, _, CWrite d => Some (local st (c_set st (CWriting d)), [])
  | QWritten, _, CWriting d => Some (local st (QLive (mkQ (q_w st) (CClear d) (q_reg st) (q_waiting st) d)), [])
  | QClear, _, CClear d => Some (local st (QLive (mkQ (q_w st) (CNotify d) (q_reg st) false (q_resp st))), [])
  | QNotify, w, CNotify d => Some (local st (QLive (mkQ (match w with WAsleep _ => WAsleep true | _ => w end)
                                                      (CEnd d) (q_reg st) (q_waiting st) (q_resp st))), [])
  | QEnd, _, CEnd d => Some (c_set st CIdle, [QeEnd d])
  | _, _, _ => None
  end.

Definition qstep (l : qlabel) (m : qmach) : option (qmach * list qevent) :=
  match m with QLive st => qstep1 l st | QUndef => None end.

Fixpoint qexec (ls : list qlabel) (m : qmach) : option (qmach * list qevent) :=
  match ls with
  | [] => Some (m, [])
  | l :: ls' =>
      match qstep l m with
      | Some (m1, e1) => match qexec ls' m1 with Some (m2, e2) => Some (m2, e1 ++ e2) | None => None end
      | None => None
      end
  end.

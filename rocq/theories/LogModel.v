(** Model of logging from several threads, and of the stop signal's handler, which logs:
    src/lamppost/log/Log.cpp ("Log"), src/lamppost/platformspecific/xnix/Xnix.cpp ("Xnix"),
    src/main.cpp:14-17, src/lamppost/LampPost.cpp:146-150.

    Simplifications:
    - std::cout takes one character at a time; it does not fail. Nothing else writes to it.
    - Of a thread we see its calls of Log::Info, Warning and Error, in order.
    - std::mutex is not recursive: locking it waits while any thread holds it. (For a thread that holds
      it already the standard leaves the behaviour undefined; with the pthread mutex used on the
      platforms of Xnix.cpp it waits.)
    - The handler runs on one of the threads, between two of its steps, and is not interrupted by a
      second signal (Xnix:25 masks all signals). Of what it does we see the log line; setting the
      flag (Bus::Stop) does not wait. Memory allocation inside the handler is left out. *)
From Coq Require Import String Ascii List Arith ZArith Bool.
From Verif Require Import Prelude.
Import ListNotations.
Open Scope string_scope.
Open Scope list_scope.

(** A call: the log's prefix, the message, the indentation level. *)
Record call : Type := mkCall { c_prefix : string; c_message : string; c_indent : Z }.

(** Log:19-24: the loop [for (int i = 0; i < level; ++i)]. *)
Fixpoint indent_loop (n : nat) (acc : string) : string :=
  match n with 0 => acc | S n' => indent_loop n' (acc ++ "  ")%string end.
(** Log:17-27: the text handed to WriteSynchronized. *)
Definition line_of (c : call) : string :=
  ("[" ++ c_prefix c ++ "] " ++ indent_loop (Z.to_nat (c_indent c)) "" ++ c_message c)%string.

Definition newline : ascii := ascii_of_nat 10.

(** Where an activity is in WriteSynchronized, Log:10-15. *)
Inductive act : Type :=
| Rest                        (* not in it *)
| Wants (c : call)            (* Log:12, about to lock *)
| Writes (rest : string).     (* Log:14, holding the lock; characters still to write *)

(** A thread: calls to come, its own activity, and the handler's, when the handler runs on it. *)
Record thread : Type := mkThread { th_todo : list call; th_act : act; th_sig : option act }.

(** [lg_owner]: who holds sSynchronizationMutex. *)
Record lstate : Type := mkLog { lg_threads : list thread; lg_owner : option nat; lg_out : string }.

Inductive llabel : Type :=
| LCall (t : nat)             (* thread t makes its next call *)
| LLock (t : nat)             (* it gets the lock *)
| LChar (t : nat)             (* it writes a character *)
| LUnlock (t : nat)           (* it is done with the line *)
| LSignal (t : nat).          (* the handler starts on thread t *)

(** LampPost:148: mLog("LampPost"), Info without indentation *)
Definition signal_call : call := mkCall "LampPost" "Received stop signal." 0.

(** The activity that runs on the thread, and the thread with another in its place. *)
Definition running (th : thread) : act := match th_sig th with Some a => a | None => th_act th end.
Definition put (th : thread) (a : act) : thread :=
  match th_sig th with
  | Some _ => mkThread (th_todo th) (th_act th) (match a with Rest => None | _ => Some a end)   (* at the end the handler returns *)
  | None => mkThread (th_todo th) a None
  end.

Definition in_handler (th : thread) : bool := match th_sig th with Some _ => true | None => false end.

(** Events: whose turn it is, in the order in which the lock is taken; [true]: the handler's call. *)
Definition lstep (l : llabel) (s : lstate) : option (lstate * list (nat * bool * call)) :=
  let set t th o out := mkLog (list_set t th (lg_threads s)) o out in
  match l with
  | LCall t =>
      match nth_error (lg_threads s) t with
      | Some (mkThread (c :: cs) Rest None) => Some (set t (mkThread cs (Wants c) None) (lg_owner s) (lg_out s), [])
      | _ => None
      end
  | LLock t =>
      match nth_error (lg_threads s) t with
      | Some th =>
          match running th, lg_owner s with
          | Wants c, None => Some (set t (put th (Writes (line_of c ++ String newline "")%string)) (Some t) (lg_out s), [(t, in_handler th, c)])
          | _, _ => None
          end
      | None => None
      end
  | LChar t =>
      match nth_error (lg_threads s) t with
      | Some th =>
          match running th with
          | Writes (String c r) => Some (set t (put th (Writes r)) (lg_owner s) (lg_out s ++ String c "")%string, [])
          | _ => None
          end
      | None => None
      end
  | LUnlock t =>
      match nth_error (lg_threads s) t with
      | Some th =>
          match running th with
          | Writes EmptyString => Some (set t (put th Rest) None (lg_out s), [])
          | _ => None
          end
      | None => None
      end
  | LSignal t =>
      match nth_error (lg_threads s) t with
      | Some (mkThread cs a None) => Some (set t (mkThread cs a (Some (Wants signal_call))) (lg_owner s) (lg_out s), [])
      | _ => None
      end
  end.

Fixpoint lexec (ls : list llabel) (s : lstate) : option (lstate * list (nat * bool * call)) :=
  match ls with
  | [] => Some (s, [])
  | l :: ls' =>
      match lstep l s with
      | Some (s', e) => match lexec ls' s' with Some (s'', e') => Some (s'', e ++ e') | None => None end
      | None => None
      end
  end.

(** Nothing has been logged; thread i is going to make the calls [nth i ps]. *)
Definition log_init (ps : list (list call)) : lstate := mkLog (map (fun p => mkThread p Rest None) ps) None "".

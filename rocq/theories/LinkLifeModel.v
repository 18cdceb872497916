(** Model of a link plugin's life, src/plugins/link/Link.cpp ("Link") and src/lamppost/plugin/PluginInstance.cpp
    ("PluginInstance"): the thread that initialises, starts, stops and deinitialises it, its worker, and the bus thread in its callback.

    Simplifications:
    - zmq hands out fresh handles; zmq_ctx_new and zmq_socket may fail. Calls on null pointers return errors and do nothing.
    - The calls on a new socket in Initialize (bind or connect, and for two of them the subscription) are one interval of use, so are
      the calls of one send and of one receive.
    - The bus is represented by the mutex of its list of subscribers, held by the bus thread during a callback (Bus.cpp:185-194)
      and needed to create or delete a subscriber (Bus.h:69, 78); other subscribers' callbacks are left out. Publishing never blocks (C31), so it does not appear.
    - What the configuration says (roles) is the argument of the call of Initialize. *)
From Coq Require Import List Arith Bool.
From Verif Require Import LinkModel.
Import ListNotations.

Inductive thread : Type := TCtl | TWork | TBus.

Inductive kcall : Type :=
| KInit (server client : bool)
| KStart
| KStop
| KDeinit.

(** Where the thread that makes these calls is. *)
Inductive cpc : Type :=
| CIdle
| CDead                               (* undefined behaviour or std::terminate *)
| CNew (ks : list sock)               (* Link:20; the sockets to be created *)
| COpen (ks : list sock)              (* Link:41, 44, 63, 66 *)
| CUse (k : sock) (ks : list sock)    (* Link:42, 45-46, 64, 67-68 *)
| CUsing (h : nat) (ks : list sock)
| CReg                                (* Link:71 *)
| CSet (i : nat)                      (* Link:72 *)
| CJoin                               (* PluginInstance:49-52 *)
| CDel                                (* Link:281-282 *)
| CLock (ks : list sock)              (* Link:284-287 *)
| CTest                               (* Link:289 *)
| CClose (ks : list sock)             (* Link:291-313 *)
| CTerm                               (* Link:316-321 *)
| CFree (ks : list sock).             (* Link:323 *)

Inductive wpc : Type :=
| WNone                               (* no thread, or joined *)
| WTest                               (* Link:138 *)
| WLock (k : sock)                    (* Link:161, 175 *)
| WCtx (k : sock)                     (* Link:163, 178: the context *)
| WArg (k : sock)                     (* the socket; Link:194 *)
| WRecv (k : sock) (h : nat)          (* Link:203-232 *)
| WUnlock (k : sock)                  (* Link:169-172, 181-184 *)
| WOver.

Inductive bpc : Type :=
| BIdle
| BTest (k : sock)                    (* Link:77, 87 *)
| BLock (k : sock)                    (* Link:79, 89 *)
| BArg (k : sock)                     (* Link:81, 91: the socket *)
| BSend (k : sock) (h : nat)          (* Link:255-256 *)
| BUnlock (k : sock)                  (* Link:85, 95 *)
| BEnd.                               (* Link:97 *)

(** The four mutexes (Link.h:31-34) are named like the sockets they belong to. *)
Record lnk : Type := mkLnk {
  ll_ctx : option nat;                (* mZmqContext *)
  ll_sock : sock -> option nat;       (* mZmq...Socket *)
  ll_sub : option nat;                (* mWildcardSubscriber *)
  ll_live : list nat;                 (* subscribers of the bus with the callback of Link:73-97 *)
  ll_nsub : nat;                      (* the next subscriber *)
  ll_next : nat;                      (* the next handle of zmq *)
  ll_held : sock -> option thread;    (* who holds the mutexes *)
  ll_slock : bool;                    (* the bus thread is in a callback *)
  ll_run : bool;                      (* mShouldRun *)
  ll_ctl : cpc;
  ll_wrk : wpc;
  ll_bus : bpc
}.

Inductive lkevent : Type :=
| EvCtx (c : nat)                     (* zmq_ctx_new *)
| EvSocket (h c : nat)                (* zmq_socket: h, in context c *)
| EvCall (t : thread) (h : nat)       (* a thread begins to use socket h *)
| EvRet (t : thread) (h : nat)        (* and ends *)
| EvClose (h : nat)                   (* zmq_close *)
| EvTerm (c : nat)                    (* zmq_ctx_term *)
| EvNull                              (* a method is called on a null subscriber *)
| EvAbort.                            (* a joinable thread is destroyed *)

Inductive lklabel : Type :=
| KCall (c : kcall)
| KCtl (ok : bool)                    (* the calling thread goes on; whether zmq_ctx_new, zmq_socket succeed *)
| KWork                               (* the worker goes on *)
| KMsg (sends : bool)                 (* the bus thread enters the callback; whether the message is to be sent, Link:75 *)
| KBus.                               (* the bus thread goes on *)

Definition sock_eqb (a b : sock) : bool :=
  match a, b with
  | ServerPub, ServerPub | ServerSub, ServerSub | ClientPub, ClientPub | ClientSub, ClientSub => true
  | _, _ => false
  end.
Definition upd {A} (f : sock -> A) (k : sock) (v : A) (j : sock) : A := if sock_eqb k j then v else f j.

(** Link:8-16, PluginInstance:6-12 *)
Definition lnk_init : lnk := mkLnk None (fun _ => None) None [] 0 0 (fun _ => None) false false CIdle WNone BIdle.

Definition all_socks : list sock := [ServerPub; ServerSub; ClientPub; ClientSub].
(** Link:32, 54 *)
Definition role_socks (server client : bool) : list sock :=
  (if server then [ServerPub; ServerSub] else []) ++ (if client then [ClientPub; ClientSub] else []).

Definition set_pc (p : cpc) (s : lnk) : lnk :=
  mkLnk (ll_ctx s) (ll_sock s) (ll_sub s) (ll_live s) (ll_nsub s) (ll_next s) (ll_held s) (ll_slock s) (ll_run s) p (ll_wrk s) (ll_bus s).
Definition set_wrk (p : wpc) (s : lnk) : lnk :=
  mkLnk (ll_ctx s) (ll_sock s) (ll_sub s) (ll_live s) (ll_nsub s) (ll_next s) (ll_held s) (ll_slock s) (ll_run s) (ll_ctl s) p (ll_bus s).
Definition set_lbus (p : bpc) (s : lnk) : lnk :=
  mkLnk (ll_ctx s) (ll_sock s) (ll_sub s) (ll_live s) (ll_nsub s) (ll_next s) (ll_held s) (ll_slock s) (ll_run s) (ll_ctl s) (ll_wrk s) p.
Definition set_slock (b : bool) (s : lnk) : lnk :=
  mkLnk (ll_ctx s) (ll_sock s) (ll_sub s) (ll_live s) (ll_nsub s) (ll_next s) (ll_held s) b (ll_run s) (ll_ctl s) (ll_wrk s) (ll_bus s).
Definition set_lrun (b : bool) (s : lnk) : lnk :=
  mkLnk (ll_ctx s) (ll_sock s) (ll_sub s) (ll_live s) (ll_nsub s) (ll_next s) (ll_held s) (ll_slock s) b (ll_ctl s) (ll_wrk s) (ll_bus s).
Definition set_held (k : sock) (t : option thread) (s : lnk) : lnk :=
  mkLnk (ll_ctx s) (ll_sock s) (ll_sub s) (ll_live s) (ll_nsub s) (ll_next s) (upd (ll_held s) k t) (ll_slock s) (ll_run s) (ll_ctl s) (ll_wrk s) (ll_bus s).
Definition set_ctx (c : option nat) (s : lnk) : lnk :=
  mkLnk c (ll_sock s) (ll_sub s) (ll_live s) (ll_nsub s) (ll_next s) (ll_held s) (ll_slock s) (ll_run s) (ll_ctl s) (ll_wrk s) (ll_bus s).
Definition set_sock (k : sock) (h : option nat) (s : lnk) : lnk :=
  mkLnk (ll_ctx s) (upd (ll_sock s) k h) (ll_sub s) (ll_live s) (ll_nsub s) (ll_next s) (ll_held s) (ll_slock s) (ll_run s) (ll_ctl s) (ll_wrk s) (ll_bus s).
Definition set_subs (i : option nat) (live : list nat) (n : nat) (s : lnk) : lnk :=
  mkLnk (ll_ctx s) (ll_sock s) i live n (ll_next s) (ll_held s) (ll_slock s) (ll_run s) (ll_ctl s) (ll_wrk s) (ll_bus s).
Definition fresh (s : lnk) : lnk :=
  mkLnk (ll_ctx s) (ll_sock s) (ll_sub s) (ll_live s) (ll_nsub s) (S (ll_next s)) (ll_held s) (ll_slock s) (ll_run s) (ll_ctl s) (ll_wrk s) (ll_bus s).

Definition begin_call (c : kcall) (s : lnk) : lnk * list lkevent :=
  match c with
  | KInit server client => (set_pc (CNew (role_socks server client)) s, [])
  | KStart =>                                                                     (* PluginInstance:35-41 *)
      match ll_wrk s with
      | WNone => (set_wrk WTest (set_lrun true s), [])
      | _ => (set_pc CDead s, [EvAbort])
      end
  | KStop => if ll_run s then (set_pc CJoin (set_lrun false s), []) else (s, [])  (* PluginInstance:43-54 *)
  | KDeinit => (set_pc CDel s, [])
  end.

Definition ctl_step (ok : bool) (s : lnk) : option (lnk * list lkevent) :=
  match ll_ctl s with
  | CIdle | CDead => None
  | CNew ks =>
      if ok then Some (set_pc (COpen ks) (fresh (set_ctx (Some (ll_next s)) s)), [EvCtx (ll_next s)])
      else Some (set_pc (COpen ks) (set_ctx None s), [])
  | COpen [] => Some (set_pc CReg s, [])
  | COpen (k :: ks) =>
      match ll_ctx s, ok with
      | Some c, true => Some (set_pc (CUse k ks) (fresh (set_sock k (Some (ll_next s)) s)), [EvSocket (ll_next s) c])
      | _, _ => Some (set_pc (CUse k ks) (set_sock k None s), [])
      end
  | CUse k ks =>
      match ll_sock s k with
      | Some h => Some (set_pc (CUsing h ks) s, [EvCall TCtl h])
      | None => Some (set_pc (COpen ks) s, [])
      end
  | CUsing h ks => Some (set_pc (COpen ks) s, [EvRet TCtl h])
  | CReg =>
      if ll_slock s then None
      else Some (set_pc (CSet (ll_nsub s)) (set_subs (Some (ll_nsub s)) (ll_live s) (S (ll_nsub s)) s), [])
  | CSet i => Some (set_pc CIdle (set_subs (ll_sub s) (i :: ll_live s) (ll_nsub s) s), [])
  | CJoin => match ll_wrk s with WOver | WNone => Some (set_pc CIdle (set_wrk WNone s), []) | _ => None end
  | CDel =>
      if ll_slock s then None
      else match ll_sub s with
           | None => Some (set_pc CDead s, [EvNull])                              (* Bus.h:80 *)
           | Some i => Some (set_pc (CLock all_socks) (set_subs None (remove Nat.eq_dec i (ll_live s)) (ll_nsub s) s), [])
           end
  | CLock [] => Some (set_pc CTest s, [])
  | CLock (k :: ks) => match ll_held s k with None => Some (set_pc (CLock ks) (set_held k (Some TCtl) s), []) | _ => None end
  | CTest => Some (set_pc (match ll_ctx s with Some _ => CClose all_socks | None => CFree (rev all_socks) end) s, [])
  | CClose [] => Some (set_pc CTerm s, [])
  | CClose (k :: ks) =>
      match ll_sock s k with
      | Some h => Some (set_pc (CClose ks) (set_sock k None s), [EvClose h])
      | None => Some (set_pc (CClose ks) s, [])
      end
  | CTerm => Some (set_pc (CFree (rev all_socks)) (set_ctx None s), match ll_ctx s with Some c => [EvTerm c] | None => [] end)
  | CFree [] => Some (set_pc CIdle s, [])
  | CFree (k :: ks) => Some (set_pc (CFree ks) (set_held k None s), [])
  end.

Definition after_sub (k : sock) : wpc := match k with ServerSub => WLock ClientSub | _ => WTest end.

Definition work_step (s : lnk) : option (lnk * list lkevent) :=
  match ll_wrk s with
  | WNone | WOver => None
  | WTest => Some (set_wrk (if ll_run s then WLock ServerSub else WOver) s, [])
  | WLock k => match ll_held s k with None => Some (set_wrk (WCtx k) (set_held k (Some TWork) s), []) | _ => None end
  | WCtx k => Some (set_wrk (match ll_ctx s with Some _ => WArg k | None => WUnlock k end) s, [])
  | WArg k =>
      match ll_sock s k with
      | Some h => Some (set_wrk (WRecv k h) s, [EvCall TWork h])
      | None => Some (set_wrk (WUnlock k) s, [])
      end
  | WRecv k h => Some (set_wrk (WUnlock k) s, [EvRet TWork h])
  | WUnlock k => Some (set_wrk (after_sub k) (set_held k None s), [])
  end.

Definition after_pub (k : sock) : bpc := match k with ServerPub => BTest ClientPub | _ => BEnd end.

Definition lbus_step (s : lnk) : option (lnk * list lkevent) :=
  match ll_bus s with
  | BIdle => None
  | BTest k => Some (set_lbus (match ll_sock s k with Some _ => BLock k | None => after_pub k end) s, [])
  | BLock k => match ll_held s k with None => Some (set_lbus (BArg k) (set_held k (Some TBus) s), []) | _ => None end
  | BArg k =>
      match ll_sock s k with
      | Some h => Some (set_lbus (BSend k h) s, [EvCall TBus h])
      | None => Some (set_lbus (BUnlock k) s, [])
      end
  | BSend k h => Some (set_lbus (BUnlock k) s, [EvRet TBus h])
  | BUnlock k => Some (set_lbus (after_pub k) (set_held k None s), [])
  | BEnd => Some (set_lbus BIdle (set_slock false s), [])
  end.

Definition lkstep (l : lklabel) (s : lnk) : option (lnk * list lkevent) :=
  match l with
  | KCall c => match ll_ctl s with CIdle => Some (begin_call c s) | _ => None end
  | KCtl ok => ctl_step ok s
  | KWork => work_step s
  | KMsg sends =>
      match ll_bus s, ll_live s with
      | BIdle, _ :: _ => Some (set_lbus (if sends then BTest ServerPub else BEnd) (set_slock true s), [])
      | _, _ => None
      end
  | KBus => lbus_step s
  end.

Fixpoint lkexec (ls : list lklabel) (s : lnk) : option (lnk * list lkevent) :=
  match ls with
  | [] => Some (s, [])
  | l :: ls' =>
      match lkstep l s with
      | Some (s1, e1) => match lkexec ls' s1 with Some (s2, e2) => Some (s2, e1 ++ e2) | None => None end
      | None => None
      end
  end.

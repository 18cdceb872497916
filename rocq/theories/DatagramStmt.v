(** Statements of a client program, executed on the heap with the operations of
    [DatagramModel]. Each clause is the composition of calls that the C++
    statement in the comment makes. *)
From Coq Require Import String Ascii List Arith ZArith NArith Bool.
From Verif Require Import Prelude OMap DatagramModel DatagramSpec.
Import ListNotations.
Open Scope list_scope.

(** d[s1][s2]...[sn]: Datagram::operator[] (D.h:38-53) applied repeatedly. *)
Fixpoint h_path (p : list sel) (l : loc) : M loc :=
  match p with
  | [] => ret l
  | SKey k :: p' => c <- dg_view_key l k ;; h_path p' c
  | SIdx i :: p' => c <- dg_view_idx l i ;; h_path p' c
  end.

Definition h_op (o : op) (l : loc) : M rv :=
  match o with
  | OSet d => dg_assign_val l d ;;; ret RUnit                         (* D.h:74-80 *)
  | OAddNew d =>                                                      (* D.h:55-59 *)
    c <- (match d with None => raw_new | Some v => raw_new_val v end) ;;
    raw_add l (Some c) ;;; ret RUnit
  | ORemoveKey k => raw_remove_key l k ;;; ret RUnit                  (* D.h:63-67 *)
  | ORemoveIdx i => raw_remove_idx l i ;;; ret RUnit                  (* D.h:63-67 *)
  | OClear => raw_clear l ;;; ret RUnit                               (* D.cpp:46-49 *)
  | OType => t <- raw_get_type l ;; ret (RType t)                     (* D.cpp:51-54 *)
  | OIsEmpty => b <- dg_is_empty l ;; ret (RBool b)                   (* D.cpp:56-59 *)
  | OCount => n <- raw_get_count l ;; ret (RCount n)                  (* D.cpp:41-44 *)
  | OExists k => b <- raw_key_exists l k ;; ret (RBool b)             (* D.cpp:31-34 *)
  | ORead ty => d <- raw_read l ty ;; ret (RData d)                   (* D.h:30-34 *)
  | OPath ty p def => fun h => (h, res_map RData (dg_path h l ty p def)) (* D.h:96-100 *)
  end.

Definition h_stmt (fuel : nat) (s : stmt) (st : cstate) : cstate * res rv :=
  let (h, env) := st in
  match s with
  | SDecl ty => with_new env (raw_new_type ty) h                      (* D.cpp:17-20 *)
  | SDeclVal v => with_new env (raw_new_val v) h                      (* D.h:22-26 *)
  | SDeclCopy w => with_handle env w h (fun l => with_new env (dg_copy_ctor fuel l) h) (* D.cpp:8-15 *)
  | SOp v p o => with_handle env v h (fun l =>
      with_res env (fun x => x) (c <- h_path p l ;; h_op o c) h)
  | SAssign v p w => with_handle env v h (fun l => with_handle env w h (fun lw =>
      with_res env unit_rv (c <- h_path p l ;; dg_assign fuel c lw) h)) (* D.h:82-87 *)
  | SAddCopy v p w => with_handle env v h (fun l => with_handle env w h (fun lw =>
      with_res env unit_rv (c <- h_path p l ;; c' <- raw_copy fuel lw ;; raw_add c (Some c')) h))
  | SEq v w => with_handle env v h (fun l => with_handle env w h (fun lw =>
      ((h, env), res_map RBool (dg_eq fuel h l lw))))                  (* D.cpp:36-39 *)
  end.

(** All statements in turn; the client catches exceptions. *)
Fixpoint h_run (fuel : nat) (ss : list stmt) (st : cstate) : cstate * list (res rv) :=
  match ss with
  | [] => (st, [])
  | s :: ss' =>
    let (st1, r) := h_stmt fuel s st in
    let (st2, rs) := h_run fuel ss' st1 in
    (st2, r :: rs)
  end.

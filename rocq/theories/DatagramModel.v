(** Model of RawDatagram and Datagram on an explicit heap of nodes.
    Paths: src/lamppost/messages/RawDatagram.cpp ("RD.cpp"),
    include/lamppost/messages/RawDatagram.h ("RD.h"),
    src/lamppost/messages/Datagram.cpp ("D.cpp"),
    include/lamppost/messages/Datagram.h ("D.h"),
    include/lamppost/messages/Data.h ("Data.h").

    Simplifications: nodes are never freed (shared_ptr counts are not
    observable through this API); [Data<T>] objects are immutable values, so
    they are stored by value; std::list indices are natural numbers. *)
From Coq Require Import String Ascii List Arith ZArith NArith Bool.
From Verif Require Import Prelude OMap.
Import ListNotations.
Open Scope list_scope.

(** ** Stored values *)

(** RD.h:29-35 *)
Inductive rtype : Type := TEmpty | TList | TDict | TValue.

(** Data.h:12-60. [DDouble] holds the IEEE-754 binary64 bit pattern. [DOther]
    stands for any other [Data<T>] (for example [Data<const char*>] made by
    [Datagram("x")]); its == is taken to be equality of the representation. *)
Inductive data : Type :=
| DInt (z : Z)
| DBool (b : bool)
| DDouble (bits : N)
| DStr (s : string)
| DOther (ty : string) (repr : string).

(** The template argument T of [Data<T>]. *)
Inductive vty : Type := TyInt | TyBool | TyDouble | TyStr | TyOther (ty : string).

Definition data_ty (d : data) : vty :=
  match d with
  | DInt _ => TyInt
  | DBool _ => TyBool
  | DDouble _ => TyDouble
  | DStr _ => TyStr
  | DOther ty _ => TyOther ty
  end.

Definition vty_eqb (a b : vty) : bool :=
  match a, b with
  | TyInt, TyInt | TyBool, TyBool | TyDouble, TyDouble | TyStr, TyStr => true
  | TyOther x, TyOther y => String.eqb x y
  | _, _ => false
  end.

(** IEEE-754 binary64 comparison on bit patterns: NaN (exponent all ones, nonzero
    fraction) is unequal to everything, the two zeros are equal. *)
Definition dbl_abs (b : N) : N := N.modulo b (2 ^ 63).
Definition dbl_is_nan (b : N) : bool := N.ltb 0x7ff0000000000000 (dbl_abs b).
Definition dbl_is_zero (b : N) : bool := N.eqb (dbl_abs b) 0.
Definition dbl_eqb (a b : N) : bool :=
  negb (dbl_is_nan a) && negb (dbl_is_nan b) &&
  (N.eqb a b || (dbl_is_zero a && dbl_is_zero b)).

(** Data.h:33-44 Data<T>::Equals: dynamic cast, then operator== of T. *)
Definition data_equals (this rhs : data) : bool :=
  match this, rhs with
  | DInt x, DInt y => Z.eqb y x
  | DBool x, DBool y => Bool.eqb y x
  | DDouble x, DDouble y => dbl_eqb y x
  | DStr x, DStr y => String.eqb y x
  | DOther t x, DOther t' y => String.eqb t' t && String.eqb y x
  | _, _ => false
  end.

(** ** Heap *)

Definition loc := nat.

(** RD.h:40-44. A slot of the dictionary or list is a shared_ptr, possibly null. *)
Record node : Type := mkNode {
  nd_dict : omap (option loc);
  nd_list : list (option loc);
  nd_val : option data;
  nd_type : rtype
}.

Definition heap := list node.

Definition M (A : Type) : Type := heap -> heap * res A.

Definition ret {A} (a : A) : M A := fun h => (h, Ok a).
Definition throw {A} (e : exc) : M A := fun h => (h, Throw e).
Definition ub {A} : M A := fun h => (h, UB).
Definition nofuel {A} : M A := fun h => (h, NoFuel).
Definition bind {A B} (m : M A) (k : A -> M B) : M B :=
  fun h => let (h', r) := m h in
           match r with
           | Ok a => k a h'
           | Throw e => (h', Throw e)
           | UB => (h', UB)
           | NoFuel => (h', NoFuel)
           end.
Notation "x <- m ;; k" := (bind m (fun x => k)) (at level 61, m at next level, right associativity).
Notation "m ;;; k" := (bind m (fun _ => k)) (at level 61, right associativity).

Definition load (l : loc) : M node :=
  fun h => match nth_error h l with Some n => (h, Ok n) | None => (h, UB) end.
Definition store (l : loc) (n : node) : M unit :=
  fun h => match nth_error h l with Some _ => (list_set l n h, Ok tt) | None => (h, UB) end.
Definition alloc (n : node) : M loc := fun h => (h ++ [n], Ok (length h)).

Definition rtype_eqb (a b : rtype) : bool :=
  match a, b with
  | TEmpty, TEmpty | TList, TList | TDict, TDict | TValue, TValue => true
  | _, _ => false
  end.

(** ** RawDatagram *)

(** RD.cpp:8-12 *)
Definition empty_node : node := mkNode [] [] None TEmpty.
Definition raw_new : M loc := alloc empty_node.

(** RD.cpp:14-27 *)
Definition raw_new_type (ty : rtype) : M loc :=
  alloc (mkNode [] [] (match ty with TValue => Some (DInt 0) | _ => None end) ty).

(** RD.cpp:29-33 (the pointer may be null) *)
Definition raw_new_data (od : option data) : M loc := alloc (mkNode [] [] od TValue).

(** RD.h:67-73 *)
Definition raw_new_val (d : data) : M loc := alloc (mkNode [] [] (Some d) TValue).

(** RD.cpp:42-45 *)
Definition raw_get_type (l : loc) : M rtype := n <- load l ;; ret (nd_type n).

(** RD.cpp:87-90 *)
Definition raw_key_exists (l : loc) (k : string) : M bool :=
  n <- load l ;; ret (match olookup k (nd_dict n) with Some _ => true | None => false end).

(** RD.cpp:82-85, 92-107: returns the content of the slot. *)
Definition raw_get_key (l : loc) (k : string) : M (option loc) :=
  n <- load l ;;
  (match nd_type n with
   | TDict => ret tt
   | _ => store l (mkNode (nd_dict n) [] None TDict)
   end) ;;;
  n1 <- load l ;;
  (match olookup k (nd_dict n1) with
   | None => c <- raw_new ;; store l (mkNode (oinsert k (Some c) (nd_dict n1)) (nd_list n1) (nd_val n1) (nd_type n1))
   | Some _ => ret tt
   end) ;;;
  n2 <- load l ;;
  match olookup k (nd_dict n2) with
  | Some p => ret p
  | None => ub
  end.

(** [raw[key] = p]: RD.cpp:82-85 returns a reference to the slot, which is assigned. *)
Definition raw_put_key (l : loc) (k : string) (p : option loc) : M unit :=
  raw_get_key l k ;;;
  n <- load l ;;
  store l (mkNode (oinsert k p (nd_dict n)) (nd_list n) (nd_val n) (nd_type n)).

(** RD.cpp:109-123 *)
Definition raw_remove_key (l : loc) (k : string) : M unit :=
  n <- load l ;;
  match nd_type n with
  | TDict =>
    match olookup k (nd_dict n) with
    | None => throw (KeyNotFound k)
    | Some _ => store l (mkNode (oremove k (nd_dict n)) (nd_list n) (nd_val n) (nd_type n))
    end
  | _ => throw InvalidOperation
  end.

(** RD.cpp:125-148 *)
Definition raw_get_idx (l : loc) (i : nat) : M (option loc) :=
  n <- load l ;;
  (match nd_type n with
   | TList => ret tt
   | _ => store l (mkNode [] (nd_list n) None TList)
   end) ;;;
  n1 <- load l ;;
  match nth_error (nd_list n1) i with
  | None => throw (IndexOutOfBounds i)
  | Some p => ret p
  end.

(** [raw[i] = p] through the returned reference. *)
Definition raw_put_idx (l : loc) (i : nat) (p : option loc) : M unit :=
  raw_get_idx l i ;;;
  n <- load l ;;
  store l (mkNode (nd_dict n) (list_set i p (nd_list n)) (nd_val n) (nd_type n)).

(** RD.cpp:150-161 *)
Definition raw_add (l : loc) (p : option loc) : M unit :=
  n <- load l ;;
  (match nd_type n with
   | TList => ret tt
   | _ => store l (mkNode [] (nd_list n) None TList)
   end) ;;;
  n1 <- load l ;;
  store l (mkNode (nd_dict n1) (nd_list n1 ++ [p]) (nd_val n1) (nd_type n1)).

(** RD.cpp:163-179 *)
Definition raw_remove_idx (l : loc) (i : nat) : M unit :=
  n <- load l ;;
  match nd_type n with
  | TList =>
    match nth_error (nd_list n) i with
    | None => throw (IndexOutOfBounds i)
    | Some _ => store l (mkNode (nd_dict n) (list_del i (nd_list n)) (nd_val n) (nd_type n))
    end
  | _ => throw InvalidOperation
  end.

(** RD.cpp:181-200: std::size_t -> int -> unsigned int, i.e. modulo 2^32. *)
Definition to_unsigned (n : nat) : N := N.modulo (N.of_nat n) (2 ^ 32).
Definition raw_get_count (l : loc) : M N :=
  n <- load l ;;
  match nd_type n with
  | TList => ret (to_unsigned (length (nd_list n)))
  | TDict => ret (to_unsigned (length (nd_dict n)))
  | _ => throw InvalidOperation
  end.

(** RD.cpp:202-217 *)
Definition raw_clear (l : loc) : M unit :=
  n <- load l ;;
  match nd_type n with
  | TList => store l (mkNode (nd_dict n) [] (nd_val n) (nd_type n))
  | TDict => store l (mkNode [] (nd_list n) (nd_val n) (nd_type n))
  | _ => throw InvalidOperation
  end.

(** RD.cpp:247-260; with [Some d] also RD.h:46-58 (SetValue) and RD.cpp:219-245. *)
Definition raw_set_data (l : loc) (od : option data) : M unit :=
  n <- load l ;;
  match nd_type n with
  | TValue => store l (mkNode (nd_dict n) (nd_list n) od TValue)
  | _ => store l (mkNode [] [] od TValue)
  end.
Definition raw_set_value (l : loc) (d : data) : M unit := raw_set_data l (Some d).

(** RD.h:118-122 *)
Definition raw_is_of_type (l : loc) (ty : vty) : M bool :=
  n <- load l ;;
  ret (match nd_val n with Some d => vty_eqb (data_ty d) ty | None => false end).

(** RD.h:103-116 *)
Definition raw_read (l : loc) (ty : vty) : M data :=
  n <- load l ;;
  match nd_val n with
  | Some d => if vty_eqb (data_ty d) ty then ret d else throw InvalidOperation
  | None => throw InvalidOperation
  end.

(** The implicitly defined copy assignment of RawDatagram: memberwise. *)
Definition raw_assign (dst src : loc) : M unit :=
  n <- load src ;; store dst n.

(** RD.cpp:47-80. The bound limits the recursion depth; the loops over the
    children are [copy_items] and [copy_pairs]. In the dictionary loop the
    right operand is evaluated first (the order is unspecified in C++14 and
    not observable here). *)
Fixpoint raw_copy (fuel : nat) (l : loc) {struct fuel} : M loc :=
  match fuel with
  | 0 => nofuel
  | S f =>
    n <- load l ;;
    c <- raw_new ;;
    store c (mkNode [] [] None (nd_type n)) ;;;
    match nd_type n with
    | TEmpty => ret c
    | TDict =>
      (fix copy_pairs (kvs : omap (option loc)) : M loc :=
         match kvs with
         | [] => ret c
         | (k, p) :: kvs' =>
           match p with
           | None => ub
           | Some l' => c' <- raw_copy f l' ;; raw_put_key c k (Some c') ;;; copy_pairs kvs'
           end
         end) (nd_dict n)
    | TList =>
      (fix copy_items (ps : list (option loc)) : M loc :=
         match ps with
         | [] => ret c
         | p :: ps' =>
           match p with
           | None => ub
           | Some l' => c' <- raw_copy f l' ;; raw_add c (Some c') ;;; copy_items ps'
           end
         end) (nd_list n)
    | TValue =>
      match nd_val n with
      | None => ub
      | Some d => raw_set_data c (Some d) ;;; ret c
      end
    end
  end.

(** RD.cpp:481-545. Reads only, so it is a function of the heap.
    [own] is *this. In the dictionary loop the recursive call is
    [rhs child != own child]. *)
Fixpoint raw_eq (fuel : nat) (h : heap) (own rhs : loc) {struct fuel} : res bool :=
  match fuel with
  | 0 => NoFuel
  | S f =>
    match nth_error h own, nth_error h rhs with
    | Some n, Some m =>
      if rtype_eqb (nd_type m) (nd_type n) then
        match nd_type n with
        | TEmpty => Ok true
        | TValue =>
          Ok (match nd_val m, nd_val n with
              | Some y, Some x => data_equals y x
              | _, _ => false
              end)
        | TList =>
          if Nat.eqb (length (nd_list m)) (length (nd_list n)) then
            (fix eq_items (ps qs : list (option loc)) : res bool :=
               match ps, qs with
               | Some p :: ps', Some q :: qs' =>
                 res_bind (raw_eq f h p q) (fun b => if b then eq_items ps' qs' else Ok false)
               | [], _ => Ok true
               | _, _ => UB
               end) (nd_list n) (nd_list m)
          else Ok false
        | TDict =>
          if Nat.eqb (length (nd_dict m)) (length (nd_dict n)) then
            (fix eq_pairs (kvs : omap (option loc)) : res bool :=
               match kvs with
               | [] => Ok true
               | (k, p) :: kvs' =>
                 match olookup k (nd_dict m) with
                 | None => Ok false
                 | Some q =>
                   match q, p with
                   | Some q', Some p' =>
                     res_bind (raw_eq f h q' p') (fun b => if b then eq_pairs kvs' else Ok false)
                   | _, _ => UB
                   end
                 end
               end) (nd_dict n)
          else Ok false
        end
      else Ok false
    | _, _ => UB
    end
  end.

(** std::string::find_first_of('/') as a split of the path, RD.h:208-229:
    next token and rest (the rest is empty when nothing follows the slash). *)
Fixpoint split_slash (s : string) : string * string :=
  match s with
  | EmptyString => (EmptyString, EmptyString)
  | String c s' =>
    if Ascii.eqb c "/"%char then (EmptyString, s')
    else let (tok, rest) := split_slash s' in (String c tok, rest)
  end.

(** RD.h:192-241 *)
Fixpoint raw_path (fuel : nat) (h : heap) (l : loc) (ty : vty) (path : string) (def : data) {struct fuel} : res data :=
  match fuel with
  | 0 => NoFuel
  | S f =>
    match nth_error h l with
    | None => UB
    | Some n =>
      match path with
      | EmptyString =>
        match nd_val n with
        | Some d => if vty_eqb (data_ty d) ty then Ok d else Ok def
        | None => Ok def
        end
      | _ =>
        let (tok, rest) := split_slash path in
        match nd_type n with
        | TDict =>
          match olookup tok (nd_dict n) with
          | Some (Some l') => raw_path f h l' ty rest def
          | Some None => UB
          | None => Ok def
          end
        | _ => Ok def
        end
      end
    end
  end.

(** ** Datagram: a variable holding a non-null pointer to a RawDatagram *)

(** D.cpp:8-15 (the source pointer of a Datagram is never null: every
    constructor sets it and none of the modelled operations resets it). *)
Definition dg_copy_ctor (fuel : nat) (src : loc) : M loc :=
  d <- raw_new ;; c <- raw_copy fuel src ;; raw_assign d c ;;; ret d.

(** D.h:43-53 then D.cpp:22-29. The returned prvalue initialises the caller's
    variable without a copy (copy elision), so it is a view. *)
Definition dg_view_key (l : loc) (k : string) : M loc :=
  p <- raw_get_key l k ;;
  match p with
  | Some c => ret c
  | None =>
    c <- raw_new ;;
    raw_put_key l k (Some c) ;;;
    p' <- raw_get_key l k ;;
    match p' with
    | Some c' => ret c'
    | None => raw_new
    end
  end.

(** D.h:38-41 then D.cpp:22-29 (a null item yields a fresh unlinked node). *)
Definition dg_view_idx (l : loc) (i : nat) : M loc :=
  p <- raw_get_idx l i ;;
  match p with
  | Some c => ret c
  | None => raw_new
  end.

(** D.h:82-87 *)
Definition dg_assign (fuel : nat) (dst src : loc) : M unit :=
  c <- raw_copy fuel src ;; raw_assign dst c.

(** D.h:74-80 *)
Definition dg_assign_val (dst : loc) (d : data) : M unit := raw_set_value dst d.

(** D.cpp:36-39: *(rhs) == *this *)
Definition dg_eq (fuel : nat) (h : heap) (this rhs : loc) : res bool := raw_eq fuel h rhs this.

(** D.cpp:56-59 *)
Definition dg_is_empty (l : loc) : M bool := t <- raw_get_type l ;; ret (rtype_eqb t TEmpty).

(** RD.h:192-241 with the bound that always suffices. *)
Definition dg_path (h : heap) (l : loc) (ty : vty) (path : string) (def : data) : res data :=
  raw_path (S (String.length path)) h l ty path def.

(** ** Clients: straight-line programs over datagram variables *)

(** A client holds a list of handles: Datagram variables, views, and
    shared_ptr<RawDatagram> values (all of them non-null node pointers).
    Commands name handles by position; a command that creates a handle
    appends it. The commands below the line "raw" use shared_ptr<RawDatagram>
    or shared_ptr<DataBase> directly and can introduce sharing, cycles and nulls. *)
Inductive cmd : Type :=
| CNew                                    (* Datagram d; *)
| CNewType (ty : rtype)                   (* Datagram d(type); *)
| CNewVal (v : data)                      (* Datagram d(value); *)
| CCopy (s : nat)                         (* Datagram d(s);  pass by value *)
| CViewKey (s : nat) (k : string)         (* Datagram v = s[k]; *)
| CViewIdx (s : nat) (i : nat)            (* Datagram v = s[i]; *)
| CAssign (d s : nat)                     (* d = s; *)
| CAssignVal (d : nat) (v : data)         (* d = value; *)
| CAddNew (d : nat) (v : option data)     (* d.Add(std::make_shared<RawDatagram>([value])); *)
| CRemoveKey (d : nat) (k : string)
| CRemoveIdx (d : nat) (i : nat)
| CClear (d : nat)
| CGetType (s : nat)
| CGetCount (s : nat)
| CKeyExists (s : nat) (k : string)
| CRead (s : nat) (ty : vty)              (* s.Get<T>() *)
| CPath (s : nat) (ty : vty) (path : string) (def : data)
| CEq (a b : nat)
(* raw *)
| CRawCopy (s : nat)                      (* s->Copy() *)
| CAdd (d : nat) (s : option nat)         (* d.Add(ptr), null allowed *)
| CPutKey (d : nat) (k : string) (s : option nat) (* ( *d)[k] = ptr *)
| CPutIdx (d : nat) (i : nat) (s : option nat)    (* ( *d)[i] = ptr *)
| CAssignData (d : nat) (v : option data) (* *d = shared_ptr<DataBase> *)
| CRawAssign (d s : nat).                 (* *d = *s, memberwise *)

Inductive rv : Type :=
| RUnit
| RHandle
| RType (t : rtype)
| RCount (n : N)
| RBool (b : bool)
| RData (d : data)
| RBadHandle.   (* the command named a handle that does not exist: no effect *)

Definition cstate : Type := heap * list loc.

Definition with_new (env : list loc) (m : M loc) (h : heap) : cstate * res rv :=
  let (h', r) := m h in
  match r with
  | Ok l => ((h', env ++ [l]), Ok RHandle)
  | Throw e => ((h', env), Throw e)
  | UB => ((h', env), UB)
  | NoFuel => ((h', env), NoFuel)
  end.

Definition with_res {A} (env : list loc) (f : A -> rv) (m : M A) (h : heap) : cstate * res rv :=
  let (h', r) := m h in ((h', env), res_map f r).

Definition with_handle (env : list loc) (s : nat) (h : heap) (k : loc -> cstate * res rv) : cstate * res rv :=
  match nth_error env s with
  | Some l => k l
  | None => ((h, env), Ok RBadHandle)
  end.

Definition with_opt (env : list loc) (s : option nat) (h : heap) (k : option loc -> cstate * res rv) : cstate * res rv :=
  match s with
  | None => k None
  | Some i => with_handle env i h (fun l => k (Some l))
  end.

Definition unit_rv (_ : unit) : rv := RUnit.

Definition exec (fuel : nat) (c : cmd) (st : cstate) : cstate * res rv :=
  let (h, env) := st in
  match c with
  | CNew => with_new env raw_new h
  | CNewType ty => with_new env (raw_new_type ty) h
  | CNewVal v => with_new env (raw_new_val v) h
  | CCopy s => with_handle env s h (fun l => with_new env (dg_copy_ctor fuel l) h)
  | CViewKey s k => with_handle env s h (fun l => with_new env (dg_view_key l k) h)
  | CViewIdx s i => with_handle env s h (fun l => with_new env (dg_view_idx l i) h)
  | CAssign d s => with_handle env d h (fun ld => with_handle env s h (fun ls =>
      with_res env unit_rv (dg_assign fuel ld ls) h))
  | CAssignVal d v => with_handle env d h (fun l => with_res env unit_rv (dg_assign_val l v) h)
  | CAddNew d v => with_handle env d h (fun l => with_res env unit_rv
      (c <- (match v with None => raw_new | Some x => raw_new_val x end) ;; raw_add l (Some c)) h)
  | CRemoveKey d k => with_handle env d h (fun l => with_res env unit_rv (raw_remove_key l k) h)
  | CRemoveIdx d i => with_handle env d h (fun l => with_res env unit_rv (raw_remove_idx l i) h)
  | CClear d => with_handle env d h (fun l => with_res env unit_rv (raw_clear l) h)
  | CGetType s => with_handle env s h (fun l => with_res env RType (raw_get_type l) h)
  | CGetCount s => with_handle env s h (fun l => with_res env RCount (raw_get_count l) h)
  | CKeyExists s k => with_handle env s h (fun l => with_res env RBool (raw_key_exists l k) h)
  | CRead s ty => with_handle env s h (fun l => with_res env RData (raw_read l ty) h)
  | CPath s ty p d => with_handle env s h (fun l => ((h, env), res_map RData (dg_path h l ty p d)))
  | CEq a b => with_handle env a h (fun la => with_handle env b h (fun lb =>
      ((h, env), res_map RBool (dg_eq fuel h la lb))))
  | CRawCopy s => with_handle env s h (fun l => with_new env (raw_copy fuel l) h)
  | CAdd d s => with_handle env d h (fun l => with_opt env s h (fun p => with_res env unit_rv (raw_add l p) h))
  | CPutKey d k s => with_handle env d h (fun l => with_opt env s h (fun p => with_res env unit_rv (raw_put_key l k p) h))
  | CPutIdx d i s => with_handle env d h (fun l => with_opt env s h (fun p => with_res env unit_rv (raw_put_idx l i p) h))
  | CAssignData d v => with_handle env d h (fun l => with_res env unit_rv (raw_set_data l v) h)
  | CRawAssign d s => with_handle env d h (fun ld => with_handle env s h (fun ls =>
      with_res env unit_rv (raw_assign ld ls) h))
  end.

(** A client program; it stops at undefined behaviour or when the bound runs
    out, and continues after an exception (the client catches it). *)
Fixpoint run (fuel : nat) (cs : list cmd) (st : cstate) : option cstate :=
  match cs with
  | [] => Some st
  | c :: cs' =>
    let (st', r) := exec fuel c st in
    match r with
    | Ok _ | Throw _ => run fuel cs' st'
    | UB | NoFuel => None
    end
  end.

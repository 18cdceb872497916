(** What datagrams are meant to be: immutable trees, and the operations on them.
    Nothing here refers to the heap operations of [DatagramModel]; only the
    representation relation [own] mentions heap nodes. *)
From Coq Require Import String Ascii List Arith ZArith NArith Bool.
From Verif Require Import Prelude OMap DatagramModel.
Import ListNotations.
Open Scope list_scope.

(** ** Trees *)

Inductive dg : Type :=
| Emp
| Val (d : data)
| Lst (ts : list dg)
| Dct (kvs : list (string * dg)).

(** Dictionaries list their keys in strictly increasing order. *)
Inductive dg_wf : dg -> Prop :=
| wf_emp : dg_wf Emp
| wf_val d : dg_wf (Val d)
| wf_lst ts : Forall dg_wf ts -> dg_wf (Lst ts)
| wf_dct kvs : osorted kvs -> Forall (fun p => dg_wf (snd p)) kvs -> dg_wf (Dct kvs).

(** Nesting depth. *)
Fixpoint dg_depth (t : dg) : nat :=
  match t with
  | Emp | Val _ => 0
  | Lst ts => S (fold_right (fun t n => Nat.max (dg_depth t) n) 0 ts)
  | Dct kvs => S (fold_right (fun p n => Nat.max (dg_depth (snd p)) n) 0 kvs)
  end.

(** ** Representation of a tree by heap nodes *)

(** [own h l t F]: unfolding node [l] of heap [h] along its child pointers gives
    the finite tree [t]; [F] lists the nodes met, in order of a depth-first
    walk. The nodes may be shared; if [NoDup F] they are not. *)
Inductive own (h : heap) : loc -> dg -> list loc -> Prop :=
| own_emp l :
    nth_error h l = Some (mkNode [] [] None TEmpty) -> own h l Emp [l]
| own_val l d :
    nth_error h l = Some (mkNode [] [] (Some d) TValue) -> own h l (Val d) [l]
| own_lst l ps ts F :
    nth_error h l = Some (mkNode [] ps None TList) ->
    owns h ps ts F -> own h l (Lst ts) (l :: F)
| own_dct l m kvs F :
    nth_error h l = Some (mkNode m [] None TDict) ->
    osorted m -> okeys m = okeys kvs ->
    owns h (map snd m) (map snd kvs) F -> own h l (Dct kvs) (l :: F)
with owns (h : heap) : list (option loc) -> list dg -> list loc -> Prop :=
| owns_nil : owns h [] [] []
| owns_cons p ps t ts F1 F2 :
    own h p t F1 -> owns h ps ts F2 -> owns h (Some p :: ps) (t :: ts) (F1 ++ F2).

(** The datagram at [l] has the contents [t]. *)
Definition denotes (h : heap) (l : loc) (t : dg) : Prop := exists F, own h l t F.

(** ** Equality *)

(** Equality of stored values: same stored type and equal value; doubles are
    compared as IEEE numbers. *)
Inductive data_same : data -> data -> Prop :=
| same_int z : data_same (DInt z) (DInt z)
| same_bool b : data_same (DBool b) (DBool b)
| same_str s : data_same (DStr s) (DStr s)
| same_other ty r : data_same (DOther ty r) (DOther ty r)
| same_dbl b : dbl_is_nan b = false -> data_same (DDouble b) (DDouble b)
| same_zero a b : dbl_is_zero a = true -> dbl_is_zero b = true -> data_same (DDouble a) (DDouble b).

Inductive dg_same : dg -> dg -> Prop :=
| ds_emp : dg_same Emp Emp
| ds_val a b : data_same a b -> dg_same (Val a) (Val b)
| ds_lst ts us : Forall2 dg_same ts us -> dg_same (Lst ts) (Lst us)
| ds_dct m n :
    Forall2 (fun p q => fst p = fst q /\ dg_same (snd p) (snd q)) m n ->
    dg_same (Dct m) (Dct n).

(** A NaN occurs somewhere in the tree. *)
Inductive has_nan : dg -> Prop :=
| nan_val b : dbl_is_nan b = true -> has_nan (Val (DDouble b))
| nan_lst ts t : In t ts -> has_nan t -> has_nan (Lst ts)
| nan_dct kvs p : In p kvs -> has_nan (snd p) -> has_nan (Dct kvs).

(** ** Operations on trees *)

Inductive sel : Type := SKey (k : string) | SIdx (i : nat).

Inductive op : Type :=
| OSet (d : data)             (* ... = value *)
| OAddNew (d : option data)   (* ....Add(new node, empty or holding a value) *)
| ORemoveKey (k : string)
| ORemoveIdx (i : nat)
| OClear
| OType
| OIsEmpty
| OCount
| OExists (k : string)
| ORead (ty : vty)
| OPath (ty : vty) (path : string) (def : data).

Definition kids_dict (t : dg) : list (string * dg) := match t with Dct kvs => kvs | _ => [] end.
Definition kids_list (t : dg) : list dg := match t with Lst ts => ts | _ => [] end.

(** Splitting a path at the slashes; a final slash adds nothing. *)
Fixpoint split_on (c : ascii) (s : string) : list string :=
  match s with
  | EmptyString => [EmptyString]
  | String a s' =>
    if Ascii.eqb a c then EmptyString :: split_on c s'
    else match split_on c s' with
         | x :: xs => String a x :: xs
         | [] => [String a EmptyString]
         end
  end.

Fixpoint drop_final_empty (l : list string) : list string :=
  match l with
  | [] => []
  | [EmptyString] => []
  | x :: l' => x :: drop_final_empty l'
  end.

Definition path_keys (path : string) : list string := drop_final_empty (split_on "/"%char path).

Fixpoint dg_find (t : dg) (ks : list string) : option dg :=
  match ks with
  | [] => Some t
  | k :: ks' =>
    match t with
    | Dct kvs => match olookup k kvs with Some t' => dg_find t' ks' | None => None end
    | _ => None
    end
  end.

Definition spec_path (t : dg) (ty : vty) (path : string) (def : data) : data :=
  match dg_find t (path_keys path) with
  | Some (Val d) => if vty_eqb (data_ty d) ty then d else def
  | _ => def
  end.

Definition dg_type (t : dg) : rtype :=
  match t with Emp => TEmpty | Val _ => TValue | Lst _ => TList | Dct _ => TDict end.

Definition spec_count (t : dg) : res rv :=
  match t with
  | Lst ts => Ok (RCount (N.modulo (N.of_nat (length ts)) (2 ^ 32)))
  | Dct kvs => Ok (RCount (N.modulo (N.of_nat (length kvs)) (2 ^ 32)))
  | _ => Throw InvalidOperation
  end.

(** New contents and result of one operation. *)
Definition spec_op (o : op) (t : dg) : dg * res rv :=
  match o with
  | OSet d => (Val d, Ok RUnit)
  | OAddNew d => (Lst (kids_list t ++ [match d with None => Emp | Some v => Val v end]), Ok RUnit)
  | ORemoveKey k =>
    match t with
    | Dct kvs =>
      match olookup k kvs with
      | Some _ => (Dct (oremove k kvs), Ok RUnit)
      | None => (t, Throw (KeyNotFound k))
      end
    | _ => (t, Throw InvalidOperation)
    end
  | ORemoveIdx i =>
    match t with
    | Lst ts =>
      match nth_error ts i with
      | Some _ => (Lst (firstn i ts ++ skipn (S i) ts), Ok RUnit)
      | None => (t, Throw (IndexOutOfBounds i))
      end
    | _ => (t, Throw InvalidOperation)
    end
  | OClear =>
    match t with
    | Lst _ => (Lst [], Ok RUnit)
    | Dct _ => (Dct [], Ok RUnit)
    | _ => (t, Throw InvalidOperation)
    end
  | OType => (t, Ok (RType (dg_type t)))
  | OIsEmpty => (t, Ok (RBool (match t with Emp => true | _ => false end)))
  | OCount => (t, spec_count t)
  | OExists k =>
    (t, Ok (RBool (match t with
                   | Dct kvs => match olookup k kvs with Some _ => true | None => false end
                   | _ => false
                   end)))
  | ORead ty =>
    (t, match t with
        | Val d => if vty_eqb (data_ty d) ty then Ok (RData d) else Throw InvalidOperation
        | _ => Throw InvalidOperation
        end)
  | OPath ty p def => (t, Ok (RData (spec_path t ty p def)))
  end.

(** A nested subscript: descend along the selectors, apply [f] there, and
    rebuild. A key selector turns anything that is not a dictionary into an
    empty dictionary and creates a missing entry; an index selector turns
    anything that is not a list into an empty list and raises when the index
    is out of range. *)
Fixpoint spec_at {A} (p : list sel) (f : dg -> dg * res A) (t : dg) : dg * res A :=
  match p with
  | [] => f t
  | SKey k :: p' =>
    let kvs := kids_dict t in
    let child := match olookup k kvs with Some c => c | None => Emp end in
    let (child', r) := spec_at p' f child in
    (Dct (oinsert k child' kvs), r)
  | SIdx i :: p' =>
    let ts := kids_list t in
    match nth_error ts i with
    | None => (Lst ts, Throw (IndexOutOfBounds i))
    | Some child =>
      let (child', r) := spec_at p' f child in
      (Lst (list_set i child' ts), r)
    end
  end.

(** ** Statements over several datagram variables *)

Inductive stmt : Type :=
| SDecl (ty : rtype)                               (* Datagram d(type); Datagram d; *)
| SDeclVal (v : data)                              (* Datagram d(value); *)
| SDeclCopy (w : nat)                              (* Datagram d(w); *)
| SOp (v : nat) (p : list sel) (o : op)            (* v[..]...[..] op; *)
| SAssign (v : nat) (p : list sel) (w : nat)       (* v[..]...[..] = w; *)
| SAddCopy (v : nat) (p : list sel) (w : nat)      (* v[..]...[..].Add(copy of w); *)
| SEq (v w : nat).                                 (* v == w *)

Definition spec_decl (ty : rtype) : dg :=
  match ty with TEmpty => Emp | TList => Lst [] | TDict => Dct [] | TValue => Val (DInt 0) end.

(** Equality as a function, for the result of [SEq]. *)
Definition spec_data_eqb (a b : data) : bool :=
  match a, b with
  | DInt x, DInt y => Z.eqb x y
  | DBool x, DBool y => Bool.eqb x y
  | DDouble x, DDouble y => dbl_eqb x y
  | DStr x, DStr y => String.eqb x y
  | DOther t x, DOther t' y => String.eqb t t' && String.eqb x y
  | _, _ => false
  end.

Fixpoint spec_eqb (a b : dg) {struct a} : bool :=
  match a, b with
  | Emp, Emp => true
  | Val x, Val y => spec_data_eqb x y
  | Lst ts, Lst us =>
    (fix go ts us := match ts, us with
                     | [], [] => true
                     | t :: ts', u :: us' => spec_eqb t u && go ts' us'
                     | _, _ => false
                     end) ts us
  | Dct m, Dct n =>
    (fix go m n := match m, n with
                   | [], [] => true
                   | (k, t) :: m', (k', u) :: n' => String.eqb k k' && spec_eqb t u && go m' n'
                   | _, _ => false
                   end) m n
  | _, _ => false
  end.

Definition on_var {A} (v : nat) (vs : list dg) (bad : A) (f : dg -> dg * A) : list dg * A :=
  match nth_error vs v with
  | Some t => let (t', a) := f t in (list_set v t' vs, a)
  | None => (vs, bad)
  end.

(** Copy assignment reads the source after the subscripts on the left have been
    evaluated, so [d["a"] = d] copies [d] with the new entry already present. *)
Definition spec_from (v : nat) (p : list sel) (w : nat) (f : dg -> dg -> dg) (vs : list dg) : list dg * res rv :=
  match nth_error vs v, nth_error vs w with
  | Some _, Some _ =>
    let (vs1, r) := on_var v vs (Ok RBadHandle) (spec_at p (fun t => (t, Ok RUnit))) in
    match r, nth_error vs1 w with
    | Ok _, Some src => on_var v vs1 (Ok RBadHandle) (spec_at p (fun t => (f src t, Ok RUnit)))
    | _, _ => (vs1, r)
    end
  | _, _ => (vs, Ok RBadHandle)
  end.

Definition spec_stmt (s : stmt) (vs : list dg) : list dg * res rv :=
  match s with
  | SDecl ty => (vs ++ [spec_decl ty], Ok RHandle)
  | SDeclVal v => (vs ++ [Val v], Ok RHandle)
  | SDeclCopy w =>
    match nth_error vs w with
    | Some t => (vs ++ [t], Ok RHandle)
    | None => (vs, Ok RBadHandle)
    end
  | SOp v p o => on_var v vs (Ok RBadHandle) (spec_at p (spec_op o))
  | SAssign v p w => spec_from v p w (fun src _ => src) vs
  | SAddCopy v p w => spec_from v p w (fun src t => Lst (kids_list t ++ [src])) vs
  | SEq v w =>
    match nth_error vs v, nth_error vs w with
    | Some a, Some b => (vs, Ok (RBool (spec_eqb a b)))
    | _, _ => (vs, Ok RBadHandle)
    end
  end.

(** Results of a whole program of statements. *)
Fixpoint spec_run (ss : list stmt) (vs : list dg) : list dg * list (res rv) :=
  match ss with
  | [] => (vs, [])
  | s :: ss' =>
    let (vs1, r) := spec_stmt s vs in
    let (vs2, rs) := spec_run ss' vs1 in
    (vs2, r :: rs)
  end.

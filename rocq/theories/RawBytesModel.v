(** Model of RawBytes: src/lamppost/data/RawBytes.cpp ("RB.cpp"), include/lamppost/data/RawBytes.h,
    over a memory of blocks. A client owns buffers and objects and runs commands.

    Simplifications: allocation never fails; sizes do not overflow; a pointer is a block
    and an offset. *)
From Coq Require Import String Ascii List Arith Bool.
From Verif Require Import Prelude.
Import ListNotations.
Open Scope list_scope.

(** A block holds bytes, or has been freed. *)
Definition mem : Type := list (option (list ascii)).

(** RawBytes.h:17-18 *)
Record robj : Type := mkR { r_content : option nat; r_size : nat }.

(** A pointer handed to RawBytes; [None] is null. *)
Definition ptr : Type := option (nat * nat).

(** new char[size]; memcpy: the contents of the new block are given at once. *)
Definition alloc (bs : list ascii) (m : mem) : mem * nat := (m ++ [Some bs], length m).

(** Reading [size] bytes at [p], as memcpy does. A null pointer or a range that is not inside a
    live block is undefined behaviour. *)
Definition peek (m : mem) (p : ptr) (size : nat) : res (list ascii) :=
  match p with
  | None => UB
  | Some (b, off) =>
    match nth_error m b with
    | Some (Some bs) => if Nat.leb (off + size) (length bs) then Ok (firstn size (skipn off bs)) else UB
    | _ => UB
    end
  end.

(** delete[]: undefined unless the block is live. *)
Definition release (b : nat) (m : mem) : res mem :=
  match nth_error m b with
  | Some (Some _) => Ok (list_set b None m)
  | _ => UB
  end.

(** RB.cpp:8-12 *)
Definition rb_default : robj := mkR None 0.

(** RB.cpp:14-24 *)
Definition rb_new (p : ptr) (size : nat) (m : mem) : res (mem * robj) :=
  match p with
  | None => Throw (ArgumentNull "content")
  | Some _ =>
    res_bind (peek m p size) (fun bs => let (m', b) := alloc bs m in Ok (m', mkR (Some b) size))
  end.

(** RB.cpp:26-32 *)
Definition rb_destroy (o : robj) (m : mem) : res mem :=
  match r_content o with
  | None => Ok m
  | Some b => release b m
  end.

(** RB.cpp:44-62. The new block is filled completely before the old one is released. *)
Definition rb_append (o : robj) (p : ptr) (size : nat) (m : mem) : res (mem * robj) :=
  match r_content o with
  | None =>
    res_bind (peek m p size) (fun bs => let (m', b) := alloc bs m in Ok (m', mkR (Some b) size))
  | Some old =>
    res_bind (peek m (Some (old, 0)) (r_size o)) (fun bs0 =>
    res_bind (peek m p size) (fun bs =>
    let (m1, b) := alloc (bs0 ++ bs) m in
    res_bind (release old m1) (fun m2 => Ok (m2, mkR (Some b) (r_size o + size)))))
  end.

(** RB.cpp:34-42: reading GetSize() bytes at GetContent(). *)
Definition rb_read (o : robj) (m : mem) : res (list ascii) :=
  match r_content o with
  | None => Ok []
  | Some b => peek m (Some (b, 0)) (r_size o)
  end.

(** ** Clients *)

(** Where a client takes a pointer from: null, one of its buffers, or the content of an
    object (GetContent, RB.cpp:34-37), plus an offset. *)
Inductive src : Type := SNull | SBuf (i off : nat) | SObj (o off : nat).

Inductive bcmd : Type :=
| BBuf (bs : list ascii)                (* the client allocates a buffer *)
| BWrite (i off : nat) (c : ascii)      (* and writes to it *)
| BFree (i : nat)
| BNew                                  (* RawBytes b; *)
| BNewFrom (s : src) (size : nat)       (* RawBytes b(p, size); *)
| BAppend (o : nat) (s : src) (size : nat)
| BCopy (o : nat)                       (* implicit copy constructor: memberwise *)
| BDestroy (o : nat)
| BRead (o : nat)                       (* the bytes at GetContent(), GetSize() many *)
| BSize (o : nat).

Inductive bret : Type := BUnit | BBytes (bs : list ascii) | BNum (n : nat).

(** Memory, the client's buffers (block numbers) and objects ([None]: destroyed, or the
    constructor threw). *)
Record bstate : Type := mkB { b_mem : mem; b_bufs : list nat; b_objs : list (option robj) }.

Definition binit : bstate := mkB [] [] [].

Definition src_ptr (st : bstate) (s : src) : res ptr :=
  match s with
  | SNull => Ok None
  | SBuf i off => match nth_error (b_bufs st) i with Some b => Ok (Some (b, off)) | None => UB end
  | SObj o off =>
    match nth_error (b_objs st) o with
    | Some (Some r) => Ok (match r_content r with Some b => Some (b, off) | None => None end)
    | _ => UB
    end
  end.

Definition with_obj {A} (st : bstate) (o : nat) (k : robj -> res A) : res A :=
  match nth_error (b_objs st) o with Some (Some r) => k r | _ => UB end.

Definition bexec (c : bcmd) (st : bstate) : bstate * res bret :=
  let ret (x : res (bstate * bret)) := match x with
    | Ok (st', r) => (st', Ok r) | Throw e => (st, Throw e) | UB => (st, UB) | NoFuel => (st, NoFuel) end in
  match c with
  | BBuf bs => let (m, b) := alloc bs (b_mem st) in (mkB m (b_bufs st ++ [b]) (b_objs st), Ok BUnit)
  | BWrite i off x =>
    match nth_error (b_bufs st) i with
    | Some b =>
      match nth_error (b_mem st) b with
      | Some (Some bs) =>
        if Nat.ltb off (length bs) then (mkB (list_set b (Some (list_set off x bs)) (b_mem st)) (b_bufs st) (b_objs st), Ok BUnit)
        else (st, UB)
      | _ => (st, UB)
      end
    | None => (st, UB)
    end
  | BFree i =>
    match nth_error (b_bufs st) i with
    | Some b => ret (res_map (fun m => (mkB m (b_bufs st) (b_objs st), BUnit)) (release b (b_mem st)))
    | None => (st, UB)
    end
  | BNew => (mkB (b_mem st) (b_bufs st) (b_objs st ++ [Some rb_default]), Ok BUnit)
  | BNewFrom s size =>
    match res_bind (src_ptr st s) (fun p => rb_new p size (b_mem st)) with
    | Ok (m, r) => (mkB m (b_bufs st) (b_objs st ++ [Some r]), Ok BUnit)
    | Throw e => (mkB (b_mem st) (b_bufs st) (b_objs st ++ [None]), Throw e)
    | UB => (st, UB)
    | NoFuel => (st, NoFuel)
    end
  | BAppend o s size =>
    ret (with_obj st o (fun r =>
      res_bind (src_ptr st s) (fun p =>
      res_map (fun x => (mkB (fst x) (b_bufs st) (list_set o (Some (snd x)) (b_objs st)), BUnit))
        (rb_append r p size (b_mem st)))))
  | BCopy o => ret (with_obj st o (fun r => Ok (mkB (b_mem st) (b_bufs st) (b_objs st ++ [Some r]), BUnit)))
  | BDestroy o =>
    ret (with_obj st o (fun r =>
      res_map (fun m => (mkB m (b_bufs st) (list_set o None (b_objs st)), BUnit)) (rb_destroy r (b_mem st))))
  | BRead o => ret (with_obj st o (fun r => res_map (fun bs => (st, BBytes bs)) (rb_read r (b_mem st))))
  | BSize o => ret (with_obj st o (fun r => Ok (st, BNum (r_size r))))
  end.

(** A history stops at undefined behaviour. *)
Fixpoint brun (cs : list bcmd) (st : bstate) : bstate * list (res bret) :=
  match cs with
  | [] => (st, [])
  | c :: cs' =>
    match bexec c st with
    | (st', UB) => (st', [UB])
    | (st', r) => let (st'', rs) := brun cs' st' in (st'', r :: rs)
    end
  end.

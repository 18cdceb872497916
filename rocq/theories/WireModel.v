(** Model of the bytes of a message: Message::SerializeToBytes and Message::Deserialize
    (src/lamppost/messages/Message.cpp, "M.cpp"), RawDatagram::SerializeToStructure and DeserializeFromStructure
    (src/lamppost/messages/RawDatagram.cpp, "RD.cpp") down to the FlatBuffers format of
    schemas/FBDatagram.fbs and schemas/FBMessage.fbs.

    The FlatBuffers library and the code its compiler generates from the schemas are not part of the repository (a
    submodule, .gitmodules:4-6); they are modelled here after FlatBuffers 1.10: flatbuffers.h and the generated
    headers as produced by CMakeLists.txt:113-118. No verifier is called by the repository's code, and none is modelled.

    Simplifications:
    - A read of bytes outside the received block is undefined behaviour. Alignment of reads does not matter.
    - The accessors of a table are looked at before the datagram is built from them (RD.cpp:348-402 does both in
      turn); this differs only in what has been done before undefined behaviour.
    - The builder never runs out of memory; its assertions on the size of the buffer (below 2^31) are hypotheses. *)
From Coq Require Import String Ascii List Arith ZArith NArith Bool.
From Verif Require Import Prelude OMap DatagramModel SerialModel.
Import ListNotations.
Open Scope list_scope.
Open Scope Z_scope.

Definition size (b : list ascii) : Z := Z.of_nat (length b).

(** ** Reading *)

Definition byte_value (a : ascii) : Z := Z.of_N (N_of_ascii a).

(** EndianScalar: the lowest byte comes first. *)
Fixpoint le_value (l : list ascii) : Z :=
  match l with
  | [] => 0
  | a :: l' => byte_value a + 256 * le_value l'
  end.

(** The [n] bytes at position [p]. *)
Definition bytes_at (b : list ascii) (p n : Z) : res (list ascii) :=
  if (0 <=? p) && (0 <=? n) && (p + n <=? size b) then Ok (firstn (Z.to_nat n) (skipn (Z.to_nat p) b)) else UB.

(** ReadScalar for an unsigned type of [n] bytes *)
Definition rd (n : Z) (b : list ascii) (p : Z) : res Z := res_map le_value (bytes_at b p n).

(** The same bytes as a signed number *)
Definition signed (n v : Z) : Z := if v <? 2 ^ (8 * n - 1) then v else v - 2 ^ (8 * n).

(** Table::GetVTable, Table::GetOptionalFieldOffset; 0 if the field is absent *)
Definition field (b : list ascii) (t id : Z) : res Z :=
  res_bind (rd 4 b t) (fun so =>
  let vt := t - signed 4 so in
  res_bind (rd 2 b vt) (fun sz => if id <? sz then rd 2 b (vt + id) else Ok 0)).

(** Table::GetField; the defaults of both schemas are 0 *)
Definition scalar (n : Z) (b : list ascii) (t id : Z) : res Z :=
  res_bind (field b t id) (fun f => if f =? 0 then Ok 0 else rd n b (t + f)).

(** Table::GetPointer; [None] is null *)
Definition pointer (b : list ascii) (t id : Z) : res (option Z) :=
  res_bind (field b t id) (fun f =>
  if f =? 0 then Ok None else res_map (fun o => Some (t + f + o)) (rd 4 b (t + f))).

(** String::str *)
Definition str_at (b : list ascii) (p : Z) : res string :=
  res_bind (rd 4 b p) (fun n => res_map string_of_list_ascii (bytes_at b (p + 4) n)).

(** A string field; null is [None]. *)
Definition str_field (b : list ascii) (t id : Z) : res (option string) :=
  res_bind (pointer b t id) (fun p =>
  match p with None => Ok None | Some p => res_map Some (str_at b p) end).

(** Vector<Offset<T>>::Get for the index [i] of the vector at [v]: the position of the element *)
Definition element (b : list ascii) (v : Z) (i : nat) : res Z :=
  let p := v + 4 + 4 * Z.of_nat i in res_map (fun o => p + o) (rd 4 b p).

Fixpoint res_all {A B} (f : A -> res B) (l : list A) : res (list B) :=
  match l with
  | [] => Ok []
  | x :: l' => res_bind (f x) (fun y => res_bind (res_all f l') (fun ys => Ok (y :: ys)))
  end.

(** The loops of RD.cpp:380-383 and 390-393 over the first [n] elements. If these reach beyond the block, so does
    one of the reads; this is looked at beforehand. *)
Definition elements {A} (f : Z -> res A) (b : list ascii) (v n : Z) : res (list A) :=
  if v + 4 + 4 * n <=? size b
  then res_all (fun i => res_bind (element b v i) f) (seq 0 (Z.to_nat n)) else UB.

(** Generated: VT_... of FBDatagram and FBMessage *)
Definition id_datagram_type : Z := 4.
Definition id_value_type : Z := 6.
Definition id_string : Z := 8.
Definition id_integer : Z := 10.
Definition id_double : Z := 12.
Definition id_boolean : Z := 14.
Definition id_list : Z := 16.
Definition id_keys : Z := 18.
Definition id_contents : Z := 20.
Definition id_sender : Z := 4.
Definition id_topic : Z := 6.
Definition id_datagram : Z := 8.

(** What RD.cpp:348-402 sees of the table at [t]: fields that it does not look at are given as absent. The bound
    limits the recursion depth. *)
Fixpoint table (fuel : nat) (b : list ascii) (t : Z) {struct fuel} : res fbd :=
  match fuel with
  | O => NoFuel
  | S f =>
    res_bind (res_map (signed 1) (scalar 1 b t id_datagram_type)) (fun dt =>
    if dt =? dt_value then
      res_bind (res_map (signed 1) (scalar 1 b t id_value_type)) (fun vt =>
      if vt =? vt_string then
        res_map (fun s => Fb dt vt s 0 0 false None None None) (str_field b t id_string)
      else if vt =? vt_double then
        res_map (fun d => Fb dt vt None 0 (Z.to_N d) false None None None) (scalar 8 b t id_double)
      else if vt =? vt_integer then
        res_map (fun i => Fb dt vt None (signed 4 i) 0 false None None None) (scalar 4 b t id_integer)
      else if vt =? vt_boolean then
        res_map (fun x => Fb dt vt None 0 0 (negb (x =? 0)) None None None) (scalar 1 b t id_boolean)
      else Ok (Fb dt vt None 0 0 false None None None))
    else if dt =? dt_list then
      res_bind (pointer b t id_list) (fun v =>
      match v with
      | None => Ok (Fb dt 0 None 0 0 false None None None)
      | Some v =>
        res_bind (rd 4 b v) (fun n =>
        res_map (fun ts => Fb dt 0 None 0 0 false (Some ts) None None) (elements (table f b) b v n))
      end)
    else if dt =? dt_dict then
      res_bind (pointer b t id_keys) (fun ks =>
      res_bind (pointer b t id_contents) (fun vs =>
      match ks, vs with
      | Some ks, Some vs =>
        res_bind (rd 4 b ks) (fun nk =>
        res_bind (rd 4 b vs) (fun nv =>
        let n := Z.min nk nv in
        res_bind (elements (str_at b) b ks n) (fun keys =>
        res_map (fun ts => Fb dt 0 None 0 0 false None (Some keys) (Some ts)) (elements (table f b) b vs n))))
      | _, _ => Ok (Fb dt 0 None 0 0 false None None None)
      end))
    else Ok (Fb dt 0 None 0 0 false None None None))
  end.

(** M.cpp:46-51: GetRoot and the accessors of FBMessage *)
Definition wire_message (fuel : nat) (b : list ascii) : res fbm :=
  res_bind (rd 4 b 0) (fun t =>
  res_bind (str_field b t id_sender) (fun s =>
  res_bind (str_field b t id_topic) (fun tp =>
  res_bind (pointer b t id_datagram) (fun d =>
  match d with
  | None => Ok (mkFbm s tp None)
  | Some d => res_map (fun x => mkFbm s tp (Some x)) (table fuel b d)
  end)))).

(** M.cpp:44-52. [fuel] also bounds the copying of the datagram. *)
Definition msg_from_wire (fuel : nat) (b : list ascii) : M msg := fun h =>
  match wire_message fuel b with
  | Ok t => msg_deser fuel t h
  | Throw e => (h, Throw e)
  | UB => (h, UB)
  | NoFuel => (h, NoFuel)
  end.

(** ** Writing *)

Fixpoint le_bytes (n : nat) (v : Z) : list ascii :=
  match n with
  | O => []
  | S n' => ascii_of_N (Z.to_N (v mod 256)) :: le_bytes n' (v / 256)
  end.

(** FlatBufferBuilder: the bytes so far, which grow towards the front; minalign_; the vtables made so far. Places in
    the buffer are named by their distance from its end, as GetSize gives it. *)
Record builder : Type := mkB { bu_bytes : list ascii; bu_align : Z; bu_vtables : list Z }.
Definition bu_init : builder := mkB [] 1 [].
Definition bu_size (s : builder) : Z := size (bu_bytes s).

(** PreAlign: zeros such that [len] more bytes end at a multiple of [a]; Align is the case of no more bytes. *)
Definition pre_align (len a : Z) (s : builder) : builder :=
  mkB (repeat zero (Z.to_nat ((- (bu_size s + len)) mod a)) ++ bu_bytes s) (Z.max a (bu_align s)) (bu_vtables s).

Definition put (l : list ascii) (s : builder) : builder := mkB (l ++ bu_bytes s) (bu_align s) (bu_vtables s).

(** PushElement for a type of [n] bytes *)
Definition push (n : nat) (v : Z) (s : builder) : builder := put (le_bytes n v) (pre_align 0 (Z.of_nat n) s).

(** PushElement for an offset, with ReferTo: the distance to what lies at [o] *)
Definition push_offset (o : Z) (s : builder) : builder :=
  let s := pre_align 0 4 s in push 4 (bu_size s - o + 4) s.

(** CreateString *)
Definition create_string (x : string) (s : builder) : builder * Z :=
  let l := list_ascii_of_string x in
  let s := push 4 (size l) (put l (put [zero] (pre_align (size l + 1) 4 s))) in (s, bu_size s).

(** CreateVector of offsets: StartVector, PushElement from the last to the first, EndVector *)
Definition create_vector (os : list Z) (s : builder) : builder * Z :=
  let n := Z.of_nat (length os) in
  let s := fold_right push_offset (pre_align (4 * n) 4 (pre_align (4 * n) 4 s)) os in
  let s := push 4 n s in (s, bu_size s).

(** A table under construction: the fields added so far and where they are. *)
Definition partial : Type := builder * list (Z * Z).

(** AddElement; [dflt]: the value compares equal to the default *)
Definition add_scalar (n : nat) (id v : Z) (dflt : bool) (p : partial) : partial :=
  if dflt then p else let s := push n v (fst p) in (s, (id, bu_size s) :: snd p).

(** AddOffset; [None] is the null offset *)
Definition add_offset (id : Z) (o : option Z) (p : partial) : partial :=
  match o with
  | None => p
  | Some o => let s := push_offset o (fst p) in (s, (id, bu_size s) :: snd p)
  end.

Fixpoint find_field (id : Z) (fs : list (Z * Z)) : option Z :=
  match fs with
  | [] => None
  | (i, off) :: fs' => if i =? id then Some off else find_field id fs'
  end.

(** max_voffset_ after EndTable's adjustment *)
Definition vtable_size (fs : list (Z * Z)) : Z := Z.max (fold_right (fun f m => Z.max (fst f) m) 0 fs + 2) 4.

(** EndTable: the vtable of a table at [loc] whose fields begin after [start] *)
Definition vtable (start loc : Z) (fs : list (Z * Z)) : list ascii :=
  le_bytes 2 (vtable_size fs) ++ le_bytes 2 (loc - start) ++
  flat_map (fun i => le_bytes 2 (match find_field (4 + 2 * Z.of_nat i) fs with Some off => loc - off | None => 0 end))
    (seq 0 (Z.to_nat ((vtable_size fs - 4) / 2))).

Fixpoint ascii_list_eqb (a b : list ascii) : bool :=
  match a, b with
  | [], [] => true
  | x :: a', y :: b' => Ascii.eqb x y && ascii_list_eqb a' b'
  | _, _ => false
  end.

(** EndTable: an earlier vtable with the same bytes; their first two give the length *)
Fixpoint find_vtable (vt : list ascii) (b : list ascii) (vs : list Z) : option Z :=
  match vs with
  | [] => None
  | v :: vs' =>
      if ascii_list_eqb vt (firstn (length vt) (skipn (Z.to_nat (size b - v)) b)) then Some v else find_vtable vt b vs'
  end.

(** EndTable. The place for the offset of the vtable is filled in when it is known. *)
Definition end_table (start : Z) (p : partial) : builder * Z :=
  let s := pre_align 0 4 (fst p) in
  let loc := bu_size s + 4 in
  let vt := vtable start loc (snd p) in
  match find_vtable vt (bu_bytes s) (bu_vtables s) with
  | Some v => (put (le_bytes 4 (v - loc)) s, loc)
  | None =>
      let v := loc + size vt in
      (mkB (vt ++ le_bytes 4 (v - loc) ++ bu_bytes s) (bu_align s) (bu_vtables s ++ [v]), loc)
  end.

(** Generated CreateFBDatagram: StartTable, the fields from the widest to the narrowest, EndTable *)
Definition create_datagram (dt vt : Z) (so : option Z) (i : Z) (d : N) (x : bool) (lo ko vo : option Z) (s : builder)
    : builder * Z :=
  end_table (bu_size s)
    (add_scalar 1 id_datagram_type dt (dt =? 0)
    (add_scalar 1 id_value_type vt (vt =? 0)
    (add_scalar 1 id_boolean (if x then 1 else 0) (negb x)
    (add_offset id_string so
    (add_scalar 4 id_integer i (i =? 0)
    (add_offset id_list lo
    (add_offset id_keys ko
    (add_offset id_contents vo
    (add_scalar 8 id_double (Z.of_N d) (dbl_eqb d 0) (s, [])))))))))).

(** RD.cpp:331-333 *)
Definition opt_vector (os : option (list Z)) (s : builder) : builder * option Z :=
  match os with None => (s, None) | Some os => let (s, o) := create_vector os s in (s, Some o) end.

(** RD.cpp:262-346, on the table that [raw_ser] describes: strings and children first, in the order of the loops, then
    the three vectors, then the table. *)
Fixpoint build (f : fbd) (s : builder) {struct f} : builder * Z :=
  match f with
  | Fb dt vt str i d x l ks vs =>
    let (s, so) := match str with Some y => let (s, o) := create_string y s in (s, Some o) | None => (s, None) end in
    let (s, los) :=
      match l with
      | None => (s, None)
      | Some l =>
        let (s, os) :=
          (fix items (l : list fbd) (s : builder) : builder * list Z :=
             match l with
             | [] => (s, [])
             | y :: l' => let (s, o) := build y s in let (s, os) := items l' s in (s, o :: os)
             end) l s in
        (s, Some os)
      end in
    let '(s, kos, vos) :=
      match ks, vs with
      | Some ks, Some vs =>
        let '(s, ko, vo) :=
          (fix pairs (ks : list string) (vs : list fbd) (s : builder) {struct vs} : builder * list Z * list Z :=
             match ks, vs with
             | k :: ks', y :: vs' =>
               let (s, o) := create_string k s in
               let (s, o') := build y s in
               let '(s, os, os') := pairs ks' vs' s in (s, o :: os, o' :: os')
             | _, _ => (s, [], [])
             end) ks vs s in
        (s, Some ko, Some vo)
      | _, _ => (s, None, None)
      end in
    let (s, lo) := opt_vector los s in
    let (s, ko) := opt_vector kos s in
    let (s, vo) := opt_vector vos s in
    create_datagram dt vt so i d x lo ko vo s
  end.

(** Finish *)
Definition finish (root : Z) (s : builder) : list ascii :=
  bu_bytes (push_offset root (pre_align 4 (bu_align s) s)).

(** M.cpp:28-42 with generated CreateFBMessage *)
Definition build_message (t : fbm) : list ascii :=
  match fb_sender t, fb_topic t, fb_datagram t with
  | Some se, Some tp, Some d =>
    let (s, so) := create_string se bu_init in
    let (s, to) := create_string tp s in
    let (s, do) := build d s in
    let (s, root) :=
      end_table (bu_size s)
        (add_offset id_sender (Some so) (add_offset id_topic (Some to) (add_offset id_datagram (Some do) (s, [])))) in
    finish root s
  | _, _, _ => []
  end.

Definition msg_to_wire (fuel : nat) (h : heap) (m : msg) : res (list ascii) := res_map build_message (msg_ser fuel h m).

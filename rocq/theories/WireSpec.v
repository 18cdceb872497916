(** What the bytes of a message mean, read off the FlatBuffers format: numbers at positions, tables with their vtables,
    strings, vectors of offsets. Nothing here refers to [WireModel]. *)
From Coq Require Import String Ascii List Arith ZArith NArith Bool.
From Verif Require Import Prelude OMap DatagramModel DatagramSpec SerialSpec.
Import ListNotations.
Open Scope list_scope.
Open Scope Z_scope.

(** The bytes [l] lie at position [p] of [b]. *)
Definition piece (b : list ascii) (p : Z) (l : list ascii) : Prop :=
  exists before after, b = before ++ l ++ after /\ Z.of_nat (length before) = p.

(** Little-endian numbers; two's complement. *)
Definition base256 (l : list ascii) : Z := fold_right (fun a v => Z.of_N (N_of_ascii a) + 256 * v) 0 l.
Definition twos (bits v : Z) : Z := if v <? 2 ^ (bits - 1) then v else v - 2 ^ bits.

(** The number of [n] bytes at position [p] is [v]. *)
Definition num (b : list ascii) (p : Z) (n : nat) (v : Z) : Prop := exists l, piece b p l /\ length l = n /\ v = base256 l.

(** A table begins with the distance back to its vtable. *)
Definition vtable_of (b : list ascii) (t vt : Z) : Prop := exists v, num b t 4 v /\ vt = t - twos 32 v.

(** Where the table at [t] has its field number [id]; a vtable begins with its own size, and gives the distance of each
    field from the beginning of the table. *)
Inductive slot (b : list ascii) (t id : Z) : option Z -> Prop :=
| slot_short vt sz : vtable_of b t vt -> num b vt 2 sz -> sz <= id -> slot b t id None
| slot_zero vt sz : vtable_of b t vt -> num b vt 2 sz -> id < sz -> num b (vt + id) 2 0 -> slot b t id None
| slot_at vt sz f : vtable_of b t vt -> num b vt 2 sz -> id < sz -> num b (vt + id) 2 f -> f <> 0 -> slot b t id (Some (t + f)).

(** A number in a field; 0 if the field is absent. *)
Inductive value (b : list ascii) (t id : Z) (n : nat) : Z -> Prop :=
| value_none : slot b t id None -> value b t id n 0
| value_some p v : slot b t id (Some p) -> num b p n v -> value b t id n v.

(** What a field points to. *)
Inductive points (b : list ascii) (t id : Z) : option Z -> Prop :=
| points_null : slot b t id None -> points b t id None
| points_to p o : slot b t id (Some p) -> num b p 4 o -> points b t id (Some (p + o)).

(** A string: its length, then its bytes. *)
Definition text (b : list ascii) (p : Z) (s : string) : Prop :=
  num b p 4 (Z.of_nat (String.length s)) /\ piece b (p + 4) (list_ascii_of_string s).

(** The first [n] elements of a vector of offsets: what they point to. *)
Definition entries (b : list ascii) (v n : Z) (qs : list Z) : Prop :=
  Z.of_nat (length qs) = n /\
  forall i q, nth_error qs i = Some q ->
    exists o, num b (v + 4 + 4 * Z.of_nat i) 4 o /\ q = v + 4 + 4 * Z.of_nat i + o.

(** The table at [t] holds the datagram. Fields by number: 4 type, 6 type of value, 8 string, 10 integer, 12 double,
    14 boolean, 16 list, 18 keys, 20 contents. *)
Inductive holds (b : list ascii) : Z -> dg -> Prop :=
| holds_string t p s : value b t 4 1 1 -> value b t 6 1 0 -> points b t 8 (Some p) -> text b p s -> holds b t (Val (DStr s))
| holds_integer t v : value b t 4 1 1 -> value b t 6 1 1 -> value b t 10 4 v -> holds b t (Val (DInt (twos 32 v)))
| holds_double t v : value b t 4 1 1 -> value b t 6 1 2 -> value b t 12 8 v -> holds b t (Val (DDouble (Z.to_N v)))
| holds_boolean t v : value b t 4 1 1 -> value b t 6 1 3 -> value b t 14 1 v -> holds b t (Val (DBool (negb (v =? 0))))
| holds_bad_value t c : value b t 4 1 1 -> value b t 6 1 c -> ~ (0 <= c <= 3) -> holds b t Emp
| holds_list t v n qs ds :
    value b t 4 1 2 -> points b t 16 (Some v) -> num b v 4 n -> entries b v n qs -> Forall2 (holds b) qs ds ->
    holds b t (match ds with [] => Emp | _ => Lst ds end)
| holds_dict t kv vv nk nv kqs vqs ks ds m :
    value b t 4 1 3 -> points b t 18 (Some kv) -> points b t 20 (Some vv) -> num b kv 4 nk -> num b vv 4 nv ->
    entries b kv (Z.min nk nv) kqs -> Forall2 (text b) kqs ks ->
    entries b vv (Z.min nk nv) vqs -> Forall2 (holds b) vqs ds ->
    dict_of (combine ks ds) m ->
    holds b t (match m with [] => Emp | _ => Dct m end)
| holds_other t c : value b t 4 1 c -> ~ (1 <= c <= 3) -> holds b t Emp.

(** The bytes are a message; the fields 4, 6, 8 of its table are the sender, the topic and the datagram. *)
Definition message (b : list ascii) (sender topic : string) (d : dg) : Prop :=
  exists t ps pt pd, num b 0 4 t /\
    points b t 4 (Some ps) /\ text b ps sender /\ points b t 6 (Some pt) /\ text b pt topic /\
    points b t 8 (Some pd) /\ holds b pd d.

(** Values that the C++ types can hold. *)
Inductive fits : dg -> Prop :=
| fits_emp : fits Emp
| fits_int z : - 2 ^ 31 <= z < 2 ^ 31 -> fits (Val (DInt z))
| fits_double d : (d < 2 ^ 64)%N -> fits (Val (DDouble d))
| fits_bool b : fits (Val (DBool b))
| fits_str s : fits (Val (DStr s))
| fits_other ty r : fits (Val (DOther ty r))
| fits_lst ts : Forall fits ts -> fits (Lst ts)
| fits_dct kvs : Forall (fun p => fits (snd p)) kvs -> fits (Dct kvs).

(** The number of datagrams in the tree. *)
Fixpoint nodes (t : dg) : Z :=
  match t with
  | Emp | Val _ => 1
  | Lst ts => 1 + fold_right Z.add 0 (map nodes ts)
  | Dct kvs => 1 + fold_right Z.add 0 (map (fun p => nodes (snd p)) kvs)
  end.

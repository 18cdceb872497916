(** Specification of the conversions between datagrams, wire tables, JSON and text,
    on trees. *)
From Coq Require Import String Ascii List Arith ZArith NArith Bool DecimalString.
From Verif Require Import Prelude OMap DatagramModel DatagramSpec SerialModel.
Import ListNotations.
Open Scope list_scope.

(** ** The wire *)

(** What a datagram looks like after a round trip over the wire. *)
Fixpoint wire (t : dg) : dg :=
  match t with
  | Emp => Emp
  | Val (DOther _ _) => Emp
  | Val (DDouble b) => Val (DDouble (if dbl_is_zero b then 0%N else b))
  | Val v => Val v
  | Lst [] => Emp
  | Lst ts => Lst (map wire ts)
  | Dct [] => Emp
  | Dct kvs => Dct (map (fun p => (fst p, wire (snd p))) kvs)
  end.

(** Somewhere in the tree there is an empty list, an empty dictionary, a value of a
    type unknown to the wire, or (the last clause) a negative zero. *)
Inductive lossy (negzero : bool) : dg -> Prop :=
| lossy_other ty r : lossy negzero (Val (DOther ty r))
| lossy_nil : lossy negzero (Lst [])
| lossy_nod : lossy negzero (Dct [])
| lossy_zero b : negzero = true -> dbl_is_zero b = true -> b <> 0%N -> lossy negzero (Val (DDouble b))
| lossy_lst ts t : In t ts -> lossy negzero t -> lossy negzero (Lst ts)
| lossy_dct kvs p : In p kvs -> lossy negzero (snd p) -> lossy negzero (Dct kvs).

(** The last entry under key [k]. *)
Fixpoint last_entry {A} (k : string) (l : list (string * A)) : option A :=
  match l with
  | [] => None
  | (k', a) :: l' =>
    match last_entry k l' with
    | Some x => Some x
    | None => if String.eqb k k' then Some a else None
    end
  end.

(** The dictionary with the given entries, the last one winning. *)
Definition dict_of {A} (entries : list (string * A)) (m : omap A) : Prop :=
  osorted m /\ forall k, olookup k m = last_entry k entries.

(** [reads s t]: the received table [s] means the datagram [t]. *)
Inductive reads : fbd -> dg -> Prop :=
| reads_string x i d b l ks vs : reads (Fb 1 0 (Some x) i d b l ks vs) (Val (DStr x))
| reads_integer s i d b l ks vs : reads (Fb 1 1 s i d b l ks vs) (Val (DInt i))
| reads_double s i d b l ks vs : reads (Fb 1 2 s i d b l ks vs) (Val (DDouble d))
| reads_boolean s i d b l ks vs : reads (Fb 1 3 s i d b l ks vs) (Val (DBool b))
| reads_bad_value vt s i d b l ks vs : ~ (0 <= vt <= 3)%Z -> reads (Fb 1 vt s i d b l ks vs) Emp
| reads_empty_list vt s i d b ks vs : reads (Fb 2 vt s i d b (Some []) ks vs) Emp
| reads_list vt s i d b l ls ks vs us : Forall2 reads (l :: ls) us -> reads (Fb 2 vt s i d b (Some (l :: ls)) ks vs) (Lst us)
| reads_empty_dict vt s i d b l ks vs :
    combine ks vs = [] -> reads (Fb 3 vt s i d b l (Some ks) (Some vs)) Emp
| reads_dict vt s i d b l ks vs us m :
    combine ks vs <> [] ->
    Forall2 (fun p q => fst p = fst q /\ reads (snd p) (snd q)) (combine ks vs) us ->
    dict_of us m ->
    reads (Fb 3 vt s i d b l (Some ks) (Some vs)) (Dct m)
| reads_other dt vt s i d b l ks vs : ~ (1 <= dt <= 3)%Z -> reads (Fb dt vt s i d b l ks vs) Emp.

(** A field that the type codes call for is absent, here or in a part that is visited. *)
Inductive broken : fbd -> Prop :=
| broken_string i d b l ks vs : broken (Fb 1 0 None i d b l ks vs)
| broken_list vt s i d b ks vs : broken (Fb 2 vt s i d b None ks vs)
| broken_item vt s i d b l x ks vs : In x l -> broken x -> broken (Fb 2 vt s i d b (Some l) ks vs)
| broken_keys vt s i d b l vs : broken (Fb 3 vt s i d b l None vs)
| broken_contents vt s i d b l ks : broken (Fb 3 vt s i d b l ks None)
| broken_entry vt s i d b l ks vs p :
    In p (combine ks vs) -> broken (snd p) -> broken (Fb 3 vt s i d b l (Some ks) (Some vs)).

(** ** JSON *)

Inductive json_means : json -> dg -> Prop :=
| jm_null : json_means JNull Emp
| jm_bool b : json_means (JBool b) (Val (DBool b))
| jm_double d : json_means (JDouble d) (Val (DDouble d))
| jm_int z : (- 2 ^ 31 <= z < 2 ^ 31)%Z -> json_means (JInt z) (Val (DInt z))
| jm_big z : (2 ^ 31 <= z)%Z -> json_means (JInt z) (Val (DInt (2 ^ 31 - 1)))
| jm_small z : (z < - 2 ^ 31)%Z -> json_means (JInt z) (Val (DInt (- 2 ^ 31)))
| jm_string s : ~ In zero (list_ascii_of_string s) -> json_means (JString s) (Val (DStr s))
| jm_string_nul s s' :
    ~ In zero (list_ascii_of_string s) -> json_means (JString (s ++ String zero s')) (Val (DStr s))
| jm_no_items : json_means (JArray []) Emp
| jm_array j js us : Forall2 json_means (j :: js) us -> json_means (JArray (j :: js)) (Lst us)
| jm_no_members : json_means (JObject []) Emp
| jm_object p ps us m :
    (forall q, In q (p :: ps) -> ~ In zero (list_ascii_of_string (fst q))) ->
    Forall2 (fun x y => fst x = fst y /\ json_means (snd x) (snd y)) (p :: ps) us ->
    dict_of us m ->
    json_means (JObject (p :: ps)) (Dct m).

(** Somewhere a key contains a NUL; json-c never returns such an object. *)
Inductive bad_key : json -> Prop :=
| bad_here kvs p : In p kvs -> In zero (list_ascii_of_string (fst p)) -> bad_key (JObject kvs)
| bad_member kvs p : In p kvs -> bad_key (snd p) -> bad_key (JObject kvs)
| bad_item js j : In j js -> bad_key j -> bad_key (JArray js).

(** ** Text *)

Section Render.
  Variable double_text : N -> string.
  Variable other_text : string -> string -> string.

  Definition int_text (z : Z) : string := NilZero.string_of_int (Z.to_int z).

  Fixpoint render (t : dg) : string :=
    match t with
    | Emp => "null"
    | Val (DInt z) => int_text z
    | Val (DBool true) => "1"
    | Val (DBool false) => "0"
    | Val (DDouble d) => double_text d
    | Val (DStr s) => """" ++ s ++ """"
    | Val (DOther ty r) => other_text ty r
    | Lst ts => "[" ++ String.concat ", " (map render ts) ++ "]"
    | Dct kvs => "{" ++ String.concat ", " (map (fun p => fst p ++ ": " ++ render (snd p)) kvs) ++ "}"
    end%string.
End Render.

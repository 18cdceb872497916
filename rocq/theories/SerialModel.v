(** Model of the FlatBuffers (de)serialisation of datagrams and messages, and of
    the JSON reader.
    Paths: src/lamppost/messages/RawDatagram.cpp ("RD.cpp"),
    src/lamppost/messages/Message.cpp ("M.cpp"), schemas/FBDatagram.fbs,
    schemas/FBMessage.fbs.

    Simplifications: FlatBuffers buffers are represented by the tables they
    contain (fields as the generated accessors return them; [None] is a null
    pointer), not by bytes. json-c is represented by the object tree it returns. *)
From Coq Require Import String Ascii List Arith ZArith NArith Bool.
From Verif Require Import Prelude OMap DatagramModel.
Import ListNotations.
Open Scope list_scope.

(** ** FBDatagram tables: schemas/FBDatagram.fbs:21-35. Type codes are the stored
    bytes, so codes outside the enumerations are possible. *)
Inductive fbd : Type :=
  Fb (datagram_type value_type : Z) (string_content : option string) (integer_content : Z)
     (double_content : N) (boolean_content : bool) (list_content : option (list fbd))
     (dictionary_keys : option (list string)) (dictionary_contents : option (list fbd)).

(** FBDatagram.fbs:3-9 and 11-17 *)
Definition dt_empty : Z := 0.
Definition dt_value : Z := 1.
Definition dt_list : Z := 2.
Definition dt_dict : Z := 3.
Definition vt_string : Z := 0.
Definition vt_integer : Z := 1.
Definition vt_double : Z := 2.
Definition vt_boolean : Z := 3.

(** Generated CreateFBDatagram / FlatBufferBuilder::AddElement: a scalar that
    compares equal to the default is not stored and is read back as the
    default. For double_content this maps -0.0 to +0.0. *)
Definition fb_double (bits : N) : N := if dbl_eqb bits 0 then 0%N else bits.

(** RD.cpp:331-345: the table with all three vectors present. *)
Definition fb_table (dt vt : Z) (s : option string) (i : Z) (d : N) (b : bool)
    (l : list fbd) (ks : list string) (vs : list fbd) : fbd :=
  Fb dt vt s i (fb_double d) b (Some l) (Some ks) (Some vs).

(** RD.cpp:262-346. Reads only. The bound limits the recursion depth. *)
Fixpoint raw_ser (fuel : nat) (h : heap) (l : loc) {struct fuel} : res fbd :=
  match fuel with
  | 0 => NoFuel
  | S f =>
    match nth_error h l with
    | None => UB
    | Some n =>
      match nd_type n with
      | TValue =>
        match nd_val n with
        | Some (DStr s) => Ok (fb_table dt_value vt_string (Some s) 0 0 false [] [] [])
        | Some (DInt z) => Ok (fb_table dt_value vt_integer None z 0 false [] [] [])
        | Some (DDouble d) => Ok (fb_table dt_value vt_double None 0 d false [] [] [])
        | Some (DBool b) => Ok (fb_table dt_value vt_boolean None 0 0 b [] [] [])
        | Some (DOther _ _) | None => Ok (fb_table dt_empty vt_string None 0 0 false [] [] [])
        end
      | TList =>
        (fix ser_items (ps : list (option loc)) (acc : list fbd) : res fbd :=
           match ps with
           | [] => Ok (fb_table dt_list vt_string None 0 0 false acc [] [])
           | None :: _ => UB
           | Some p :: ps' => res_bind (raw_ser f h p) (fun t => ser_items ps' (acc ++ [t]))
           end) (nd_list n) []
      | TDict =>
        (fix ser_pairs (kvs : omap (option loc)) (ks : list string) (vs : list fbd) : res fbd :=
           match kvs with
           | [] => Ok (fb_table dt_dict vt_string None 0 0 false [] ks vs)
           | (_, None) :: _ => UB
           | (k, Some p) :: kvs' => res_bind (raw_ser f h p) (fun t => ser_pairs kvs' (ks ++ [k]) (vs ++ [t]))
           end) (nd_dict n) [] []
      | TEmpty => Ok (fb_table dt_empty vt_string None 0 0 false [] [] [])
      end
    end
  end.

(** The loop [for ... rawDatagram->Add(child)], RD.cpp:376-384 and 448-460; each
    element creates one child. *)
Fixpoint add_all (r : loc) (ms : list (M loc)) : M unit :=
  match ms with
  | [] => ret tt
  | m :: ms' => c <- m ;; raw_add r (Some c) ;;; add_all r ms'
  end.

(** The loop [for ... rawDatagram->operator[](key) = child], RD.cpp:386-394 and
    462-473. The order of evaluation of the two operands is not observable. *)
Fixpoint put_all (r : loc) (ms : list (string * M loc)) : M unit :=
  match ms with
  | [] => ret tt
  | (k, m) :: ms' => c <- m ;; raw_put_key r k (Some c) ;;; put_all r ms'
  end.

(** RD.cpp:348-402. [combine] stops at the shorter of the two vectors (388). *)
Fixpoint raw_deser (s : fbd) : M loc :=
  match s with
  | Fb dt vt str int dbl bool lst ks vs =>
    r <- raw_new ;;
    (if Z.eqb dt dt_value then
       if Z.eqb vt vt_string then
         match str with Some x => raw_set_value r (DStr x) | None => ub end
       else if Z.eqb vt vt_double then raw_set_value r (DDouble dbl)
       else if Z.eqb vt vt_integer then raw_set_value r (DInt int)
       else if Z.eqb vt vt_boolean then raw_set_value r (DBool bool)
       else ret tt
     else if Z.eqb dt dt_list then
       match lst with
       | Some ts => add_all r (map raw_deser ts)
       | None => ub
       end
     else if Z.eqb dt dt_dict then
       match ks, vs with
       | Some ks, Some ts => put_all r (combine ks (map raw_deser ts))
       | _, _ => ub
       end
     else ret tt) ;;;
    ret r
  end.

(** ** JSON: the tree json-c builds. Numbers: json_type_int holds a 64 bit
    integer (here: any integer), json_type_double the IEEE bit pattern. *)
Inductive json : Type :=
| JNull
| JBool (b : bool)
| JDouble (bits : N)
| JInt (z : Z)
| JString (s : string)
| JArray (js : list json)
| JObject (kvs : list (string * json)).

(** json_object_get_int clamps to the range of int32_t. *)
Definition clamp32 (z : Z) : Z := Z.max (- 2 ^ 31) (Z.min (2 ^ 31 - 1) z).

(** std::string(const char* ): up to the first NUL. *)
Fixpoint c_str (s : string) : string :=
  match s with
  | EmptyString => EmptyString
  | String c s' => if Ascii.eqb c zero then EmptyString else String c (c_str s')
  end.

(** RD.cpp:425-479 *)
Fixpoint parse_json (j : json) (root : loc) {struct j} : M unit :=
  match j with
  | JBool b => raw_set_value root (DBool b)
  | JDouble d => raw_set_value root (DDouble d)
  | JInt z => raw_set_value root (DInt (clamp32 z))
  | JString s => raw_set_value root (DStr (c_str s))
  | JArray js =>
    add_all root (map (fun x => c <- raw_new ;; parse_json x c ;;; ret c) js)
  | JObject kvs =>
    put_all root (map (fun p => (c_str (fst p), c <- raw_new ;; parse_json (snd p) c ;;; ret c)) kvs)
  | JNull => ret tt
  end.

(** RD.cpp:404-423; [tokener] is json_tokener_parse_ex with depth 1000 on the whole
    text, [None] when it reports anything but success. *)
Definition raw_from_json (tokener : string -> option json) (text : string) : M loc :=
  r <- raw_new ;;
  (match tokener text with
   | Some j => parse_json j r
   | None => ret tt
   end) ;;;
  ret r.

(** ** Messages *)

(** include/lamppost/messages/Message.h:22-27; the datagram is a Datagram variable. *)
Record msg : Type := mkMsg { m_sender : string; m_topic : string; m_dg : loc }.

(** M.cpp:6-11: the argument is a copy of the caller's datagram, the member a copy of
    the argument. *)
Definition msg_new (fuel : nat) (sender topic : string) (d : loc) : M msg :=
  a <- dg_copy_ctor fuel d ;; c <- dg_copy_ctor fuel a ;; ret (mkMsg sender topic c).

(** M.cpp:23-26 *)
Definition msg_datagram (fuel : nat) (m : msg) : M loc := dg_copy_ctor fuel (m_dg m).

(** schemas/FBMessage.fbs:5-11 *)
Record fbm : Type := mkFbm { fb_sender : option string; fb_topic : option string; fb_datagram : option fbd }.

(** M.cpp:28-39, up to Finish. *)
Definition msg_ser (fuel : nat) (h : heap) (m : msg) : res fbm :=
  res_map (fun d => mkFbm (Some (m_sender m)) (Some (m_topic m)) (Some d)) (raw_ser fuel h (m_dg m)).

(** M.cpp:44-52 after GetFBMessage: the datagram is deserialised into a temporary
    that the constructor's parameter is, then copied into the member. *)
Definition msg_deser (fuel : nat) (t : fbm) : M msg :=
  match fb_sender t, fb_topic t, fb_datagram t with
  | Some s, Some tp, Some d =>
    a <- raw_deser d ;; c <- dg_copy_ctor fuel a ;; ret (mkMsg s tp c)
  | _, _, _ => ub
  end.

(** M.cpp:54-57 *)
Definition msg_eq (fuel : nat) (h : heap) (a b : msg) : res bool :=
  if String.eqb (m_sender b) (m_sender a) then
    if String.eqb (m_topic b) (m_topic a) then dg_eq fuel h (m_dg b) (m_dg a)
    else Ok false
  else Ok false.

(** M.cpp:59-62 *)
Definition prepend_sender (name : string) (m : msg) : msg :=
  mkMsg (name ++ "/" ++ m_sender m)%string (m_topic m) (m_dg m).

(** M.cpp:72-75; std::string::substr truncates as [substring] does. *)
Definition was_sent_by (name : string) (m : msg) : bool :=
  String.eqb (substring 0 (String.length name + 1) (m_sender m)) (name ++ "/").

(** M.cpp:64-70 *)
Definition remove_sender (name : string) (m : msg) : msg :=
  if String.eqb (substring 0 (String.length name + 1) (m_sender m)) (name ++ "/") then
    mkMsg (substring (String.length name + 1) (String.length (m_sender m)) (m_sender m)) (m_topic m) (m_dg m)
  else m.

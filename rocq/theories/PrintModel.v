(** Model of streaming datagrams and messages: include/lamppost/messages/RawDatagram.h:124-190
    ("RD.h"), Datagram.h:102-107, Message.h:39-44, Data.h:46-49.

    The text of a double (operator<< of the stream) and of values of other types is
    a parameter. The stream has its default flags: bool prints as 0 or 1. *)
From Coq Require Import String Ascii List Arith ZArith NArith Bool DecimalString.
From Verif Require Import Prelude OMap DatagramModel SerialModel.
Import ListNotations.
Open Scope list_scope.

(** operator<< for int: decimal. *)
Definition show_int (z : Z) : string := NilZero.string_of_int (Z.to_int z).

(** Data.h:46-49 *)
Definition show_data (sd : N -> string) (so : string -> string -> string) (d : data) : string :=
  match d with
  | DInt z => show_int z
  | DBool b => if b then "1" else "0"
  | DDouble b => sd b
  | DStr s => s
  | DOther ty r => so ty r
  end.

Definition quote : string := String (ascii_of_nat 34) EmptyString.

(** RD.h:124-190: text appended to the stream. *)
Fixpoint raw_print (sd : N -> string) (so : string -> string -> string)
    (fuel : nat) (h : heap) (l : loc) {struct fuel} : res string :=
  match fuel with
  | 0 => NoFuel
  | S f =>
    match nth_error h l with
    | None => UB
    | Some n =>
      match nd_type n with
      | TEmpty => Ok "null"%string
      | TValue =>
        match nd_val n with
        | None => UB
        | Some d =>
          let q := match d with DStr _ => quote | _ => EmptyString end in
          Ok (q ++ show_data sd so d ++ q)%string
        end
      | TList =>
        (fix items (ps : list (option loc)) (first : bool) (out : string) : res string :=
           match ps with
           | [] => Ok (out ++ "]")%string
           | None :: _ => UB
           | Some p :: ps' =>
             let out1 := if first then out else (out ++ ", ")%string in
             res_bind (raw_print sd so f h p) (fun s => items ps' false (out1 ++ s)%string)
           end) (nd_list n) true "["%string
      | TDict =>
        (fix pairs (kvs : omap (option loc)) (first : bool) (out : string) : res string :=
           match kvs with
           | [] => Ok (out ++ "}")%string
           | (_, None) :: _ => UB
           | (k, Some p) :: kvs' =>
             let out1 := if first then out else (out ++ ", ")%string in
             res_bind (raw_print sd so f h p) (fun s => pairs kvs' false (out1 ++ k ++ ": " ++ s)%string)
           end) (nd_dict n) true "{"%string
      end
    end
  end.

(** Message.h:39-44 *)
Definition msg_print (sd : N -> string) (so : string -> string -> string) (fuel : nat) (h : heap) (m : msg) : res string :=
  res_map (fun s => ("[" ++ m_sender m ++ " to " ++ m_topic m ++ "]: " ++ s)%string)
    (raw_print sd so fuel h (m_dg m)).

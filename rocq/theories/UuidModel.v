(** Model of include/lamppost/utilities/Uuid.h and src/lamppost/utilities/Uuid.cpp: invocation ids. The random words are an
    argument: the eight results of [dist(rng)] (Uuid.h:35-42), each in 1 .. 2^32-1. *)
From Coq Require Import String Ascii NArith List Bool.
Import ListNotations.
Open Scope string_scope.
Open Scope N_scope.

(** printf's %x: lower case, no leading zeros, "0" for zero. *)
Definition hexdigit (d : N) : ascii := ascii_of_N (if d <? 10 then 48 + d else 87 + d).
Fixpoint hex_loop (fuel : nat) (n : N) (acc : string) : string :=
  match fuel with
  | O => acc
  | S f => let acc' := String (hexdigit (n mod 16)) acc in
           if n / 16 =? 0 then acc' else hex_loop f (n / 16) acc'
  end.
Definition hex (n : N) : string := hex_loop (S (N.size_nat n)) n "".

(** The eight arguments of snprintf, as the generator produced them. *)
Record words : Type := mkWords { w1 : N; w2 : N; w3 : N; w4 : N; w5 : N; w6 : N; w7 : N; w8 : N }.

(** Uuid.h:38-44: the text snprintf would write without a limit *)
Definition uuid_text (w : words) : string :=
  hex (w1 w) ++ hex (w2 w) ++ "-" ++ hex (w3 w) ++ "-" ++ hex (N.lor (N.land (w4 w) 0x0fff) 0x4000)
  ++ "-" ++ hex (w5 w mod 0x3fff + 0x8000) ++ "-" ++ hex (w6 w) ++ hex (w7 w) ++ hex (w8 w).

(** Uuid.h:18-19 *)
Record uuid : Type := mkUuid { u_empty : bool; u_content : string }.

(** Uuid.cpp:8-11 *)
Definition uuid_new : uuid := mkUuid true "".

(** Uuid.h:27-48: snprintf keeps at most 127 characters *)
Definition create_uuid (w : words) : uuid := mkUuid false (substring 0 127 (uuid_text w)).

(** Uuid.h:58-61 *)
Definition uuid_string (u : uuid) : string := u_content u.

(** Uuid.h:63-67 *)
Definition uuid_eq (a b : uuid) : bool :=
  (u_empty a && u_empty b) || (negb (u_empty a) && negb (u_empty b) && (u_content a =? u_content b)%string).

(** Vocabulary of C93. *)
From Coq Require Import String Ascii List Bool.
From Verif Require Import Prelude DatagramSpec FilesystemModel PluginModel PluginSpec AppModel MainModel MainSpec.
Import ListNotations.
Open Scope list_scope.

(** Some library that can be opened reports identifier [id]. *)
Definition offered (E : env) (id : string) : Prop := exists path l, w_open (en_world E) path = Some l /\ lb_info l = Some (Some id).

(** No instance of one plugin can have the name of an instance of another. *)
Definition clash_free (E : env) : Prop :=
  forall a b j k, offered E a -> offered E b -> (a ++ to_string j = b ++ to_string k)%string -> a = b.

(** The string ends with one of the ten digits. *)
Definition ends_in_digit (s : string) : Prop := exists t c, s = (t ++ String c "")%string /\ In c (list_ascii_of_string "0123456789").

(** Every instance can be created and initialised. *)
Definition able (E : env) : Prop := forall n, en_plug E n = (CrObject, None).

(** [id] was loaded. *)
Definition available (S : list aevent) (id : string) : Prop := exists h, In (AePlugin (PeLoaded id h)) S.

(** The error lines: what, and the configuration's text. *)
Definition complaints (S : list aevent) : list (string * string) := flat_map (fun e => match e with AeError w c => [(w, c)] | _ => [] end) S.

(** [l] are the instances of the plugins [qs], each with type and configuration, in this order: they are numbered, the k-th of a
    type has the type and k, counted from 0, as its name, and each has a bus of its own. Bus 0 is the root. *)
Definition instances_of (qs : list (string * dg)) (l : list inst) : Prop :=
  length l = length qs /\
  forall q1 ty conf q2, qs = q1 ++ (ty, conf) :: q2 ->
    nth_error l (length q1) = Some (mkInst (length q1) (ty ++ to_string (count_occ string_dec (map fst q1) ty)) (S (length q1)) conf).

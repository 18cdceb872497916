(** Vocabulary for the statements about what the plugin manager writes. *)
From Coq Require Import String Ascii List Arith Bool ZArith.
From Verif Require Import Prelude OMap DatagramSpec FilesystemModel PluginModel PluginSpec LogModel TellModel.
Import ListNotations.
Open Scope list_scope.

(** What was done and what was written, each in order. *)
Definition did (t : list told) : list pevent := flat_map (fun x => match x with Did e => [e] | Said _ => [] end) t.
Definition said (t : list told) : list call := flat_map (fun x => match x with Did _ => [] | Said c => [c] end) t.

(** A line of the manager's log. *)
Definition line (m : string) (n : Z) : call := mkCall "PluginManager" m n.

Definition call_dec (a b : call) : {a = b} + {a <> b}.
Proof. decide equality; [apply Z.eq_dec|apply string_dec|apply string_dec]. Defined.
(** How often a line is written. *)
Definition times (c : call) (t : list told) : nat := count_occ call_dec (said t) c.

(** The file is there and named like a plugin library. *)
Definition library_file (w : world) (path : string) : Prop :=
  f_access (w_fs w) (c_str path) = true /\
  exists dir name rest stem, path = (dir ++ "/" ++ name)%string /\ ~ In "/"%char (list_ascii_of_string name) /\
    name = ("libplugin_" ++ rest)%string /\ name = (stem ++ ".so")%string.

(** The lines about one file, by what is found of it. *)
Inductive report (w : world) (path : string) : list call -> Prop :=
| report_other : ~ library_file w path -> report w path []
| report_closed : library_file w path -> w_open w (c_str path) = None ->
    report w path [line ("Now loading: " ++ path) 2; line "Failed to acquire library handle." 3]
| report_bare l : library_file w path -> w_open w (c_str path) = Some l -> lb_info l = None ->
    report w path [line ("Now loading: " ++ path) 2; line "Acquired library handle" 3; line "Info methods missing" 3]
| report_nameless l : library_file w path -> w_open w (c_str path) = Some l -> lb_info l = Some (Some ""%string) ->
    report w path [line ("Now loading: " ++ path) 2; line "Acquired library handle" 3; line "Info method present" 3;
      line "Identifier empty" 3]
| report_barren l id : library_file w path -> w_open w (c_str path) = Some l -> lb_info l = Some (Some id) -> id <> ""%string ->
    lb_create l = false ->
    report w path [line ("Now loading: " ++ path) 2; line "Acquired library handle" 3; line "Info method present" 3;
      line ("Identifier = " ++ id) 3; line "Creation methods missing" 3]
| report_loaded id : usable w path id ->
    report w path [line ("Now loading: " ++ path) 2; line "Acquired library handle" 3; line "Info method present" 3;
      line ("Identifier = " ++ id) 3; line "Creation method present" 3; line "Load successful" 3].

(** The lines about a file at which loading runs into undefined behaviour. (CreateInfo returns null; or a template is replaced that has a null instance.) *)
Inductive broken (w : world) (path : string) : list call -> Prop :=
| broken_info l : library_file w path -> w_open w (c_str path) = Some l -> lb_info l = Some None ->
    broken w path [line ("Now loading: " ++ path) 2; line "Acquired library handle" 3; line "Info method present" 3]
| broken_old id : usable w path id ->
    broken w path [line ("Now loading: " ++ path) 2; line "Acquired library handle" 3; line "Info method present" 3;
      line ("Identifier = " ++ id) 3; line "Creation method present" 3].

(** The lines about the files of one search path: those in it that count, in the order of the directory. *)
Definition listed (f : fs) (p : string) : list string :=
  match f_dir f (c_str p) with
  | None => []
  | Some names =>
      map (fun n => (p ++ "/" ++ n)%string)
        (filter (fun n => match f_stat f (c_str (p ++ "/" ++ n)) with Some FReg | Some FDir => true | _ => false end) names)
  end.
Inductive reports (w : world) : list string -> list call -> Prop :=
| reports_nil : reports w [] []
| reports_cons f fs l ls : report w f l -> reports w fs ls -> reports w (f :: fs) (l ++ ls).
Inductive tour (w : world) : list string -> list call -> Prop :=
| tour_nil : tour w [] []
| tour_cons p ps l ls : reports w (listed (w_fs w) p) l -> tour w ps ls -> tour w (p :: ps) (line p 1 :: l ++ ls).

(** What is seen while the templates of the map go, one by one. *)
Definition farewell (kt : string * template) : list told :=
  Said (line (fst kt) 1) ::
  map Did (map PeStop (instances (snd kt)) ++ map PeDeinit (instances (snd kt)) ++ [PeClose (tp_handle (snd kt))]).

(** The identifiers registered, in order. *)
Definition registered_ids (tr : list pevent) : list string := flat_map (fun e => match e with PeLoaded id _ => [id] | _ => [] end) tr.

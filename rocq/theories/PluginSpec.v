(** Vocabulary for the statements about plugins. *)
From Coq Require Import String Ascii List Arith Bool.
From Verif Require Import Prelude OMap DatagramSpec FilesystemModel PluginModel.
Import ListNotations.
Open Scope list_scope.

(** A state that some history leads to, with the events so far, without undefined behaviour. *)
Definition reached (st : pm) (tr : list pevent) : Prop :=
  exists os rs, prun os pinit = (st, tr, rs) /\ ~ In UB rs.

(** [t] is the template registered as [tid]. *)
Definition registered (st : pm) (tid : string) (t : template) : Prop := olookup tid (pm_templates st) = Some t.

(** The names the template has in use, and its instances, in the order of their names. *)
Definition names_in_use (t : template) : list string := map fst (tp_insts t).
Definition instances (t : template) : list inst := flat_map (fun s => match snd s with Some i => [i] | None => [] end) (tp_insts t).
(** All instances. *)
Definition live (st : pm) : list inst := flat_map (fun kt => instances (snd kt)) (pm_templates st).
(** Some entry of the template is a null pointer. *)
Definition null_entry (t : template) : Prop := exists n, In (n, None) (tp_insts t).

(** The child buses of bus [b]. *)
Definition children (st : pm) (b : nat) (kids : list string) : Prop := nth_error (pm_buses st) b = Some kids.

(** The bus a call of InstantiateTemplate uses: the one given, else the manager's. *)
Definition parent_of (st : pm) (given : option nat) (b : nat) : Prop :=
  given = Some b \/ given = None /\ pm_bus st = Some b.

(** [k] is the smallest number whose name is not in use. *)
Definition lowest (t : template) (tid : string) (k : nat) : Prop :=
  ~ In (tid ++ to_string k)%string (names_in_use t) /\ forall j, j < k -> In (tid ++ to_string j)%string (names_in_use t).

(** Handles acquired and released; instances stopped and deinitialised. *)
Definition opened (tr : list pevent) : list nat := flat_map (fun e => match e with PeOpen h => [h] | _ => [] end) tr.
Definition closed (tr : list pevent) : list nat := flat_map (fun e => match e with PeClose h => [h] | _ => [] end) tr.
Definition stopped (tr : list pevent) : list inst := flat_map (fun e => match e with PeStop i => [i] | _ => [] end) tr.
Definition deinited (tr : list pevent) : list inst := flat_map (fun e => match e with PeDeinit i => [i] | _ => [] end) tr.

(** Which identifiers are loaded with which handle after [tr], and the handles that were replaced:
    an identifier was loaded again while still loaded. *)
Definition assoc (id : string) (l : list (string * nat)) : option nat :=
  match find (fun p => String.eqb id (fst p)) l with Some p => Some (snd p) | None => None end.
Definition ledger_step (s : list (string * nat) * list nat) (e : pevent) : list (string * nat) * list nat :=
  match e with
  | PeLoaded id h => ((id, h) :: fst s, match assoc id (fst s) with Some old => old :: snd s | None => snd s end)
  | PeUnloaded => ([], snd s)
  | _ => s
  end.
Definition ledger (tr : list pevent) : list (string * nat) * list nat := fold_left ledger_step tr ([], []).
Definition replaced (tr : list pevent) : list nat := snd (ledger tr).

(** The file can be used as a plugin template, which reports identifier [id]: it exists; its name is
    libplugin_....so; it opens and has both functions; the identifier is not empty. *)
Definition usable (w : world) (path : string) (id : string) : Prop :=
  f_access (w_fs w) (c_str path) = true /\
  (exists dir name rest stem, path = (dir ++ "/" ++ name)%string /\ ~ In "/"%char (list_ascii_of_string name) /\
     name = ("libplugin_" ++ rest)%string /\ name = (stem ++ ".so")%string) /\
  (exists l, w_open w (c_str path) = Some l /\ lb_info l = Some (Some id) /\ id <> ""%string /\ lb_create l = true).

(** ** Instances and their worker *)

Definition started (tr : list ievent) : nat := length (filter (fun e => match e with IeStarted => true | _ => false end) tr).
Definition ended (tr : list ievent) : nat := length (filter (fun e => match e with IeRunEnds => true | _ => false end) tr).

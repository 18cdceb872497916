(** Vocabulary for the statements about the application object. *)
From Coq Require Import String List ZArith NArith Bool.
From Verif Require Import Prelude OMap DatagramModel DatagramSpec SerialModel SerialSpec PluginModel PluginSpec AppModel.
Import ListNotations.
Open Scope list_scope.

(** ** What a configuration asks for *)

(** One element of the plugin list: nothing; a plugin of this type with this configuration; or a
    "type" that is not a string. *)
Inductive item : Type := Skip | Want (ty : string) (conf : dg) | Bad.
Definition item_of (t : dg) : item :=
  match t with
  | Dct kvs =>
    match olookup "type" kvs with
    | None => Skip
    | Some (Val (DStr ty)) => Want ty (match olookup "configuration" kvs with Some c => c | None => Emp end)
    | Some _ => Bad
    end
  | _ => Skip
  end.

(** A whole configuration: it has no plugins; it has a "plugins" entry of the wrong kind; or a list. *)
Inductive doc : Type := Nothing | Wrong | Items (l : list item).
Definition doc_of (t : dg) : doc :=
  match t with
  | Dct kvs =>
    match olookup "plugins" kvs with
    | None | Some (Dct []) => Nothing
    | Some (Lst ts) => Items (map item_of ts)
    | Some _ => Wrong
    end
  | _ => Nothing
  end.

(** The plugins a configuration asks for, in order. *)
Definition wanted (l : list item) : list (string * dg) :=
  flat_map (fun i => match i with Want ty conf => [(ty, conf)] | _ => [] end) l.

(** ** What was done *)

(** A call of InstantiatePlugin: type, configuration, how it ended. *)
Definition call : Type := (string * dg) * res unit.

(** Start-up goes on after a call that ends like this. *)
Definition contained (r : res unit) : Prop := r = Ok tt \/ exists what, r = Throw (OperationFailed what).

(** [ran l cs r]: working through [l] makes the calls [cs] and ends with [r]. *)
Inductive ran : list item -> list call -> res unit -> Prop :=
| ran_end : ran [] [] (Ok tt)
| ran_skip l cs r : ran l cs r -> ran (Skip :: l) cs r
| ran_bad l : ran (Bad :: l) [] (Throw InvalidOperation)
| ran_call ty conf r0 l cs r : contained r0 -> ran l cs r -> ran (Want ty conf :: l) (((ty, conf), r0) :: cs) r
| ran_stop ty conf r0 l : ~ contained r0 -> ran (Want ty conf :: l) [((ty, conf), r0)] r0.

(** The same for several configurations. *)
Inductive ran_all : list doc -> list call -> res unit -> Prop :=
| ra_end : ran_all [] [] (Ok tt)
| ra_nothing ds cs r : ran_all ds cs r -> ran_all (Nothing :: ds) cs r
| ra_wrong ds x : ran_all (Wrong :: ds) [] (Throw x)
| ra_items l ds cs1 cs2 r : ran l cs1 (Ok tt) -> ran_all ds cs2 r -> ran_all (Items l :: ds) (cs1 ++ cs2) r
| ra_stop l ds cs x : ran l cs (Throw x) -> ran_all (Items l :: ds) cs (Throw x).

(** The events of one call, where the plugin manager knows the templates of [st]: an unknown
    template leaves no trace and fails; a call that succeeds makes one child bus and one instance
    with this configuration, initialises it, and starts it; any other call starts nothing. *)
Definition did (st : pm) (c : call) (e : list aevent) : Prop :=
  let '((ty, conf), r) := c in
  (~ In ty (okeys (pm_templates st)) -> e = [] /\ r = Throw (OperationFailed ("Failed to instantiate plugin: '" ++ ty ++ "'"))) /\
  (r = Ok tt -> exists p b k n, let i := mkInst n (ty ++ to_string k) b conf in
     e = [AePlugin (PeBus p (in_name i) b); AePlugin (PeCreate ty i); AeInit i; AeStart i]) /\
  (r <> Ok tt -> forall i, ~ In (AeStart i) e).

(** The error lines that follow a call, and all its events. *)
Definition error_lines (double_text : N -> string) (other_text : string -> string -> string) (c : call) : list aevent :=
  match snd c with
  | Throw (OperationFailed what) => [AeError what (render double_text other_text (snd (fst c)))]
  | _ => []
  end.
Definition whole (sd : N -> string) (so : string -> string -> string) (b : call * list aevent) : list aevent :=
  snd b ++ AeCall (fst (fst (fst b))) (snd (fst (fst b))) (snd (fst b)) :: error_lines sd so (fst b).

(** What the text of a file means; text that does not parse is an empty datagram. *)
Definition file_means (tokener : string -> option json) (text : string) (t : dg) : Prop :=
  match tokener text with Some j => json_means j t | None => t = Emp end.

(** The "plugins" entry has fewer than 2^31 elements. *)
Definition countable (t : dg) : Prop :=
  match t with
  | Dct kvs => match olookup "plugins" kvs with
               | Some (Lst ts) => (N.of_nat (length ts) < 2 ^ 31)%N
               | Some (Dct m) => (N.of_nat (length m) < 2 ^ 31)%N
               | _ => True
               end
  | _ => True
  end.

(** The plugin manager is in a state it can get into, and has a bus. *)
Definition ready (st : pm) : Prop := (exists tr, reached st tr) /\ exists b kids, pm_bus st = Some b /\ children st b kids.

(** The plugins several configurations ask for, in order. *)
Definition requested (ds : list doc) : list (string * dg) :=
  flat_map (fun d => match d with Items l => wanted l | _ => [] end) ds.

(** The files' texts mean these datagrams. *)
Definition readable (tokener : string -> option json) (texts : list string) (ts : list dg) : Prop :=
  Forall2 (file_means tokener) texts ts /\
  (forall text j, In text texts -> tokener text = Some j -> ~ bad_key j) /\
  Forall countable ts.

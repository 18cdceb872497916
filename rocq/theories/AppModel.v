(** Model of the application object: src/lamppost/LampPost.cpp ("LampPost").

    Simplifications:
    - A configuration file is its text; std::ifstream on a file that cannot be read gives "".
    - The plugin side is [PluginModel]. What the n-th call of CreateInstance does, and whether
      Initialize of the object throws, is a parameter. A plugin's Initialize does not use the plugin
      manager. PluginInstance::Start returns normally on a new object (C51).
    - Informational log lines are left out; the error lines of LampPost:102-104 are events.
    - The custom configuration is passed on by value three times (LampPost:95, 51, and
      PluginManager.cpp:205); copies have the same contents (C06), so it is read once.
    - SettingsManager::ReadConfigurationFile (LampPost:13-16) has an empty body, and the search
      paths of LampPost:18-21 are [PAddPath] steps of the plugin manager. *)
From Coq Require Import String Ascii List Arith ZArith NArith Bool.
From Verif Require Import Prelude OMap DatagramModel DatagramSpec DatagramStmt SerialModel PrintModel PluginModel.
Import ListNotations.
Open Scope list_scope.

(** The contents of a datagram as a tree, for handing it to the plugin model. *)
Fixpoint contents (fuel : nat) (h : heap) (l : loc) {struct fuel} : res dg :=
  match fuel with
  | 0 => NoFuel
  | S f =>
    match nth_error h l with
    | None => UB
    | Some n =>
      match nd_type n with
      | TEmpty => Ok Emp
      | TValue => match nd_val n with Some d => Ok (Val d) | None => UB end
      | TList =>
        (fix items (ps : list (option loc)) (acc : list dg) : res dg :=
           match ps with
           | [] => Ok (Lst acc)
           | None :: _ => UB
           | Some p :: ps' => res_bind (contents f h p) (fun t => items ps' (acc ++ [t]))
           end) (nd_list n) []
      | TDict =>
        (fix pairs (kvs : omap (option loc)) (acc : list (string * dg)) : res dg :=
           match kvs with
           | [] => Ok (Dct acc)
           | (_, None) :: _ => UB
           | (k, Some p) :: kvs' => res_bind (contents f h p) (fun t => pairs kvs' (acc ++ [(k, t)]))
           end) (nd_dict n) []
      end
    end
  end.

Inductive aevent : Type :=
| AePlugin (e : pevent)                                   (* from the plugin manager *)
| AeInit (i : inst)                                       (* LampPost:56 *)
| AeStart (i : inst)                                      (* LampPost:59 *)
| AeCall (ty : string) (conf : dg) (r : res unit)         (* InstantiatePlugin came back with this *)
| AeError (what : string) (conf : string).                (* LampPost:102-104 *)

Record app : Type := mkApp {
  ap_pm : pm;
  ap_calls : nat;              (* calls of InstantiatePlugin so far *)
  ap_trace : list aevent
}.

Definition emit (e : list aevent) (a : app) : app := mkApp (ap_pm a) (ap_calls a) (ap_trace a ++ e).

Section App.
  Variable slot : bool.                                   (* see [instantiate] *)
  Variable plug : nat -> created * option exc.            (* n-th call: CreateInstance, Initialize *)
  Variable tokener : string -> option json.               (* json-c's parser, see [raw_from_json] *)
  Variable sd : N -> string.                              (* text of doubles *)
  Variable so : string -> string -> string.               (* text of values of other types *)
  Variable fuel : nat.                                    (* depth of datagrams *)

  (** LampPost:48-65 *)
  Definition instantiate_plugin (ty : string) (conf : dg) (a : app) : app * res unit :=
    let '(pm', e, r) := instantiate_template slot ty None conf (fst (plug (ap_calls a))) (ap_pm a) in
    let a1 := mkApp pm' (S (ap_calls a)) (ap_trace a ++ map AePlugin e) in
    match r with
    | Ok (Some i) =>
        let a2 := emit [AeInit i] a1 in
        match snd (plug (ap_calls a)) with
        | Some ex => (a2, Throw ex)
        | None => (emit [AeStart i] a2, Ok tt)
        end
    | Ok None => (a1, Throw (OperationFailed ("Failed to instantiate plugin: '" ++ ty ++ "'")))
    | Throw ex => (a1, Throw ex)
    | UB => (a1, UB)
    | NoFuel => (a1, NoFuel)
    end.

  (** The conversion of LampPost:77: unsigned int to int. *)
  Definition to_int (n : N) : Z := if (n <? 2 ^ 31)%N then Z.of_N n else (Z.of_N n - 2 ^ 32)%Z.

  (** LampPost:86 *)
  Definition has_type (config : loc) (i : nat) : M rv :=
    c <- h_path [SKey "plugins"; SIdx i] config ;; h_op (OExists "type") c.
  (** LampPost:88, Datagram::operator std::string (Datagram.h:89-92) *)
  Definition get_type (config : loc) (i : nat) : M rv :=
    c <- h_path [SKey "plugins"; SIdx i; SKey "type"] config ;; h_op (ORead TyStr) c.
  (** LampPost:90-91 *)
  Definition get_configuration (config : loc) (i : nat) : M loc :=
    conf <- raw_new ;;
    src <- h_path [SKey "plugins"; SIdx i; SKey "configuration"] config ;;
    dg_assign fuel conf src ;;;
    ret conf.

  (** LampPost:93-105 *)
  Definition attempt (h : heap) (ty : string) (conf : loc) (a : app) : app * res unit :=
    match contents fuel h conf with
    | Ok t =>
        let (a1, r) := instantiate_plugin ty t a in
        let a2 := emit [AeCall ty t r] a1 in
        match r with
        | Throw (OperationFailed what) =>
            match raw_print sd so fuel h conf with
            | Ok text => (emit [AeError what text] a2, Ok tt)
            | Throw ex => (a2, Throw ex)
            | UB => (a2, UB)
            | NoFuel => (a2, NoFuel)
            end
        | _ => (a2, r)
        end
    | Throw ex => (a, Throw ex)
    | UB => (a, UB)
    | NoFuel => (a, NoFuel)
    end.

  (** LampPost:84-107: [todo] iterations from [i] on. *)
  Fixpoint read_items (config : loc) (i todo : nat) (h : heap) (a : app) : heap * app * res unit :=
    match todo with
    | 0 => (h, a, Ok tt)
    | S todo' =>
        match has_type config i h with
        | (h1, Ok (RBool false)) => read_items config (S i) todo' h1 a
        | (h1, Ok (RBool true)) =>
            match get_type config i h1 with
            | (h2, Ok (RData (DStr ty))) =>
                match get_configuration config i h2 with
                | (h3, Ok conf) =>
                    let (a1, r) := attempt h3 ty conf a in
                    match r with
                    | Ok _ => read_items config (S i) todo' h3 a1
                    | _ => (h3, a1, r)
                    end
                | (h3, r) => (h3, a, res_map (fun _ => tt) r)
                end
            | (h2, r) => (h2, a, res_bind r (fun _ => UB))
            end
        | (h1, r) => (h1, a, res_bind r (fun _ => UB))
        end
    end.

  (** LampPost:75-108 *)
  Definition read_config (config : loc) (h : heap) (a : app) : heap * app * res unit :=
    match h_op (OExists "plugins") config h with
    | (h1, Ok (RBool false)) => (h1, a, Ok tt)
    | (h1, Ok (RBool true)) =>
        match (c <- h_path [SKey "plugins"] config ;; h_op OCount c) h1 with
        | (h2, Ok (RCount n)) => read_items config 0 (Z.to_nat (to_int n)) h2 a
        | (h2, r) => (h2, a, res_bind r (fun _ => UB))
        end
    | (h1, r) => (h1, a, res_bind r (fun _ => UB))
    end.

  (** LampPost:67-109: one file, given by its text. *)
  Definition read_file (text : string) (h : heap) (a : app) : heap * app * res unit :=
    match raw_from_json tokener text h with
    | (h1, Ok config) => read_config config h1 a
    | (h1, r) => (h1, a, res_map (fun _ => tt) r)
    end.

  (** LampPost:122-127: the files in turn; an exception ends Start. *)
  Fixpoint read_files (texts : list string) (h : heap) (a : app) : heap * app * res unit :=
    match texts with
    | [] => (h, a, Ok tt)
    | t :: ts =>
        let '(h1, a1, r) := read_file t h a in
        match r with Ok _ => read_files ts h1 a1 | _ => (h1, a1, r) end
    end.
End App.

(** Model of the whole program, from its command line on: src/main.cpp ("main") and src/lamppost/LampPost.cpp ("LampPost"), put
    together from the phases, signals and output of ProgModel, the reading of configuration files of AppModel, and
    the plugin manager of PluginModel.

    Simplifications:
    - Start-up (LampPost:115-134) is one step. A signal during it has no effect on it, and none that outlives it (C50).
    - Plugins do not use the plugin manager. An exception during the bus's run comes from a bus callback; Stop and Deinitialize
      of the plugins return.
    - A start-up whose recursion exceeds [fuel] never ends. *)
From Coq Require Import String List NArith Bool.
From Verif Require Import Prelude OMap DatagramModel SerialModel FilesystemModel PluginModel AppModel LifeModel ProgModel.
Import ListNotations.
Open Scope list_scope.

(** What surrounds the program. *)
Record env : Type := mkEnv {
  en_exe : option string;                        (* what /proc/<pid>/exe points to *)
  en_cwd : option string;                        (* the working directory *)
  en_world : world;                              (* directories and plugin libraries *)
  en_text : string -> string;                    (* file contents, see AppModel *)
  en_slot : bool;                                (* see [instantiate] *)
  en_plug : nat -> created * option exc;         (* see AppModel *)
  en_json : string -> option json;               (* json-c's parser *)
  en_double : N -> string;                       (* text of doubles *)
  en_other : string -> string -> string;         (* text of values of other types *)
  en_runtime : string -> bool                    (* is an exception of a plugin's own a std::runtime_error? *)
}.

(** main:31-34. [argv] as main gets it, with the program's name first. *)
Definition configuration_files (argv : list string) : list string :=
  match argv with _ :: f :: _ => [f] | _ => [] end.

(** main:42, Exception.h:12: all of LampPost's exceptions are std::runtime_errors; std::bad_function_call is none. *)
Definition class_of (E : env) (x : exc) : thrown :=
  match x with
  | BadFunctionCall => OtherError
  | OtherException w => if en_runtime E w then RuntimeError else OtherError
  | _ => RuntimeError
  end.

(** LampPost:6-22, with the configuration of main:28 (LampPostConfiguration.h:18). The root bus is number 0. *)
Definition make_app (E : env) : res app :=
  res_map (fun m => mkApp (fst (fst (PluginModel.pstep PNewBus m))) 0 []) (new_manager (mkPmConf [] None) (en_exe E) (en_cwd E)).

(** LampPost:29-36, 113-134 *)
Definition start_up (E : env) (fuel : nat) (files : list string) (a : app) : app * res unit :=
  let m := fst (fst (PluginModel.pstep (PSetBus (Some 0)) (ap_pm a))) in                        (* LampPost:32 *)
  let '(m1, e, r) := load_paths (en_world E) (pm_paths m) m in                                  (* LampPost:35 *)
  let a1 := mkApp m1 (ap_calls a) (ap_trace a ++ map AePlugin e) in
  match r with
  | Ok _ =>
      let '(_, a2, r2) := read_files (en_slot E) (en_plug E) (en_json E) (en_double E) (en_other E) fuel (map (en_text E) files) [] a1 in
      (a2, r2)
  | _ => (a1, r)
  end.

Inductive mevent : Type := MLine (l : line) | MLife (e : levent) | MApp (e : aevent).

Record mstate : Type := mkMS { ms_prog : prog; ms_app : option app }.
Definition minit : mstate := mkMS prog_init None.

(** What a step of the program does to the application object. [None]: not possible here. *)
Definition effect (E : env) (fuel : nat) (argv : list string) (l : plabel) (s : mstate) : option (res (option app * list aevent)) :=
  match l, ms_app s with
  | PMakeFails _, _ => None
  | PMake, _ => Some (res_map (fun a => (Some a, [])) (make_app E))                             (* main:36 *)
  | PApp LBus, Some a =>
      match start_up E fuel (configuration_files argv) a with
      | (a', Ok _) => Some (Ok (Some a', ap_trace a'))
      | (_, UB) => Some UB
      | _ => None
      end
  | PApp (LRaise x), Some a =>
      match lf_phase (pg_life (ms_prog s)) with
      | Setup =>
          match start_up E fuel (configuration_files argv) a with
          | (a', Throw y) =>
              match class_of E y, x with
              | RuntimeError, RuntimeError | OtherError, OtherError => Some (Ok (Some a', ap_trace a'))
              | _, _ => None
              end
          | (_, UB) => Some UB
          | _ => None
          end
      | Detached => None
      | _ => Some (Ok (Some a, []))
      end
  | PApp LUnload, Some a =>                                                                     (* LampPost:42 *)
      let '(m, e, r) := unload_templates (ap_pm a) in
      Some (res_map (fun _ => (Some (mkApp m (ap_calls a) (ap_trace a ++ map AePlugin e)), map AePlugin e)) r)
  | _, o => Some (Ok (o, []))
  end.

(** [None]: not possible here. [Some None]: undefined behaviour. *)
Definition mstep (E : env) (fuel : nat) (argv : list string) (l : plabel) (s : mstate) : option (option (mstate * list mevent)) :=
  match ProgModel.pstep l (ms_prog s) with
  | Some (Some (g, e, o)) =>
      match effect E fuel argv l s with
      | Some (Ok (a, ae)) => Some (Some (mkMS g a, map MApp ae ++ map MLife e ++ map MLine o))
      | Some UB => Some None
      | _ => None
      end
  | Some None => Some None
  | None => None
  end.

Fixpoint mexec (E : env) (fuel : nat) (argv : list string) (ls : list plabel) (s : mstate) : option (mstate * list mevent) :=
  match ls with
  | [] => Some (s, [])
  | l :: ls' =>
      match mstep E fuel argv l s with
      | Some (Some (s1, e1)) => match mexec E fuel argv ls' s1 with Some (s2, e2) => Some (s2, e1 ++ e2) | None => None end
      | _ => None
      end
  end.

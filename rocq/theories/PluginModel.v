(** Model of the plugin manager and plugin templates: src/lamppost/plugin/PluginManager.cpp
    ("Manager"), src/lamppost/plugin/PluginTemplate.cpp ("Template"), and of one plugin instance's
    worker thread, src/lamppost/plugin/PluginInstance.cpp ("Instance").

    Simplifications:
    - The manager is used by one thread at a time (it has no lock).
    - A library handle is one acquisition by dlopen; dlclose of it succeeds. (dlopen counts
      acquisitions of the same file.)
    - Of a library we see: whether CreateInfo is exported, whether it returns an info and with which
      identifier, whether CreateInstance is exported. Each call of CreateInstance makes an object,
      returns null, or throws. CreateInfo and Deinitialize return normally.
    - Of a bus we see its child buses' names (C26). Buses are never reclaimed.
    - Instances are owned by their template alone when it lets go of them.
    - Logging and versions are left out.
    - Index arithmetic is unbounded ([int] in the code). *)
From Coq Require Import String Ascii List Arith Bool DecimalString.
From Verif Require Import Prelude OMap DatagramSpec FilesystemModel.
Import ListNotations.
Open Scope list_scope.

(** std::to_string of a non-negative int. *)
Definition to_string (n : nat) : string := NilEmpty.string_of_uint (Nat.to_uint n).

(** A plugin library, seen through dlsym. *)
Record lib : Type := mkLib {
  lb_info : option (option string);   (* CreateInfo: not exported; returns null; returns an info with this identifier *)
  lb_create : bool                    (* CreateInstance is exported *)
}.
Record world : Type := mkWorld { w_fs : fs; w_open : string -> option lib }.

(** An instance object: number, mIdentifier, mBus, mCustomConfiguration. *)
Record inst : Type := mkInst { in_num : nat; in_name : string; in_bus : nat; in_conf : dg }.

(** PluginTemplate.h: the configuration's identifier, whether mInstantiateFunction is set, and
    mInstances, where a pointer may be null. [tp_handle] is the handle stored beside the template
    (PluginManager.h, PluginTemplateDescription). *)
Record template : Type := mkTemplate { tp_id : string; tp_fn : bool; tp_insts : omap (option inst); tp_handle : nat }.

Record pm : Type := mkPm {
  pm_paths : list string;             (* mConfiguration.mTemplateSearchPaths *)
  pm_bus : option nat;                (* mConfiguration.mBus *)
  pm_templates : omap template;       (* mTemplates *)
  pm_buses : list (list string);      (* child names of each bus *)
  pm_handles : nat;                   (* handles acquired so far *)
  pm_insts : nat                      (* objects made so far *)
}.

Inductive pevent : Type :=
| PeOpen (h : nat) | PeClose (h : nat)              (* dlopen, dlclose *)
| PeLoaded (id : string) (h : nat)                  (* Manager:128 *)
| PeBus (parent : nat) (name : string) (b : nat)    (* Template:34 *)
| PeCreate (tid : string) (i : inst)                (* Template:36 *)
| PeStop (i : inst) | PeDeinit (i : inst)           (* Template:45, 53 *)
| PeUnloaded.                                       (* Manager:196 *)

(** What CreateInstance does in one call. *)
Inductive created : Type := CrObject | CrNull | CrThrow (e : exc).

(** ** PluginTemplate *)

(** Template:17-22 *)
Definition indexed_exists (t : template) (i : nat) : bool :=
  match olookup (tp_id t ++ to_string i)%string (tp_insts t) with Some _ => true | None => false end.

(** Template:26-31 *)
Fixpoint index_loop (fuel : nat) (t : template) (i : nat) : res nat :=
  match fuel with
  | O => NoFuel
  | S f => if indexed_exists t i then index_loop f t (S i) else Ok i
  end.
Definition free_index (t : template) : res nat := index_loop (S (length (tp_insts t))) t 0.

(** Bus.cpp:62-81 *)
Definition create_child (bs : list (list string)) (parent : nat) (name : string) : option (res (list (list string) * nat)) :=
  match nth_error bs parent with
  | None => None
  | Some kids => if existsb (String.eqb name) kids then Some (Throw (DuplicateKey name))
                 else Some (Ok (list_set parent (kids ++ [name]) bs ++ [[]], length bs))
  end.

Definition set_insts (t : template) (m : omap (option inst)) : template := mkTemplate (tp_id t) (tp_fn t) m (tp_handle t).

(** Template:24-39. [slot]: whether the compiler evaluates the left-hand side of the assignment in
    line 36 first (before C++17 it may), which leaves an empty entry behind when CreateInstance throws.
    Results: the template, the buses, the next object number, events, the outcome. *)
Definition instantiate (slot : bool) (t : template) (conf : dg) (parent : option nat) (cr : created)
    (bs : list (list string)) (next : nat)
    : template * list (list string) * nat * list pevent * res (option inst) :=
  match free_index t with
  | Ok index =>
      let name := (tp_id t ++ to_string index)%string in
      match parent with
      | None => (t, bs, next, [], UB)                                       (* null parentBus *)
      | Some p =>
          match create_child bs p name with
          | None => (t, bs, next, [], UB)
          | Some (Ok (bs', b)) =>
              let failed e :=
                ((if slot then set_insts t (oinsert name None (tp_insts t)) else t), bs', next, [PeBus p name b], Throw e) in
              if tp_fn t then
                match cr with
                | CrObject =>
                    let i := mkInst next name b conf in
                    (set_insts t (oinsert name (Some i) (tp_insts t)), bs', S next, [PeBus p name b; PeCreate (tp_id t) i], Ok (Some i))
                | CrNull => (set_insts t (oinsert name None (tp_insts t)), bs', next, [PeBus p name b], Ok None)
                | CrThrow e => failed e
                end
              else failed BadFunctionCall
          | Some (Throw e) => (t, bs, next, [], Throw e)
          | Some UB => (t, bs, next, [], UB)
          | Some NoFuel => (t, bs, next, [], NoFuel)
          end
      end
  | Throw e => (t, bs, next, [], Throw e)
  | UB => (t, bs, next, [], UB)
  | NoFuel => (t, bs, next, [], NoFuel)
  end.

(** Template:41-47: a null instance is dereferenced. *)
Fixpoint stop_all (l : list (string * option inst)) : list pevent * res unit :=
  match l with
  | [] => ([], Ok tt)
  | (_, Some i) :: l' => let (e, r) := stop_all l' in (PeStop i :: e, r)
  | (_, None) :: _ => ([], UB)
  end.

(** Template:49-57 *)
Fixpoint deinit_all (l : list (string * option inst)) : list pevent * res unit :=
  match l with
  | [] => ([], Ok tt)
  | (_, Some i) :: l' => let (e, r) := deinit_all l' in (PeDeinit i :: e, r)
  | (_, None) :: _ => ([], UB)
  end.

(** Template:59-65; also the destructor, Template:12-15 *)
Definition unload (t : template) : template * list pevent * res unit :=
  let t' := mkTemplate (tp_id t) false (tp_insts t) (tp_handle t) in
  let (e1, r1) := stop_all (tp_insts t) in
  match r1 with
  | Ok _ => let (e2, r2) := deinit_all (tp_insts t) in
            match r2 with
            | Ok _ => (mkTemplate (tp_id t) false [] (tp_handle t), e1 ++ e2, Ok tt)
            | _ => (t', e1 ++ e2, r2)
            end
  | _ => (t', e1, r1)
  end.

(** ** PluginManager *)

Definition set_templates (st : pm) (m : omap template) : pm :=
  mkPm (pm_paths st) (pm_bus st) m (pm_buses st) (pm_handles st) (pm_insts st).

(** Manager:7-11 *)
Definition template_extension : string := "so".
Definition template_prefix : string := "libplugin_".

(** Manager:73-75 *)
Definition candidate (w : world) (path : string) : bool :=
  path_exists (w_fs w) path && String.eqb (get_file_extension path) template_extension
  && String.eqb (substring 0 (String.length template_prefix) (get_filename path)) template_prefix.

(** Manager:69-162. The template that is overwritten in line 128 is destroyed. *)
Definition load_template (w : world) (path : string) (st : pm) : pm * list pevent * res bool :=
  if candidate w path then
    match w_open w (c_str path) with
    | None => (st, [], Ok false)                                              (* 157 *)
    | Some l =>
        let h := pm_handles st in
        let st1 := mkPm (pm_paths st) (pm_bus st) (pm_templates st) (pm_buses st) (S h) (pm_insts st) in
        match lb_info l with
        | None => (st1, [PeOpen h; PeClose h], Ok false)                      (* 150-152 *)
        | Some None => (st1, [PeOpen h], UB)                                  (* 98: null info *)
        | Some (Some id) =>
            if String.eqb id "" then (st1, [PeOpen h; PeClose h], Ok false)   (* 143-145 *)
            else if lb_create l then
              let st2 := set_templates st1 (oinsert id (mkTemplate id true [] h) (pm_templates st1)) in
              match olookup id (pm_templates st) with
              | None => (st2, [PeOpen h; PeLoaded id h], Ok true)
              | Some old => let '(_, e, r) := unload old in
                            (st2, PeOpen h :: PeLoaded id h :: e, res_map (fun _ => true) r)
              end
            else (st1, [PeOpen h; PeClose h], Ok false)                       (* 136-138 *)
        end
    end
  else (st, [], Ok false).

(** Manager:164-180 *)
Fixpoint load_files (w : world) (dir : string) (files : list string) (st : pm) : pm * list pevent * res unit :=
  match files with
  | [] => (st, [], Ok tt)
  | f :: fs => let '(st1, e1, r1) := load_template w (combine_paths dir f) st in
               match r1 with
               | Ok _ => let '(st2, e2, r2) := load_files w dir fs st1 in (st2, e1 ++ e2, r2)
               | r => (st1, e1, res_map (fun _ => tt) r)
               end
  end.
Fixpoint load_paths (w : world) (paths : list string) (st : pm) : pm * list pevent * res unit :=
  match paths with
  | [] => (st, [], Ok tt)
  | p :: ps => let '(st1, e1, r1) := load_files w p (get_directory_contents (w_fs w) p OtFile) st in
               match r1 with
               | Ok _ => let '(st2, e2, r2) := load_paths w ps st1 in (st2, e1 ++ e2, r2)
               | r => (st1, e1, r)
               end
  end.

(** Manager:188-194: the loop works on copies of the pairs; the template objects are shared. *)
Fixpoint unload_each (l : list (string * template)) : list pevent * res unit :=
  match l with
  | [] => ([], Ok tt)
  | (_, t) :: l' =>
      let '(_, e1, r1) := unload t in
      match r1 with
      | Ok _ => let (e2, r2) := unload_each l' in (e1 ++ PeClose (tp_handle t) :: e2, r2)
      | _ => (e1, r1)
      end
  end.

(** Template:12-15 for each template that mTemplates.clear() destroys, Manager:196. *)
Fixpoint destroy_each (l : list template) : list pevent * res unit :=
  match l with
  | [] => ([], Ok tt)
  | t :: l' =>
      let '(_, e1, r1) := unload t in
      match r1 with
      | Ok _ => let (e2, r2) := destroy_each l' in (e1 ++ e2, r2)
      | _ => (e1, r1)
      end
  end.

(** Manager:182-198. After undefined behaviour the state does not matter. *)
Definition unload_templates (st : pm) : pm * list pevent * res unit :=
  match pm_templates st with
  | [] => (st, [], Ok tt)
  | ts => let (e, r) := unload_each ts in
          match r with
          | Ok _ => let (e', r') := destroy_each (map (fun kt => fst (fst (unload (snd kt)))) ts) in
                    match r' with
                    | Ok _ => (set_templates st [], e ++ e' ++ [PeUnloaded], Ok tt)
                    | _ => (st, e ++ e', r')
                    end
          | _ => (st, e, r)
          end
  end.

(** Manager:205-230. [bus]: configuration.mBus, null or not. *)
Definition instantiate_template (slot : bool) (tid : string) (bus : option nat) (conf : dg) (cr : created) (st : pm)
    : pm * list pevent * res (option inst) :=
  let parent := match bus with Some b => Some b | None => pm_bus st end in
  match olookup tid (pm_templates st) with
  | None => (st, [], Ok None)
  | Some t => let '(t', bs, n, e, r) := instantiate slot t conf parent cr (pm_buses st) (pm_insts st) in
              (mkPm (pm_paths st) (pm_bus st) (oinsert tid t' (pm_templates st)) bs (pm_handles st) n, e, r)
  end.

(** ** Histories *)

Inductive pop : Type :=
| PAddPath (p : string)                                                  (* Manager:38-41 *)
| PSetBus (b : option nat)                                               (* Manager:200-203 *)
| PLoad (w : world) (path : string)                                      (* LoadTemplate *)
| PLoadAll (w : world)                                                   (* LoadTemplates *)
| PUnload                                                                (* UnloadTemplates, also ~PluginManager *)
| PInstantiate (slot : bool) (tid : string) (bus : option nat) (conf : dg) (cr : created)
| PNewBus | PChild (b : nat) (name : string).                            (* other code creates buses *)

Inductive pres : Type := PUnit | PBool (b : bool) | PInst (i : option inst).

Definition pstep (o : pop) (st : pm) : pm * list pevent * res pres :=
  match o with
  | PAddPath p => (mkPm (pm_paths st ++ [p]) (pm_bus st) (pm_templates st) (pm_buses st) (pm_handles st) (pm_insts st), [], Ok PUnit)
  | PSetBus b => (mkPm (pm_paths st) b (pm_templates st) (pm_buses st) (pm_handles st) (pm_insts st), [], Ok PUnit)
  | PLoad w path => let '(st', e, r) := load_template w path st in (st', e, res_map PBool r)
  | PLoadAll w => let '(st', e, r) := load_paths w (pm_paths st) st in (st', e, res_map (fun _ => PUnit) r)
  | PUnload => let '(st', e, r) := unload_templates st in (st', e, res_map (fun _ => PUnit) r)
  | PInstantiate slot tid bus conf cr => let '(st', e, r) := instantiate_template slot tid bus conf cr st in (st', e, res_map PInst r)
  | PNewBus => (mkPm (pm_paths st) (pm_bus st) (pm_templates st) (pm_buses st ++ [[]]) (pm_handles st) (pm_insts st), [], Ok PUnit)
  | PChild b name =>
      match create_child (pm_buses st) b name with
      | Some (Ok (bs, _)) => (mkPm (pm_paths st) (pm_bus st) (pm_templates st) bs (pm_handles st) (pm_insts st), [], Ok PUnit)
      | Some (Throw e) => (st, [], Throw e)
      | _ => (st, [], UB)
      end
  end.

(** A caller may catch exceptions and go on; nothing follows undefined behaviour. *)
Fixpoint prun (os : list pop) (st : pm) : pm * list pevent * list (res pres) :=
  match os with
  | [] => (st, [], [])
  | o :: os' =>
      let '(st1, e1, r1) := pstep o st in
      match r1 with
      | UB => (st1, e1, [UB])
      | _ => let '(st2, e2, rs) := prun os' st1 in (st2, e1 ++ e2, r1 :: rs)
      end
  end.

Definition pinit : pm := mkPm [] None [] [] 0 0.

(** Manager:14-30, from the configuration given, what /proc/<pid>/exe points to, and the working directory. *)
Definition new_manager (conf : pm_conf) (target cwd : option string) : res pm :=
  res_map (fun exe =>
    let dir := get_base_directory exe in
    let work := get_working_directory cwd in
    mkPm (pc_paths conf ++ [dir] ++ (if String.eqb work dir then [] else [work]) ++ [combine_paths work "lib"])
      (pc_bus conf) [] [] 0 0)
    (get_path_of_running_executable target).

(** ** One instance and its worker thread *)

(** The worker: std::thread object empty; attached with Run executing; attached, Run finished. *)
Inductive worker : Type := NoWorker | Running | Finished.
(** The thread that calls Start and Stop: outside, or inside Stop waiting in join (Instance:51). *)
Inductive controller : Type := Outside | Joining.
(** [is_should]: mShouldRun. [is_should], [is_worker], and whether the process was terminated. *)
Record istate : Type := mkI { is_should : bool; is_worker : worker; is_ctl : controller; is_dead : bool }.
Definition iinit : istate := mkI false NoWorker Outside false.

Inductive ilabel : Type :=
| IStart                (* Start is called; it returns, or std::terminate is called *)
| IStop                 (* Stop is called *)
| IJoined               (* join returns, and so does Stop *)
| IRunEnds              (* the worker's Run returns *)
| IRunClears            (* the worker clears mShouldRun itself (it is protected) *)
| IDestroy.             (* the destructor, Instance:14-18 and the members' *)

Inductive ievent : Type := IeStarted | IeStopped | IeRunEnds | IeTerminate | IeDestroyed.

Definition istep (l : ilabel) (s : istate) : option (istate * list ievent) :=
  if is_dead s then None else
  match l, is_ctl s with
  | IStart, Outside =>
      (* 37-40: the new thread is swapped in; the old thread object is destroyed at the end *)
      match is_worker s with
      | NoWorker => Some (mkI true Running Outside false, [IeStarted])
      | _ => Some (mkI true (is_worker s) Outside true, [IeTerminate])
      end
  | IStop, Outside =>
      if is_should s then                                            (* 45-53 *)
        match is_worker s with
        | NoWorker => Some (mkI false NoWorker Outside false, [IeStopped])
        | w => Some (mkI false w Joining false, [])
        end
      else Some (s, [IeStopped])
  | IJoined, Joining =>
      match is_worker s with
      | Finished => Some (mkI (is_should s) NoWorker Outside false, [IeStopped])
      | _ => None
      end
  | IRunEnds, _ =>
      match is_worker s with
      | Running => Some (mkI (is_should s) Finished (is_ctl s) false, [IeRunEnds])
      | _ => None
      end
  | IRunClears, _ =>
      match is_worker s with
      | Running => Some (mkI false Running (is_ctl s) false, [])
      | _ => None
      end
  | IDestroy, Outside =>
      (* after Stop has returned: mWorkerThread's destructor *)
      if is_should s then None
      else match is_worker s with
           | NoWorker => Some (mkI false NoWorker Outside true, [IeDestroyed])
           | _ => Some (mkI false (is_worker s) Outside true, [IeTerminate])
           end
  | _, _ => None
  end.

Fixpoint iexec (ls : list ilabel) (s : istate) : option (istate * list ievent) :=
  match ls with
  | [] => Some (s, [])
  | l :: ls' => match istep l s with
                | Some (s1, e1) => match iexec ls' s1 with Some (s2, e2) => Some (s2, e1 ++ e2) | None => None end
                | None => None
                end
  end.

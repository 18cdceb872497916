(** What the plugin manager writes to the log while it loads, unloads and instantiates templates: the functions of PluginModel again, with their
    log calls; src/lamppost/plugin/PluginManager.cpp ("Manager").

    Simplifications: those of PluginModel, but for the log. The manager's log has the prefix of Manager:16. A log call is one
    step; that its line is written whole is C56. Since dlclose succeeds, ClosePluginLibrary writes nothing. The calls of
    PluginTemplate, and of other code, on other logs are not part of it. *)
From Coq Require Import String List Arith Bool ZArith.
From Verif Require Import Prelude OMap DatagramSpec FilesystemModel PluginModel LogModel.
Import ListNotations.
Open Scope list_scope.

(** What is seen: something done (PluginModel), or a call of mLog.Info or mLog.Error. *)
Inductive told : Type := Did (e : pevent) | Said (c : call).

(** Manager:16 *)
Definition say (m : string) (n : Z) : told := Said (mkCall "PluginManager" m n).

(** Manager:69-162 *)
Definition load_template_told (w : world) (path : string) (st : pm) : pm * list told * res bool :=
  if candidate w path then
    let t0 := [say ("Now loading: " ++ path) 2] in                                                   (* 77 *)
    match w_open w (c_str path) with
    | None => (st, t0 ++ [say "Failed to acquire library handle." 3], Ok false)                      (* 157 *)
    | Some l =>
        let h := pm_handles st in
        let st1 := mkPm (pm_paths st) (pm_bus st) (pm_templates st) (pm_buses st) (S h) (pm_insts st) in
        let t1 := t0 ++ [Did (PeOpen h); say "Acquired library handle" 3] in                         (* 79-82 *)
        match lb_info l with
        | None => (st1, t1 ++ [say "Info methods missing" 3; Did (PeClose h)], Ok false)             (* 150-152 *)
        | Some i =>
            let t2 := t1 ++ [say "Info method present" 3] in                                         (* 94 *)
            match i with
            | None => (st1, t2, UB)                                                                  (* 98: null info *)
            | Some id =>
                if String.eqb id "" then (st1, t2 ++ [say "Identifier empty" 3; Did (PeClose h)], Ok false)          (* 143-145 *)
                else
                  let t3 := t2 ++ [say ("Identifier = " ++ id) 3] in                                 (* 100 *)
                  if lb_create l then
                    let t4 := t3 ++ [say "Creation method present" 3; Did (PeLoaded id h)] in        (* 112, 128 *)
                    let st2 := set_templates st1 (oinsert id (mkTemplate id true [] h) (pm_templates st1)) in
                    let '(e, r) := match olookup id (pm_templates st) with
                                   | None => ([], Ok tt)
                                   | Some old => let '(_, e, r) := unload old in (e, r)
                                   end in
                    match r with
                    | Ok _ => (st2, t4 ++ map Did e ++ [say "Load successful" 3], Ok true)           (* 132 *)
                    | _ => (st2, t4 ++ map Did e, res_map (fun _ => true) r)
                    end
                  else (st1, t3 ++ [say "Creation methods missing" 3; Did (PeClose h)], Ok false)    (* 136-138 *)
            end
        end
    end
  else (st, [], Ok false).

(** Manager:164-180 *)
Fixpoint load_files_told (w : world) (dir : string) (files : list string) (st : pm) : pm * list told * res unit :=
  match files with
  | [] => (st, [], Ok tt)
  | f :: fs => let '(st1, e1, r1) := load_template_told w (combine_paths dir f) st in
               match r1 with
               | Ok _ => let '(st2, e2, r2) := load_files_told w dir fs st1 in (st2, e1 ++ e2, r2)
               | r => (st1, e1, res_map (fun _ => tt) r)
               end
  end.
Fixpoint load_paths_told (w : world) (paths : list string) (st : pm) : pm * list told * res unit :=
  match paths with
  | [] => (st, [], Ok tt)
  | p :: ps => let '(st1, e1, r1) := load_files_told w p (get_directory_contents (w_fs w) p OtFile) st in
               match r1 with
               | Ok _ => let '(st2, e2, r2) := load_paths_told w ps st1 in (st2, say p 1 :: e1 ++ e2, r2)
               | r => (st1, say p 1 :: e1, r)
               end
  end.

(** Manager:188-194 *)
Fixpoint unload_each_told (l : list (string * template)) : list told * res unit :=
  match l with
  | [] => ([], Ok tt)
  | (k, t) :: l' =>
      let '(_, e1, r1) := unload t in
      match r1 with
      | Ok _ => let (e2, r2) := unload_each_told l' in (say k 1 :: map Did e1 ++ Did (PeClose (tp_handle t)) :: e2, r2)
      | _ => (say k 1 :: map Did e1, r1)
      end
  end.

(** Manager:182-198 *)
Definition unload_templates_told (st : pm) : pm * list told * res unit :=
  match pm_templates st with
  | [] => (st, [], Ok tt)
  | ts => let t0 := say "Unloading plugin templates:" 0 in
          let (e, r) := unload_each_told ts in
          match r with
          | Ok _ => let (e', r') := destroy_each (map (fun kt => fst (fst (unload (snd kt)))) ts) in
                    match r' with
                    | Ok _ => (set_templates st [], t0 :: e ++ map Did (e' ++ [PeUnloaded]), Ok tt)
                    | _ => (st, t0 :: e ++ map Did e', r')
                    end
          | _ => (st, t0 :: e, r)
          end
  end.

(** Manager:205-230 *)
Definition instantiate_template_told (slot : bool) (tid : string) (bus : option nat) (conf : dg) (cr : created) (st : pm)
    : pm * list told * res (option inst) :=
  let t0 := say ("Instantiating plugin template: " ++ tid) 0 ::                                      (* 209 *)
            match bus with Some _ => [] | None => [say "Using default bus" 1] end in                 (* 213 *)
  let parent := match bus with Some b => Some b | None => pm_bus st end in
  match olookup tid (pm_templates st) with
  | None => (st, t0 ++ [say "Template not found, failed to instantiate." 1], Ok None)                (* 226 *)
  | Some t => let '(t', bs, n, e, r) := instantiate slot t conf parent cr (pm_buses st) (pm_insts st) in
              (mkPm (pm_paths st) (pm_bus st) (oinsert tid t' (pm_templates st)) bs (pm_handles st) n,
               t0 ++ say "Template found, instantiating" 1 :: map Did e, r)                          (* 220-222 *)
  end.

(** The manager's other methods write nothing. *)
Definition pstep_told (o : pop) (st : pm) : pm * list told * res pres :=
  match o with
  | PLoad w path => let '(st', t, r) := load_template_told w path st in (st', t, res_map PBool r)
  | PLoadAll w => let '(st', t, r) := load_paths_told w (pm_paths st) st in
                  (st', say "Loading plugin templates from search paths:" 0 :: t, res_map (fun _ => PUnit) r)
  | PUnload => let '(st', t, r) := unload_templates_told st in (st', t, res_map (fun _ => PUnit) r)
  | PInstantiate slot tid bus conf cr =>
      let '(st', t, r) := instantiate_template_told slot tid bus conf cr st in (st', t, res_map PInst r)
  | _ => let '(st', e, r) := pstep o st in (st', map Did e, r)
  end.

Fixpoint prun_told (os : list pop) (st : pm) : pm * list told * list (res pres) :=
  match os with
  | [] => (st, [], [])
  | o :: os' =>
      let '(st1, t1, r1) := pstep_told o st in
      match r1 with
      | UB => (st1, t1, [UB])
      | _ => let '(st2, t2, rs) := prun_told os' st1 in (st2, t1 ++ t2, r1 :: rs)
      end
  end.

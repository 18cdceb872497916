(** Model of installing and removing the Windows service: Service::Install, Service::Uninstall and Service::ReportEvent in
    src/lamppost/platformspecific/windows/service/Service.cpp ("Service") and _tmain in main.cpp beside it ("main").

    The operating system is an argument: [answers] says how each call ends; the control manager's database is the state.
    Simplifications:
    - One process installs or removes at a time. CreateService fails if the name is taken, DeleteService if the service is
      marked for deletion already; both may fail for other reasons too.
    - A deleted service goes when the last handle is closed, at once or later ([Reap]).
    - lstrcmpi compares ASCII letters without regard to case, and null is equal to no string.
    - Error numbers are left out of the texts printed. *)
From Coq Require Import String Ascii List Arith Bool.
From Verif Require Import Prelude FilesystemModel.
Import ListNotations.
Open Scope list_scope.
Open Scope string_scope.

Record entry : Type := mkEntry { en_path : string; en_descr : option string; en_marked : bool }.
Definition scm : Type := string -> option entry.
Definition scm_set (n : string) (e : option entry) (d : scm) : scm := fun m => if String.eqb m n then e else d m.

Record answers : Type := mkAnswers {
  an_module : option string;   (* GetModuleFileName: the path; None: fails *)
  an_manager : bool;           (* OpenSCManager *)
  an_create : bool;            (* CreateService, if the name is free *)
  an_descr : bool;             (* ChangeServiceConfig2 *)
  an_open : bool;              (* OpenService, if there is such a service *)
  an_delete : bool;            (* DeleteService, if not marked *)
  an_busy : bool;              (* others have the service open, or it runs *)
  an_dispatch : bool;          (* StartServiceCtrlDispatcher *)
  an_source : bool             (* RegisterEventSource *)
}.

Inductive handle : Type := HManager | HService | HSource.
Inductive said : Type := SayCreateFailed | SayInstalled | SayOpenFailed | SayDeleteFailed | SayDeleted.
Inductive ievent : Type :=
| IOpen (h : handle)
| IClose (h : handle)
| ISay (x : said)        (* printf *)
| IServe                 (* the dispatcher ran the service and returned *)
| IReport.               (* ::ReportEvent, Service:289 *)

(** main:12 *)
Definition service_name : string := "LampPost.Service".
Definition service_descr : string := "The LampPost background service.".

(** MAX_PATH; GetModuleFileName cuts what does not fit together with the NUL. *)
Definition max_path : nat := 260.
Definition cut_path (p : string) : string := string_of_list_ascii (firstn (max_path - 1) (chars p)).

(** Service:46-106. None: an exception is thrown (54, 65), nothing was done before. *)
Definition install (a : answers) (d : scm) : option (scm * list ievent) :=
  match an_module a with
  | None => None
  | Some p =>
      if an_manager a then
        match d service_name with
        | None =>
            if an_create a then
              let e := mkEntry (cut_path p) (if an_descr a then Some service_descr else None) false in
              Some (scm_set service_name (Some e) d,
                    [IOpen HManager; IOpen HService; ISay SayInstalled; IClose HService; IClose HManager])
            else Some (d, [IOpen HManager; ISay SayCreateFailed; IClose HManager])
        | Some _ => Some (d, [IOpen HManager; ISay SayCreateFailed; IClose HManager])
        end
      else None
  end.

(** Service:108-149 *)
Definition uninstall (a : answers) (d : scm) : option (scm * list ievent) :=
  if an_manager a then
    match d service_name with
    | Some e =>
        if an_open a then
          if (an_delete a && negb (en_marked e))%bool then
            Some (scm_set service_name (if an_busy a then Some (mkEntry (en_path e) (en_descr e) true) else None) d,
                  [IOpen HManager; IOpen HService; ISay SayDeleted; IClose HService; IClose HManager])
          else Some (d, [IOpen HManager; IOpen HService; ISay SayDeleteFailed; IClose HService; IClose HManager])
        else Some (d, [IOpen HManager; ISay SayOpenFailed; IClose HManager])
    | None => Some (d, [IOpen HManager; ISay SayOpenFailed; IClose HManager])
    end
  else None.

(** Service:274-301 *)
Definition report_event (a : answers) : list ievent :=
  if an_source a then [IOpen HSource; IReport; IClose HSource] else [].

(** lstrcmpi(...) == 0 *)
Definition lower (c : ascii) : ascii :=
  let n := nat_of_ascii c in if ((65 <=? n) && (n <=? 90))%nat then ascii_of_nat (n + 32) else c.
Fixpoint lstrcmpi_eq (a b : string) : bool :=
  match a, b with
  | EmptyString, EmptyString => true
  | String x a', String y b' => Ascii.eqb (lower x) (lower y) && lstrcmpi_eq a' b'
  | _, _ => false
  end.

Inductive ended : Type := Exited | Terminated.

(** An exception that leaves _tmain ends the process. *)
Definition or_terminate (d : scm) (r : option (scm * list ievent)) : ended * scm * list ievent :=
  match r with Some (d', es) => (Exited, d', es) | None => (Terminated, d, []) end.

(** main:21-50. argv[argc] is null; reading argv[1] with argc 0 is out of bounds. *)
Definition tmain (argv : list string) (a : answers) (d : scm) : res (ended * scm * list ievent) :=
  let serve := (Exited, d, if an_dispatch a then [IServe] else report_event a) in
  match argv with
  | [] => UB
  | [_] => Ok serve
  | _ :: x :: _ =>
      if lstrcmpi_eq x "install" then Ok (or_terminate d (install a d))
      else if lstrcmpi_eq x "uninstall" then Ok (or_terminate d (uninstall a d))
      else Ok serve
  end.

(** ** Many runs of the program *)

Inductive ilabel : Type :=
| IRun (argv : list string) (a : answers)
| Reap (n : string).            (* the last handle of a service marked for deletion is closed elsewhere *)

Definition istep (l : ilabel) (d : scm) : option (scm * list ievent) :=
  match l with
  | IRun argv a => match tmain argv a d with Ok (_, d', es) => Some (d', es) | _ => None end
  | Reap n => match d n with Some e => if en_marked e then Some (scm_set n None d, []) else None | None => None end
  end.

Fixpoint iexec (ls : list ilabel) (d : scm) : option (scm * list ievent) :=
  match ls with
  | [] => Some (d, [])
  | l :: ls' => match istep l d with
                | Some (d1, e1) => match iexec ls' d1 with Some (d2, e2) => Some (d2, (e1 ++ e2)%list) | None => None end
                | None => None
                end
  end.

(** ** Starting the service *)

(** Service:77: the path is given without quotation marks, and the control manager starts it as CreateProcess starts a command
    line: whatever precedes a space may be the program's name, shorter ones first, with ".exe" or as it is. *)
Fixpoint cuts (seen rest : string) : list string :=
  match rest with
  | EmptyString => [seen]
  | String c rest' => if Ascii.eqb c " " then seen :: cuts (seen ++ String c "") rest' else cuts (seen ++ String c "") rest'
  end.
Definition started (exists_ : string -> bool) (command : string) : option string :=
  find exists_ (flat_map (fun c => [c; c ++ ".exe"]) (cuts "" command)).

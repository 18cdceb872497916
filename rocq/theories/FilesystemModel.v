(** Model of src/lamppost/Filesystem.cpp (the Unix branches) and of the comparison operators of
    include/lamppost/plugin/PluginManagerConfiguration.h and include/lamppost/LampPostConfiguration.h.

    The operating system is an argument: [fs] says what stat, access and opendir/readdir report at
    the time of the call (the tree does not change within one call). Strings may contain NUL
    characters; the system calls see them cut at the first one ([c_str]). *)
From Coq Require Import String Ascii List Arith Bool.
From Verif Require Import Prelude.
Import ListNotations.
Open Scope list_scope.
Open Scope string_scope.

(** A std::string passed as a C string. *)
Fixpoint c_str (s : string) : string :=
  match s with
  | EmptyString => EmptyString
  | String c s' => if Ascii.eqb c "000" then EmptyString else String c (c_str s')
  end.

(** std::string::find_last_of for one character. *)
Fixpoint find_last (c : ascii) (s : string) : option nat :=
  match s with
  | EmptyString => None
  | String x s' => match find_last c s' with
                   | Some i => Some (S i)
                   | None => if Ascii.eqb x c then Some 0 else None
                   end
  end.

(** std::string::substr(pos) and substr(0, n). *)
Definition substr_from (pos : nat) (s : string) : string := substring pos (String.length s - pos) s.
Definition substr_to (n : nat) (s : string) : string := substring 0 n s.

(** Filesystem.cpp:172-185 *)
Definition combine_paths (root relative : string) : string := root ++ "/" ++ relative.

(** Filesystem.cpp:187-203 *)
Definition get_filename (path : string) : string :=
  match find_last "/" path with
  | Some pos => if (pos + 1 <? String.length path)%nat then substr_from (pos + 1) path else ""
  | None => ""
  end.

(** Filesystem.cpp:205-221 *)
Definition get_base_directory (path : string) : string :=
  match find_last "/" path with
  | Some pos => substr_to pos path
  | None => ""
  end.

(** Filesystem.cpp:223-239 *)
Definition get_file_extension (path : string) : string :=
  let filename := get_filename path in
  match filename with
  | EmptyString => ""
  | _ => match find_last "." filename with
         | Some pos => substr_from (pos + 1) filename
         | None => ""
         end
  end.

Inductive ftype : Type := FReg | FDir | FOther.
Record fs : Type := mkFs {
  f_stat : string -> option ftype;            (* stat(2), None: fails *)
  f_access : string -> bool;                  (* access(2) with F_OK *)
  f_dir : string -> option (list string)      (* opendir/readdir: all entries in order, None: opendir fails *)
}.

(** Filesystem.cpp:6-26, 28-48, 50-61 *)
Definition is_directory (f : fs) (path : string) : bool := match f_stat f (c_str path) with Some FDir => true | _ => false end.
Definition is_file (f : fs) (path : string) : bool := match f_stat f (c_str path) with Some FReg => true | _ => false end.
Definition path_exists (f : fs) (path : string) : bool := f_access f (c_str path).

(** Filesystem.h:27-32 *)
Inductive object_type : Type := OtFile | OtDirectory | OtAny.
Definition ot_int (t : object_type) : nat := match t with OtFile => 1 | OtDirectory => 2 | OtAny => 3 end.

(** Filesystem.cpp:63-120; line 109 tests the File bit for directories too. *)
Definition get_directory_contents (f : fs) (path : string) (filter : object_type) : list string :=
  match f_dir f (c_str path) with
  | None => []
  | Some names =>
      flat_map (fun name =>
        let full := combine_paths path name in
        let files := negb (Nat.land (ot_int filter) (ot_int OtFile) =? 0)%nat in
        let dirs := negb (Nat.land (ot_int filter) (ot_int OtFile) =? 0)%nat in
        (if files && is_file f full then [name] else []) ++ (if dirs && is_directory f full then [name] else []))%list names
  end.

(** Filesystem.cpp:122-147. The buffer is a list of cells, [None] if not written. *)
Definition buffer_length : nat := 1024.
Definition chars (s : string) : list ascii := list_ascii_of_string s.
Definition fill (l : list ascii) : list (option ascii) := (map Some l ++ repeat None (buffer_length - List.length l))%list.
(** Reading a C string from the buffer: undefined if it runs into a cell that was not written or
    past the end. *)
Fixpoint read_c_string (b : list (option ascii)) : res string :=
  match b with
  | [] => UB
  | None :: _ => UB
  | Some c :: b' => if Ascii.eqb c "000" then Ok EmptyString else res_map (String c) (read_c_string b')
  end.
(** [target]: what readlink finds; [None]: it fails and returns -1. *)
Definition get_path_of_running_executable (target : option string) : res string :=
  match target with
  | None => read_c_string (fill [])
  | Some t =>
      let l := firstn buffer_length (chars t) in                 (* readlink truncates silently *)
      let bytes := Nat.min (List.length l) (buffer_length - 1) in
      read_c_string (list_set bytes (Some "000"%char) (fill l))
  end.

(** Filesystem.cpp:149-170. [cwd]: the working directory's path; [None]: it has none. getcwd refuses a path that
    does not fit into the buffer together with its terminating zero. *)
Definition get_working_directory (cwd : option string) : string :=
  match cwd with
  | Some p => if (String.length p <? buffer_length)%nat then c_str p else ""
  | None => ""
  end.

(** ** Comparison of configurations *)

(** PluginManagerConfiguration.h:15-16; buses are compared by identity. *)
Record pm_conf : Type := mkPmConf { pc_paths : list string; pc_bus : option nat }.

(** std::equal(first1, last1, first2): reads the second range as far as the first reaches. *)
Fixpoint equal3 (a b : list string) : res bool :=
  match a, b with
  | [], _ => Ok true
  | _ :: _, [] => UB
  | x :: a', y :: b' => if String.eqb x y then equal3 a' b' else Ok false
  end.

Definition bus_eqb (a b : option nat) : bool :=
  match a, b with Some x, Some y => (x =? y)%nat | None, None => true | _, _ => false end.

(** PluginManagerConfiguration.h:29-34, 36-39 *)
Definition pm_conf_eq (a b : pm_conf) : res bool :=
  if bus_eqb (pc_bus a) (pc_bus b) then equal3 (pc_paths a) (pc_paths b) else Ok false.
Definition pm_conf_ne (a b : pm_conf) : res bool := res_map negb (pm_conf_eq a b).

(** LampPostConfiguration.h:15-16, 26-34 *)
Record lp_conf : Type := mkLpConf { lc_pm : pm_conf; lc_files : list string }.
Definition lp_conf_eq (a b : lp_conf) : res bool := pm_conf_eq (lc_pm a) (lc_pm b).
Definition lp_conf_ne (a b : lp_conf) : res bool := res_map negb (lp_conf_eq a b).

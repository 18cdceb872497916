(** Model of src/lamppost/Filesystem.cpp, the Windows branches, and of the uses of it in src/lamppost/plugin/PluginManager.cpp.

    The operating system is an argument: [wfs] says what GetFileAttributesA, PathFileExists and FindFirstFile/FindNextFile report
    at the time of the call. Memory that a call leaves unwritten holds arbitrary characters, which are arguments too ([junk]).
    (Reading it is undefined behaviour in C++; here it is only where the read leaves the buffer.) Strings are bytes. A module path
    that does not fit is cut and terminated, as since Windows Vista. *)
From Coq Require Import String Ascii List Arith NArith Bool.
From Verif Require Import Prelude FilesystemModel.
Import ListNotations.
Open Scope list_scope.
Open Scope string_scope.

Record wfs : Type := mkWfs {
  w_attr : string -> option N;              (* GetFileAttributesA; None: it fails *)
  w_exists : string -> bool;                (* PathFileExists *)
  w_find : string -> option (string * list string)   (* the names FindFirstFile and FindNextFile yield; None: FindFirstFile fails *)
}.

(** INVALID_FILE_ATTRIBUTES, FILE_ATTRIBUTE_DIRECTORY *)
Definition invalid_attributes : N := 4294967295%N.
Definition attribute_directory : N := 16%N.

Definition attributes (f : wfs) (path : string) : N :=
  match w_attr f (c_str path) with Some a => a | None => invalid_attributes end.

(** Filesystem.cpp:11-16, 33-38, 55 *)
Definition win_is_directory (f : wfs) (path : string) : bool := negb (N.eqb (N.land (attributes f path) attribute_directory) 0).
Definition win_is_file (f : wfs) (path : string) : bool := N.eqb (N.land (attributes f path) attribute_directory) 0.
Definition win_path_exists (f : wfs) (path : string) : bool := w_exists f (c_str path).

(** Filesystem.cpp:172-185 *)
Definition win_combine (root relative : string) : string := root ++ "\" ++ relative.

(** Filesystem.cpp:187-203 *)
Definition win_filename (path : string) : string :=
  match find_last "\" path with
  | Some pos => if (pos + 1 <? String.length path)%nat then substr_from (pos + 1) path else ""
  | None => ""
  end.

(** Filesystem.cpp:205-221 *)
Definition win_base_directory (path : string) : string :=
  match find_last "\" path with
  | Some pos => substr_to pos path
  | None => ""
  end.

(** Filesystem.cpp:223-239 *)
Definition win_file_extension (path : string) : string :=
  let filename := win_filename path in
  match filename with
  | EmptyString => ""
  | _ => match find_last "." filename with
         | Some pos => substr_from (pos + 1) filename
         | None => ""
         end
  end.

(** One turn of the loop, Filesystem.cpp:76-91. *)
Definition win_entry (f : wfs) (path : string) (filter : object_type) (name : string) : list string :=
  if (String.eqb name "." || String.eqb name "..")%bool then []
  else
    let full := win_combine path name in
    let files := negb (Nat.land (ot_int filter) (ot_int OtFile) =? 0)%nat in
    let dirs := negb (Nat.land (ot_int filter) (ot_int OtDirectory) =? 0)%nat in
    ((if files && win_is_file f full then [name] else []) ++ (if dirs && win_is_directory f full then [name] else []))%list.

(** A C string in memory that ends after the list. *)
Fixpoint c_string_in (l : list ascii) : res string :=
  match l with
  | [] => UB
  | c :: l' => if Ascii.eqb c "000" then Ok EmptyString else res_map (String c) (c_string_in l')
  end.

(** Filesystem.cpp:65-93. [junk]: what cFileName, MAX_PATH characters, holds before the call. The second result: find handles
    that are still open at the end; FindClose is not called. *)
Definition win_contents (f : wfs) (junk : list ascii) (path : string) (filter : object_type) : res (list string * nat) :=
  match w_find f (c_str (win_combine path "*")) with
  | Some (n, names) => Ok (if String.eqb n "" then [] else flat_map (win_entry f path filter) (n :: names), 1)
  | None =>
      match junk with
      | [] => UB
      | c :: _ => if Ascii.eqb c "000" then Ok ([], 0)
                  else res_map (fun name => (win_entry f path filter name, 0)) (c_string_in junk)
      end
  end.

(** What a buffer of characters holds after [l] has been written to its beginning. *)
Definition written (l junk : list ascii) : list ascii := (l ++ skipn (List.length l) junk)%list.

(** Filesystem.cpp:125-134. [path]: the module's path; None: GetModuleFileName fails. All of the buffer is taken, whatever
    length was reported. *)
Definition win_executable (junk : list ascii) (path : option string) : string :=
  match path with
  | None | Some EmptyString => ""
  | Some p => string_of_list_ascii (written (firstn (buffer_length - 1) (chars p) ++ ["000"%char]) junk)
  end.

(** Filesystem.cpp:153-162. GetCurrentDirectory returns the size needed and leaves the buffer as it is if that is too small. *)
Definition win_working_directory (junk : list ascii) (cwd : option string) : res string :=
  match cwd with
  | None => Ok ""
  | Some p => if (String.length p <? buffer_length)%nat then c_string_in (written (chars p ++ ["000"%char]) junk)
              else c_string_in junk
  end.

(** PluginManager.cpp:14-30. The two buffers are different memory. *)
Definition win_search_paths (junk1 junk2 : list ascii) (exe cwd : option string) : res (list string) :=
  let executable_directory := win_base_directory (win_executable junk1 exe) in
  res_map (fun working_directory =>
    ((executable_directory :: if String.eqb working_directory executable_directory then [] else [working_directory]) ++
     [win_combine working_directory "lib"])%list) (win_working_directory junk2 cwd).

(** PluginManager.cpp:7-8, 73-75 *)
Definition win_is_template (f : wfs) (path : string) : bool :=
  win_path_exists f path && String.eqb (win_file_extension path) "dll" && String.eqb (substr_to 7 (win_filename path)) "plugin_".

(** PluginManager.cpp:168-179, 79, 46: the paths that reach LoadLibrary from one search path, in order. *)
Definition win_opened (f : wfs) (junk : list ascii) (search_path : string) : res (list string) :=
  res_map (fun r => map c_str (filter (win_is_template f) (map (win_combine search_path) (fst r))))
          (win_contents f junk search_path OtFile).

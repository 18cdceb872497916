(** C87: the Windows branches of the path helpers, the listing of directories and the search for plugins. *)
From Coq Require Import String Ascii List Arith NArith Bool Lia.
From Verif Require Import Prelude FilesystemModel FilesystemProps WinFsModel.
Import ListNotations.
Open Scope list_scope.
Open Scope string_scope.

(** * Specification ([occurs]: FilesystemProps.v) *)

(** Is an entry with these attributes listed? None: its attributes cannot be read. Bit 4 marks directories. *)
Definition wanted (t : object_type) (attr : option N) : bool :=
  match t, attr with
  | OtAny, _ => true
  | OtFile, Some a => negb (N.testbit a 4)
  | OtFile, None => false
  | OtDirectory, Some a => N.testbit a 4
  | OtDirectory, None => true
  end.

Definition not_dots (name : string) : bool := negb (String.eqb name ".") && negb (String.eqb name "..").

(** * Lemmas *)

Lemma c_str_clean p : ~ occurs "000" p -> c_str p = p.
Proof.
  induction p as [|c p IH]; simpl; auto. unfold occurs in *. simpl. intros N.
  destruct (Ascii.eqb_spec c "000") as [->|Ne]; [tauto|]. rewrite IH; tauto.
Qed.
Lemma c_str_cut p g : ~ occurs "000" p -> c_str (p ++ String "000" g) = p.
Proof.
  induction p as [|c p IH]; simpl; auto. unfold occurs in *. simpl. intros N.
  destruct (Ascii.eqb_spec c "000") as [->|Ne]; [tauto|]. rewrite IH; tauto.
Qed.
Lemma occurs_app c a b : occurs c (a ++ b) <-> occurs c a \/ occurs c b.
Proof. unfold occurs. rewrite chars_app. apply in_app_iff. Qed.
Lemma length_chars s : List.length (list_ascii_of_string s) = String.length s.
Proof. induction s; simpl; auto. Qed.
Lemma length_of_chars l : String.length (string_of_list_ascii l) = List.length l.
Proof. induction l; simpl; auto. Qed.
Lemma of_chars_app a b : string_of_list_ascii (a ++ b)%list = string_of_list_ascii a ++ string_of_list_ascii b.
Proof. induction a; simpl; congruence. Qed.

Lemma wfilename_split a b : ~ occurs "\" b -> win_filename (a ++ String "\" b) = b.
Proof.
  intros H. unfold win_filename. rewrite find_last_some by auto. rewrite substr_from_app, length_app_s. simpl.
  destruct (Nat.ltb_spec (String.length a + 1) (String.length a + S (String.length b))); auto.
  destruct b; auto. simpl in *. lia.
Qed.
Lemma wbase_split a b : ~ occurs "\" b -> win_base_directory (a ++ String "\" b) = a.
Proof. intros H. unfold win_base_directory. rewrite find_last_some by auto. apply substring_prefix. Qed.

Lemma land_bit a : N.land a attribute_directory = if N.testbit a 4 then 16%N else 0%N.
Proof.
  unfold attribute_directory. apply N.bits_inj. intros i. rewrite N.land_spec. change 16%N with (2 ^ 4)%N. rewrite N.pow2_bits_eqb.
  destruct (N.eqb_spec 4 i) as [<-|Ne].
  - rewrite andb_true_r. destruct (N.testbit a 4); auto.
  - rewrite andb_false_r. destruct (N.testbit a 4); [|now rewrite N.bits_0]. change 16%N with (2 ^ 4)%N. rewrite N.pow2_bits_eqb.
    destruct (N.eqb_spec 4 i); congruence.
Qed.

(** * Paths *)

(** The backslash is the separator. *)
Theorem C87_paths : forall r n, ~ occurs "\" n ->
  win_combine r n = r ++ "\" ++ n /\ win_filename (r ++ "\" ++ n) = n /\ win_base_directory (r ++ "\" ++ n) = r.
Proof. intros r n H. split; [reflexivity|]. split; [apply wfilename_split|apply wbase_split]; auto. Qed.
Print Assumptions C87_paths.

Theorem C87_recompose : forall p, occurs "\" p ->
  win_base_directory p ++ "\" ++ win_filename p = p /\ ~ occurs "\" (win_filename p).
Proof.
  intros p H. destruct (last_split "\" p) as [N|(a & b & -> & N)]; [tauto|]. rewrite wbase_split, wfilename_split by auto. auto.
Qed.
Print Assumptions C87_recompose.

(** A path without one has neither name nor directory nor extension, and no plugin is loaded from it, whatever file it names. *)
Theorem C87_slashes : forall f p, ~ occurs "\" p ->
  win_filename p = "" /\ win_base_directory p = "" /\ win_file_extension p = "" /\ win_is_template f p = false.
Proof.
  intros f p H. unfold win_is_template, win_file_extension, win_filename, win_base_directory. rewrite find_last_none by auto.
  repeat split. simpl. now rewrite andb_false_r.
Qed.
Print Assumptions C87_slashes.

Theorem C87_extension : forall p,
  (~ occurs "." (win_filename p) -> win_file_extension p = "") /\
  (forall a e, win_filename p = a ++ "." ++ e -> ~ occurs "." e -> win_file_extension p = e).
Proof.
  intros p. unfold win_file_extension. remember (win_filename p) as f eqn:Ef. clear Ef p. split.
  - intros N. rewrite find_last_none by auto. now destruct f.
  - intros a e -> N. simpl. rewrite find_last_some, substr_from_app by auto. now destruct a.
Qed.
Print Assumptions C87_extension.

(** * Kinds of paths *)

(** Of a path whose attributes cannot be read - a missing one, say - IsDirectory says yes. *)
Theorem C87_kinds : forall f p,
  (w_attr f (c_str p) = None -> win_is_directory f p = true /\ win_is_file f p = false) /\
  (forall a, w_attr f (c_str p) = Some a -> win_is_directory f p = N.testbit a 4 /\ win_is_file f p = negb (N.testbit a 4)).
Proof.
  intros f p. unfold win_is_directory, win_is_file, attributes. split; [intros ->; auto|]. intros a ->. rewrite land_bit.
  destruct (N.testbit a 4); auto.
Qed.
Print Assumptions C87_kinds.

(** What one would expect - no path is a directory unless it exists - is false. *)
Theorem C87_missing_refuted : exists f p, win_path_exists f p = false /\ w_attr f (c_str p) = None /\ win_is_directory f p = true.
Proof. exists (mkWfs (fun _ => None) (fun _ => false) (fun _ => None)), "C:\none". auto. Qed.
Print Assumptions C87_missing_refuted.

(** * Listings *)

Lemma entry_spec f path t n : win_entry f path t n = if not_dots n && wanted t (w_attr f (c_str (path ++ "\" ++ n))) then [n] else [].
Proof.
  unfold win_entry, not_dots, wanted. destruct (String.eqb n "."), (String.eqb n ".."); auto. cbn [orb andb negb].
  destruct (C87_kinds f (win_combine path n)) as (K1 & K2). unfold win_combine in *.
  destruct (w_attr f (c_str (path ++ "\" ++ n))) as [a|].
  - destruct (K2 a eq_refl) as (-> & ->). destruct t, (N.testbit a 4); auto.
  - destruct (K1 eq_refl) as (-> & ->). destruct t; auto.
Qed.
Lemma entries_spec f path t l :
  flat_map (win_entry f path t) l = filter (fun x => not_dots x && wanted t (w_attr f (c_str (path ++ "\" ++ x)))) l.
Proof.
  induction l as [|n l IH]; auto. simpl flat_map. rewrite IH, entry_spec. cbn [filter]. now destruct (not_dots n && _).
Qed.

(** A directory that can be searched: its entries but "." and "..", of the kinds asked for, in order, each once. One find handle
    stays open. *)
Theorem C87_listing : forall f junk path t n names, w_find f (c_str (path ++ "\*")) = Some (n, names) -> n <> "" ->
  win_contents f junk path t =
  Ok (filter (fun x => not_dots x && wanted t (w_attr f (c_str (path ++ "\" ++ x)))) (n :: names), 1).
Proof.
  intros f junk path t n names F Ne. unfold win_contents. change (path ++ "\*") with (win_combine path "*") in F. rewrite !F.
  destruct (String.eqb_spec n ""); [tauto|]. now rewrite entries_spec.
Qed.
Print Assumptions C87_listing.

Lemma c_string_done name rest : ~ occurs "000" name -> c_string_in (chars name ++ "000"%char :: rest)%list = Ok name.
Proof.
  unfold chars. induction name as [|c name IH]; simpl; auto. unfold occurs in *. simpl. intros N.
  destruct (Ascii.eqb_spec c "000") as [->|Ne]; [tauto|]. rewrite IH; tauto.
Qed.
Lemma c_string_out l : c_string_in l = UB <-> ~ In "000"%char l.
Proof.
  induction l as [|c l IH]; simpl; [tauto|]. destruct (Ascii.eqb_spec c "000") as [->|Ne]; [split; [discriminate|tauto]|].
  destruct (c_string_in l); simpl; split; try discriminate; try tauto; intros H; exfalso.
  all: destruct IH as (_ & IH); discriminate IH; tauto.
Qed.

(** A directory that cannot: the result is what the uninitialised buffer happens to hold - nothing, a name, or a read past the
    buffer's end. *)
Theorem C87_failed : forall f junk path t, w_find f (c_str (path ++ "\*")) = None -> junk <> [] ->
  (forall rest, junk = "000"%char :: rest -> win_contents f junk path t = Ok ([], 0)) /\
  (forall name rest, name <> "" -> ~ occurs "000" name -> junk = (chars name ++ "000"%char :: rest)%list ->
     win_contents f junk path t = Ok (if not_dots name && wanted t (w_attr f (c_str (path ++ "\" ++ name))) then [name] else [], 0)) /\
  (win_contents f junk path t = UB <-> ~ In "000"%char junk).
Proof.
  intros f junk path t F NE. unfold win_contents. change (path ++ "\*") with (win_combine path "*") in F. rewrite !F.
  split; [intros rest ->; auto|]. split.
  - intros name rest Ne N ->. rewrite c_string_done by auto. destruct name as [|c name]; [tauto|].
    unfold chars. cbn [list_ascii_of_string app]. destruct (Ascii.eqb_spec c "000") as [->|_]; [unfold occurs in N; simpl in N; tauto|].
    cbn [res_map]. now rewrite entry_spec.
  - destruct junk as [|c junk]; [tauto|]. rewrite <- (c_string_out (c :: junk)). simpl. destruct (Ascii.eqb c "000"); [split; discriminate|].
    destruct (c_string_in junk); simpl; split; auto; discriminate.
Qed.
Print Assumptions C87_failed.

(** * The executable's path *)

Lemma written_text p (junk : list ascii) : List.length junk = 1024 -> p <> "" ->
  win_executable junk (Some p) = first_chars 1023 p ++ String "000" (string_of_list_ascii (skipn (Nat.min 1023 (String.length p) + 1) junk)).
Proof.
  intros J Ne. unfold win_executable. destruct p as [|c0 p0]; [tauto|]. remember (String c0 p0) as p eqn:Ep. clear Ep Ne.
  unfold written, first_chars, chars. change (buffer_length - 1) with 1023.
  rewrite <- app_assoc, of_chars_app. f_equal. cbn [app string_of_list_ascii]. f_equal. f_equal. f_equal.
  rewrite app_length, firstn_length, length_chars. reflexivity.
Qed.

(** It always comes as 1024 characters: the path, as far as it fits, a NUL, and what the buffer held behind. *)
Theorem C87_executable : forall junk p, List.length junk = 1024 -> p <> "" ->
  win_executable junk (Some p) =
    first_chars 1023 p ++ String "000" (string_of_list_ascii (skipn (Nat.min 1023 (String.length p) + 1) junk)) /\
  String.length (win_executable junk (Some p)) = 1024 /\
  (~ occurs "000" p -> win_executable junk (Some p) <> p).
Proof.
  intros junk p J Ne. rewrite (written_text p junk J Ne). split; [reflexivity|]. split.
  - rewrite length_app_s. cbn [String.length]. unfold first_chars. rewrite !length_of_chars, firstn_length, length_chars, skipn_length, J. lia.
  - intros N E. apply N. rewrite <- E. apply occurs_app. right. unfold occurs. simpl. auto.
Qed.
Print Assumptions C87_executable.

(** The directory taken from it is the executable's iff none of the unwritten characters is a backslash. Otherwise it is the
    executable's own path, a NUL and more. *)
Theorem C87_directory : forall junk d e, List.length junk = 1024 -> String.length (d ++ "\" ++ e) < 1024 -> ~ occurs "\" e ->
  let p := d ++ "\" ++ e in
  let unwritten := skipn (String.length p + 1) junk in
  (~ In "\"%char unwritten -> win_base_directory (win_executable junk (Some p)) = d) /\
  (In "\"%char unwritten -> exists g, win_base_directory (win_executable junk (Some p)) = p ++ String "000" g).
Proof.
  intros junk d e J L N p unwritten. assert (p <> "") as Ne by (unfold p; destruct d; discriminate).
  rewrite (written_text p junk J Ne). fold p in L. rewrite Nat.min_r by lia. fold unwritten.
  assert (first_chars 1023 p = p) as ->.
  { unfold first_chars. rewrite firstn_all2 by (rewrite length_chars; lia). apply string_of_list_ascii_of_string. }
  split.
  - intros U. unfold p. rewrite app_assoc_s. change (("\" ++ e) ++ String "000" (string_of_list_ascii unwritten)) with
      (String "\" (e ++ String "000" (string_of_list_ascii unwritten))). apply wbase_split. rewrite occurs_app. intros [O|O]; [tauto|].
    unfold occurs in O. simpl in O. rewrite list_ascii_of_string_of_list_ascii in O. destruct O as [O|O]; [discriminate|tauto].
  - intros U. destruct (last_split "\" (string_of_list_ascii unwritten)) as [O|(a & b & E & O)].
    + unfold occurs in O. rewrite list_ascii_of_string_of_list_ascii in O. tauto.
    + exists a. rewrite E. change (String "000" (a ++ String "\" b)) with (String "000" a ++ String "\" b).
      rewrite <- app_assoc_s. apply wbase_split; auto.
Qed.
Print Assumptions C87_directory.

(** * The search for plugins *)

(** The extension is "dll" iff the name ends with ".dll". *)
Theorem C87_dll : forall d x, ~ occurs "\" x -> (win_file_extension (d ++ "\" ++ x) = "dll" <-> exists a, x = a ++ ".dll").
Proof.
  intros d x B. destruct (C87_extension (d ++ "\" ++ x)) as (K1 & K2).
  assert (win_filename (d ++ "\" ++ x) = x) as Fx by (apply wfilename_split; auto). rewrite Fx in *. split.
  - intros E. destruct (last_split "." x) as [N|(a & e & -> & N)]; [rewrite K1 in E by auto; discriminate|].
    exists a. rewrite (K2 a e eq_refl N) in E. now subst e.
  - intros (a & ->). apply (K2 a "dll"); auto. unfold occurs. simpl. intuition discriminate.
Qed.
Print Assumptions C87_dll.

(** From a search path without NUL: LoadLibrary gets the files of that directory named plugin_...dll that exist, in order. *)
Theorem C87_search : forall f junk d n names, ~ occurs "000" d -> w_find f (d ++ "\*") = Some (n, names) ->
  (forall x, In x (n :: names) -> x <> "" /\ ~ occurs "000" x /\ ~ occurs "\" x) ->
  win_opened f junk d = Ok (map (fun x => d ++ "\" ++ x) (filter (fun x =>
    not_dots x && wanted OtFile (w_attr f (d ++ "\" ++ x)) && w_exists f (d ++ "\" ++ x) &&
    String.eqb (win_file_extension (d ++ "\" ++ x)) "dll" && String.prefix "plugin_" x) (n :: names))).
Proof.
  intros f junk d n names Nd F X. unfold win_opened.
  rewrite (C87_listing f junk d OtFile n names).
  - cbn [res_map fst]. f_equal. remember (n :: names) as l eqn:El. clear El F. induction l as [|x l IH]; auto.
    assert (IH' := IH (fun y H => X y (or_intror H))). clear IH. destruct (X x (or_introl eq_refl)) as (X1 & X2 & X3).
    assert (c_str (d ++ "\" ++ x) = d ++ "\" ++ x) as C.
    { apply c_str_clean. rewrite occurs_app. intros [O|O]; [tauto|]. apply (occurs_app "000" "\" x) in O. destruct O as [O|O]; [|tauto].
      unfold occurs in O. simpl in O. destruct O as [O|[]]. discriminate. }
    cbn [filter]. rewrite C. destruct (not_dots x && wanted OtFile (w_attr f (d ++ "\" ++ x))) eqn:W; cbn [andb]; [|exact IH'].
    cbn [map filter]. unfold win_is_template at 1. unfold win_path_exists. unfold win_combine at 1 2 3. rewrite C.
    assert (win_filename (d ++ "\" ++ x) = x) as -> by (apply wfilename_split; auto).
    assert (forall s, String.eqb (substr_to 7 s) "plugin_" = String.prefix "plugin_" s) as P.
    { clear. intros s. unfold substr_to. destruct (String.prefix "plugin_" s) eqn:E.
      - apply String.prefix_correct in E. simpl String.length in E. rewrite E. reflexivity.
      - apply String.eqb_neq. intros H. assert (String.prefix "plugin_" s = true); [|congruence]. now apply String.prefix_correct. }
    rewrite P. destruct (w_exists f (d ++ "\" ++ x) && (win_file_extension (d ++ "\" ++ x) =? "dll")%string && String.prefix "plugin_" x); [|exact IH'].
    cbn [map]. rewrite IH'. f_equal. exact C.
  - rewrite c_str_clean; auto. rewrite occurs_app. intros [O|O]; [tauto|]. unfold occurs in O. simpl in O. intuition discriminate.
  - exact (proj1 (X n (or_introl eq_refl))).
Qed.
Print Assumptions C87_search.

(** With a stray backslash: the executable's path is searched instead, and LoadLibrary gets nothing but that path - nothing at
    all if, as it should, the search yields the executable's name and that is not a plugin's. *)
Theorem C87_stray : forall f junk p g, ~ occurs "000" p ->
  c_str (win_combine (p ++ String "000" g) "*") = p /\
  (forall l, win_opened f junk (p ++ String "000" g) = Ok l -> forall x, In x l -> x = p) /\
  (forall n, w_find f p = Some (n, []) -> n <> "" -> ~ occurs "\" n -> String.prefix "plugin_" n = false ->
     win_opened f junk (p ++ String "000" g) = Ok []).
Proof.
  intros f junk p g N.
  assert (forall r, c_str (win_combine (p ++ String "000" g) r) = p) as C.
  { intros r. unfold win_combine. rewrite app_assoc_s. cbn [append]. now apply c_str_cut. }
  split; [apply C|]. split.
  - intros l O x I. unfold win_opened in O. destruct (win_contents f junk _ OtFile) as [[r k]| | |]; try discriminate. cbn [res_map fst] in O.
    injection O as <-. apply in_map_iff in I. destruct I as (y & <- & I). apply filter_In in I. destruct I as (I & _).
    apply in_map_iff in I. destruct I as (z & <- & _). apply C.
  - intros n F Ne B P. unfold win_opened. rewrite (C87_listing f junk _ OtFile n []); auto.
    + cbn [res_map fst filter]. destruct (not_dots n && _); [|reflexivity]. cbn [map filter].
      assert (win_is_template f (win_combine (p ++ String "000" g) n) = false) as ->; [|reflexivity].
      unfold win_is_template. unfold win_combine at 3.
      assert (win_filename ((p ++ String "000" g) ++ "\" ++ n) = n) as -> by (apply wfilename_split; auto).
      assert (String.eqb (substr_to 7 n) "plugin_" = false) as ->; [|apply andb_false_r].
      apply String.eqb_neq. intros H. assert (String.prefix "plugin_" n = true); [|congruence]. now apply String.prefix_correct.
    + change "\*" with ("\" ++ "*"). fold (win_combine (p ++ String "000" g) "*"). now rewrite C.
Qed.
Print Assumptions C87_stray.

(** * The working directory *)

Theorem C87_working_directory : forall junk p, List.length junk = 1024 -> ~ occurs "000" p ->
  win_working_directory junk None = Ok "" /\
  (String.length p < 1024 -> win_working_directory junk (Some p) = Ok p) /\
  (String.length p >= 1024 -> (win_working_directory junk (Some p) = UB <-> ~ In "000"%char junk) /\
     forall q rest, ~ occurs "000" q -> junk = (chars q ++ "000"%char :: rest)%list -> win_working_directory junk (Some p) = Ok q).
Proof.
  intros junk p J N. split; [reflexivity|]. unfold win_working_directory, buffer_length. split.
  - intros L. apply Nat.ltb_lt in L. rewrite L. unfold written. rewrite <- app_assoc. cbn [app]. now apply c_string_done.
  - intros L. apply Nat.ltb_ge in L. rewrite L. split; [apply c_string_out|]. intros q rest Nq ->. now apply c_string_done.
Qed.
Print Assumptions C87_working_directory.

Theorem C87_working_exact : forall junk p, List.length junk = 1024 -> ~ occurs "000" p ->
  (win_working_directory junk (Some p) = Ok p <-> String.length p < 1024).
Proof.
  intros junk p J N. destruct (C87_working_directory junk p J N) as (_ & K & _). split; auto. intros E.
  destruct (Nat.lt_ge_cases (String.length p) 1024) as [L|L]; auto. exfalso. unfold win_working_directory, buffer_length in E.
  assert (String.length p <? 1024 = false)%nat as B by (now apply Nat.ltb_ge). rewrite B in E. rewrite <- J in L. clear - E L.
  assert (forall l q, c_string_in l = Ok q -> String.length q < List.length l) as X.
  { clear. induction l as [|c l IH]; intros q E; simpl in *; [discriminate|]. destruct (Ascii.eqb c "000"); [injection E as <-; simpl; lia|].
    destruct (c_string_in l) as [r| | |]; try discriminate. injection E as <-. simpl. specialize (IH r eq_refl). lia. }
  specialize (X junk p E). lia.
Qed.
Print Assumptions C87_working_exact.

(** The search paths, if all goes well. *)
Theorem C87_search_paths : forall junk1 junk2 d e w,
  List.length junk1 = 1024 -> List.length junk2 = 1024 -> String.length (d ++ "\" ++ e) < 1024 -> String.length w < 1024 ->
  ~ occurs "\" e -> ~ occurs "000" w -> ~ In "\"%char (skipn (String.length (d ++ "\" ++ e) + 1) junk1) ->
  win_search_paths junk1 junk2 (Some (d ++ "\" ++ e)) (Some w) = Ok (if String.eqb w d then [d; w ++ "\lib"] else [d; w; w ++ "\lib"]).
Proof.
  intros junk1 junk2 d e w J1 J2 L1 L2 E W U. unfold win_search_paths.
  rewrite (proj1 (C87_directory junk1 d e J1 L1 E) U).
  rewrite (proj1 (proj2 (C87_working_directory junk2 w J2 W)) L2). cbn [res_map]. unfold win_combine. change ("\" ++ "lib") with "\lib".
  now destruct (String.eqb w d).
Qed.
Print Assumptions C87_search_paths.

(** * Cases *)

Definition w_ex : wfs := mkWfs
  (fun p => if String.eqb p "C:\lp\plugin_a.dll" then Some 32%N else if String.eqb p "C:\lp\sub" then Some 16%N else
            if String.eqb p "C:\lp\lp.exe" then Some 32%N else None)
  (fun p => String.eqb p "C:\lp\plugin_a.dll" || String.eqb p "C:\lp\lp.exe")
  (fun p => if String.eqb p "C:\lp\*" then Some (".", [".."; "lp.exe"; "plugin_a.dll"; "sub"])
            else if String.eqb p "C:\lp\lp.exe" then Some ("lp.exe", []) else None).
Definition zeros (n : nat) : list ascii := repeat "000"%char n.

Example C87_case : win_opened w_ex [] "C:\lp" = Ok ["C:\lp\plugin_a.dll"] /\
  win_contents w_ex [] "C:\lp" OtDirectory = Ok (["sub"], 1) /\ win_contents w_ex [] "C:\lp" OtFile = Ok (["lp.exe"; "plugin_a.dll"], 1) /\
  win_search_paths (zeros 1024) (zeros 1024) (Some "C:\lp\lp.exe") (Some "D:\") = Ok ["C:\lp"; "D:\"; "D:\\lib"] /\
  win_filename "C:/lp/plugin_a.dll" = "" /\ win_file_extension "C:\lp\plugin_a.b.dll" = "dll".
Proof. vm_compute. auto 7. Qed.

(** A missing directory, searched for directories after a name was left in the memory: the name is listed. With a backslash in
    the buffer's unwritten part the plugin beside the executable is not found. *)
Example C87_case_junk :
  win_contents w_ex (chars "old" ++ zeros 257) "C:\none" OtDirectory = Ok (["old"], 0) /\
  win_contents w_ex (zeros 260) "C:\none" OtDirectory = Ok ([], 0) /\
  let junk := (zeros 1000 ++ chars "x\y" ++ zeros 21)%list in
  List.length junk = 1024 /\ In "\"%char (skipn (String.length "C:\lp\lp.exe" + 1) junk) /\
  c_str (win_base_directory (win_executable junk (Some "C:\lp\lp.exe"))) = "C:\lp\lp.exe" /\
  win_opened w_ex [] (win_base_directory (win_executable junk (Some "C:\lp\lp.exe"))) = Ok [].
Proof.
  split; [vm_compute; reflexivity|]. split; [vm_compute; reflexivity|]. intros junk. split; [vm_compute; reflexivity|].
  split; [|split; vm_compute; reflexivity].
  unfold junk. rewrite skipn_app. apply in_or_app. right. vm_compute. auto.
Qed.

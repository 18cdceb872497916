(** C52-C55: path helpers, directory listing, executable path, comparison of configurations. *)
From Coq Require Import String Ascii List Arith Bool Lia.
From Verif Require Import Prelude FilesystemModel.
Import ListNotations.
Open Scope list_scope.
Open Scope string_scope.

(** * Specification *)

(** The character occurs in the string. *)
Definition occurs (c : ascii) (s : string) : Prop := In c (list_ascii_of_string s).

(** The first [n] characters, and the part before the first NUL. *)
Definition first_chars (n : nat) (s : string) : string := string_of_list_ascii (firstn n (list_ascii_of_string s)).

(** [a] is a prefix of [b]. *)
Definition prefix_of (a b : list string) : Prop := exists c, (a ++ c)%list = b.

(** * Lemmas *)

Lemma app_nil_s (s : string) : s ++ "" = s.
Proof. induction s; simpl; congruence. Qed.
Lemma app_assoc_s (a b c : string) : (a ++ b) ++ c = a ++ b ++ c.
Proof. induction a; simpl; congruence. Qed.
Lemma length_app_s a b : String.length (a ++ b) = String.length a + String.length b.
Proof. induction a; simpl; auto. Qed.
Lemma chars_app a b : list_ascii_of_string (a ++ b) = (list_ascii_of_string a ++ list_ascii_of_string b)%list.
Proof. induction a; simpl; congruence. Qed.

Lemma substring_full s : substring 0 (String.length s) s = s.
Proof. induction s; simpl; congruence. Qed.
Lemma substring_prefix a b : substring 0 (String.length a) (a ++ b) = a.
Proof. induction a; simpl; [destruct b; reflexivity|congruence]. Qed.
Lemma substring_suffix a b n : substring (String.length a) n (a ++ b) = substring 0 n b.
Proof. induction a; simpl; auto. Qed.
Lemma substr_from_app a c b : substr_from (String.length a + 1) (a ++ String c b) = b.
Proof.
  unfold substr_from. rewrite length_app_s. simpl. replace (String.length a + S (String.length b) - (String.length a + 1)) with (String.length b) by lia.
  replace (a ++ String c b) with ((a ++ String c "") ++ b) by now rewrite app_assoc_s.
  replace (String.length a + 1) with (String.length (a ++ String c "")) by (rewrite length_app_s; reflexivity).
  rewrite substring_suffix. apply substring_full.
Qed.

Lemma find_last_none c s : ~ occurs c s -> find_last c s = None.
Proof.
  induction s as [|x s IH]; simpl; auto. intros H. unfold occurs in *. simpl in H.
  rewrite IH by tauto. destruct (Ascii.eqb_spec x c); tauto.
Qed.
Lemma find_last_some c a b : ~ occurs c b -> find_last c (a ++ String c b) = Some (String.length a).
Proof.
  intros H. induction a as [|x a IH]; simpl.
  - rewrite find_last_none by auto. now rewrite Ascii.eqb_refl.
  - now rewrite IH.
Qed.
(** A string is free of [c], or splits at its last occurrence. *)
Lemma last_split c s : ~ occurs c s \/ exists a b, s = a ++ String c b /\ ~ occurs c b.
Proof.
  induction s as [|x s IH]; [left; simpl; tauto|]. destruct IH as [N|(a & b & -> & N)].
  - destruct (Ascii.eqb_spec x c) as [->|Ne].
    + right. exists "", s. auto.
    + left. unfold occurs in *. simpl. tauto.
  - right. exists (String x a), b. auto.
Qed.

Lemma filename_split a b : ~ occurs "/" b -> get_filename (a ++ String "/" b) = b.
Proof.
  intros H. unfold get_filename. rewrite find_last_some by auto. rewrite substr_from_app, length_app_s. simpl.
  destruct (Nat.ltb_spec (String.length a + 1) (String.length a + S (String.length b))); auto.
  destruct b; auto. simpl in *. lia.
Qed.
Lemma base_split a b : ~ occurs "/" b -> get_base_directory (a ++ String "/" b) = a.
Proof. intros H. unfold get_base_directory. rewrite find_last_some by auto. apply substring_prefix. Qed.

(** * C52 *)

Theorem C52_combine : forall r f, ~ occurs "/" f ->
  get_filename (combine_paths r f) = f /\ get_base_directory (combine_paths r f) = r.
Proof. intros r f H. unfold combine_paths. simpl. split; [apply filename_split|apply base_split]; auto. Qed.
Print Assumptions C52_combine.

Theorem C52_no_filename : forall s, (~ occurs "/" s -> get_filename s = "" /\ get_base_directory s = "") /\ get_filename (s ++ "/") = "".
Proof.
  intros s. split.
  - intros H. unfold get_filename, get_base_directory. now rewrite find_last_none.
  - apply (filename_split s ""). simpl. tauto.
Qed.
Print Assumptions C52_no_filename.

Theorem C52_recompose : forall p, occurs "/" p -> get_base_directory p ++ "/" ++ get_filename p = p /\ ~ occurs "/" (get_filename p).
Proof.
  intros p H. destruct (last_split "/" p) as [N|(a & b & -> & N)]; [tauto|]. now rewrite base_split, filename_split.
Qed.
Print Assumptions C52_recompose.

(** The extension: what follows the last dot of the file name. *)
Theorem C52_extension : forall p,
  (~ occurs "." (get_filename p) -> get_file_extension p = "") /\
  (forall a e, get_filename p = a ++ "." ++ e -> ~ occurs "." e -> get_file_extension p = e) /\
  (occurs "." (get_filename p) -> exists a, get_filename p = a ++ "." ++ get_file_extension p /\ ~ occurs "." (get_file_extension p)).
Proof.
  intros p. unfold get_file_extension. remember (get_filename p) as f eqn:Ef. clear Ef p.
  assert (forall a e, f = a ++ "." ++ e -> ~ occurs "." e ->
    match f with "" => "" | _ => match find_last "." f with Some pos => substr_from (pos + 1) f | None => "" end end = e) as K.
  { intros a e -> N. simpl. rewrite find_last_some, substr_from_app by auto. now destruct a. }
  split; [|split; auto].
  - intros N. rewrite find_last_none by auto. now destruct f.
  - intros O. destruct (last_split "." f) as [N|(a & e & E & N)]; [tauto|]. exists a. now rewrite (K a e E N).
Qed.
Print Assumptions C52_extension.

Example C52_case : get_filename "/usr/lib/libplugin_x.so.so" = "libplugin_x.so.so" /\ get_file_extension "/usr/lib/libplugin_x.so.so" = "so" /\
  get_base_directory "/usr/lib/libplugin_x.so" = "/usr/lib" /\ get_filename "libplugin_x.so" = "" /\ get_file_extension "/a.b/c" = "".
Proof. vm_compute. auto. Qed.

(** * C53 *)

Lemma listing_helper : forall f path t names, t <> OtDirectory -> f_dir f (c_str path) = Some names ->
  get_directory_contents f path t = filter (fun n => is_file f (combine_paths path n) || is_directory f (combine_paths path n)) names.
Proof.
  intros f path t names T D. unfold get_directory_contents. rewrite D.
  assert (negb (Nat.land (ot_int t) (ot_int OtFile) =? 0)%nat = true) as -> by (destruct t; auto; congruence).
  cbn [andb]. clear D. induction names as [|n names IH]; simpl; auto. rewrite IH.
  assert (is_file f (combine_paths path n) = true -> is_directory f (combine_paths path n) = false) as X.
  { unfold is_file, is_directory. destruct (f_stat f _) as [[]|]; auto; discriminate. }
  destruct (is_file f (combine_paths path n)), (is_directory f (combine_paths path n)); simpl; auto. discriminate (X eq_refl).
Qed.

(** With File or Any: every entry that is a regular file or a directory, in order, once. *)
Theorem C53_listing : forall f path t names, t <> OtDirectory -> f_dir f (c_str path) = Some names ->
  get_directory_contents f path t = filter (fun n => match f_stat f (c_str (combine_paths path n)) with Some FReg | Some FDir => true | _ => false end) names.
Proof.
  intros f path t names T D. rewrite (listing_helper f path t names T D). apply filter_ext. intros n. unfold is_file, is_directory. destruct (f_stat f _) as [[]|]; reflexivity.
Qed.
Print Assumptions C53_listing.

(** With Directory: nothing at all. *)
Theorem C53_directory_filter : forall f path, get_directory_contents f path OtDirectory = [].
Proof.
  intros f path. unfold get_directory_contents. destruct (f_dir f (c_str path)) as [names|]; auto.
  induction names; simpl; auto.
Qed.
Print Assumptions C53_directory_filter.

(** A directory that cannot be opened: nothing. *)
Theorem C53_unreadable : forall f path t, f_dir f (c_str path) = None -> get_directory_contents f path t = [].
Proof. intros f path t H. unfold get_directory_contents. now rewrite H. Qed.
Print Assumptions C53_unreadable.

(** What one would expect of the filter - entries of the asked types only - fails both ways. *)
Theorem C53_filter_refuted : exists f path,
  (exists n, In n (get_directory_contents f path OtFile) /\ is_directory f (combine_paths path n) = true) /\
  (exists names n, f_dir f path = Some names /\ In n names /\ is_directory f (combine_paths path n) = true /\ ~ In n (get_directory_contents f path OtDirectory)).
Proof.
  exists (mkFs (fun _ => Some FDir) (fun _ => true) (fun _ => Some ["."; ".."; "sub"])), "/lib".
  split; [exists "."; vm_compute; auto|]. exists ["."; ".."; "sub"], "sub". vm_compute. auto 6.
Qed.
Print Assumptions C53_filter_refuted.

Definition ex_fs : fs := mkFs
  (fun p => if String.eqb p "/lib/a.so" then Some FReg else if String.eqb p "/lib/fifo" then Some FOther else Some FDir)
  (fun p => String.eqb p "/lib/a.so") (fun p => if String.eqb p "/lib" then Some ["."; ".."; "fifo"; "a.so"] else None).
Example C53_case : get_directory_contents ex_fs "/lib" OtAny = ["."; ".."; "a.so"] /\
  f_dir ex_fs (c_str "/lib") = Some ["."; ".."; "fifo"; "a.so"] /\ f_dir ex_fs (c_str "/none") = None.
Proof. vm_compute. auto. Qed.

(** * C54 *)

Lemma read_done l : forall rest, read_c_string (map Some l ++ Some "000"%char :: rest)%list = Ok (c_str (string_of_list_ascii l)).
Proof.
  induction l as [|c l IH]; intros rest; simpl; auto. destruct (Ascii.eqb c "000"); auto. now rewrite IH.
Qed.
Lemma read_snoc (l : list (option ascii)) x : forall rest : list (option ascii), list_set (List.length l) x (l ++ rest)%list = (l ++ match rest with [] => [] | _ :: r => x :: r end)%list.
Proof. induction l as [|y l IH]; intros [|r rest]; simpl; auto; now rewrite IH. Qed.

Theorem C54_target : forall t, get_path_of_running_executable (Some t) = Ok (c_str (first_chars 1023 t)).
Proof.
  intros t. unfold get_path_of_running_executable, first_chars, chars. remember (list_ascii_of_string t) as l eqn:El. clear El t.
  destruct (Nat.le_gt_cases (List.length l) (buffer_length - 1)) as [H|H].
  - rewrite firstn_all2 by (unfold buffer_length in *; lia). rewrite Nat.min_l by auto. unfold fill.
    replace (List.length l) with (List.length (map (@Some ascii) l)) at 1 by apply map_length. rewrite read_snoc.
    destruct (repeat None (buffer_length - List.length l)) as [|r rest] eqn:E.
    { apply (f_equal (@List.length _)) in E. rewrite repeat_length in E. unfold buffer_length in *. simpl List.length in E. lia. }
    rewrite read_done, firstn_all2 by (unfold buffer_length in *; lia). reflexivity.
  - assert (exists a x b, l = (a ++ x :: b)%list /\ List.length a = buffer_length - 1) as (a & x & b & -> & La).
    { exists (firstn (buffer_length - 1) l). destruct (skipn (buffer_length - 1) l) as [|x b] eqn:E.
      - apply (f_equal (@List.length _)) in E. rewrite skipn_length in E. simpl List.length in E. lia.
      - exists x, b. rewrite <- E, firstn_skipn, firstn_length, Nat.min_l by lia. auto. }
    assert (firstn buffer_length (a ++ x :: b) = (a ++ [x])%list) as ->.
    { replace buffer_length with (List.length a + 1) by (rewrite La; unfold buffer_length; lia). rewrite firstn_app_2. reflexivity. }
    rewrite app_length. simpl List.length. replace (Nat.min (List.length a + 1) (buffer_length - 1)) with (List.length a) by (unfold buffer_length in *; lia).
    unfold fill. rewrite app_length, map_app, <- app_assoc. simpl List.length. cbn [map app].
    replace (List.length a) with (List.length (map (@Some ascii) a)) at 1 by apply map_length. rewrite read_snoc. rewrite read_done.
    f_equal. f_equal. f_equal. change 1023 with (buffer_length - 1). rewrite <- La, firstn_app, Nat.sub_diag, firstn_all. simpl. now rewrite app_nil_r.
Qed.
Print Assumptions C54_target.

(** In particular: *)
Theorem C54_whole : forall t, String.length t < 1024 -> ~ occurs "000" t -> get_path_of_running_executable (Some t) = Ok t.
Proof.
  intros t H N. rewrite C54_target. f_equal. unfold first_chars.
  assert (forall s, List.length (list_ascii_of_string s) = String.length s) as Ls by (induction s; simpl; auto).
  rewrite firstn_all2 by (rewrite Ls; lia). rewrite string_of_list_ascii_of_string. clear H Ls.
  induction t as [|c t IH]; simpl; auto. unfold occurs in *. simpl in N. destruct (Ascii.eqb_spec c "000") as [->|Ne]; [tauto|].
  rewrite IH; tauto.
Qed.
Print Assumptions C54_whole.

(** The buffer is read uninitialised exactly when readlink fails. *)
Theorem C54_undefined : forall target, get_path_of_running_executable target = UB <-> target = None.
Proof. intros [t|]; [rewrite C54_target; split; discriminate|]. split; auto. Qed.
Print Assumptions C54_undefined.

Example C54_case : get_path_of_running_executable (Some "/usr/bin/lamppost") = Ok "/usr/bin/lamppost" /\
  exists t, String.length t = 1030 /\ exists p, get_path_of_running_executable (Some t) = Ok p /\ String.length p = 1023.
Proof.
  split; [vm_compute; reflexivity|]. exists (string_of_list_ascii (repeat "a"%char 1030)). split; [vm_compute; reflexivity|].
  eexists. split; [vm_compute; reflexivity|vm_compute; reflexivity].
Qed.

(** * C55 *)

Lemma bus_eqb_eq a b : bus_eqb a b = true <-> a = b.
Proof.
  destruct a as [x|], b as [y|]; simpl; try (split; (discriminate || auto)); auto; try tauto.
  - intros H. apply Nat.eqb_eq in H. congruence.
  - injection 1 as ->. apply Nat.eqb_refl.
Qed.

Theorem C55_equal : forall a b, pm_conf_eq a b = Ok true <-> pc_bus a = pc_bus b /\ prefix_of (pc_paths a) (pc_paths b).
Proof.
  intros [pa ba] [pb bb]. unfold pm_conf_eq. simpl. destruct (bus_eqb ba bb) eqn:E.
  - apply bus_eqb_eq in E. subst bb. assert (equal3 pa pb = Ok true <-> prefix_of pa pb) as ->; [|tauto].
    revert pb. induction pa as [|x pa IH]; intros pb; simpl.
    + split; [exists pb; auto|auto].
    + destruct pb as [|y pb]; [split; [discriminate|intros (c & F); discriminate]|].
      destruct (String.eqb_spec x y) as [->|Ne].
      * rewrite IH. split; intros (c & F); exists c; simpl in *; congruence.
      * split; [discriminate|]. intros (c & F). simpl in F. congruence.
  - split; [discriminate|]. intros (F & _). apply bus_eqb_eq in F. congruence.
Qed.
Print Assumptions C55_equal.

(** "Different": another bus, or another path within the common length. *)
Theorem C55_different : forall a b, pm_conf_eq a b = Ok false <->
  pc_bus a <> pc_bus b \/ exists i x y, nth_error (pc_paths a) i = Some x /\ nth_error (pc_paths b) i = Some y /\ x <> y.
Proof.
  intros [pa ba] [pb bb]. unfold pm_conf_eq. simpl. destruct (bus_eqb ba bb) eqn:E.
  - apply bus_eqb_eq in E. subst bb.
    assert (equal3 pa pb = Ok false <-> exists i x y, nth_error pa i = Some x /\ nth_error pb i = Some y /\ x <> y) as ->; [|tauto].
    revert pb. induction pa as [|x pa IH]; intros pb; simpl.
    + split; [discriminate|]. intros (i & x & y & H & _). now destruct i.
    + destruct pb as [|y pb]; [split; [discriminate|intros (i & u & v & _ & H & _); now destruct i]|].
      destruct (String.eqb_spec x y) as [->|Ne].
      * rewrite IH. split; intros (i & u & v & H1 & H2 & H3).
        -- exists (S i), u, v. auto.
        -- destruct i as [|i]; simpl in *; [congruence|]. exists i, u, v. auto.
      * split; auto. intros _. exists 0, x, y. auto.
  - split; auto. intros _. left. intros F. apply bus_eqb_eq in F. congruence.
Qed.
Print Assumptions C55_different.

(** Out of bounds: the same bus, and the right-hand paths are a proper prefix of the left-hand. *)
Theorem C55_undefined : forall a b, pm_conf_eq a b = UB <->
  pc_bus a = pc_bus b /\ exists c cs, pc_paths a = (pc_paths b ++ c :: cs)%list.
Proof.
  intros [pa ba] [pb bb]. unfold pm_conf_eq. simpl. destruct (bus_eqb ba bb) eqn:E.
  - apply bus_eqb_eq in E. subst bb. assert (equal3 pa pb = UB <-> exists c cs, pa = (pb ++ c :: cs)%list) as ->; [|tauto].
    revert pb. induction pa as [|x pa IH]; intros pb; simpl.
    + split; [discriminate|]. intros (c & cs & F). destruct pb; discriminate.
    + destruct pb as [|y pb]; [split; auto; intros _; exists x, pa; reflexivity|]. destruct (String.eqb_spec x y) as [->|Ne].
      * rewrite IH. split; intros (c & cs & F); exists c, cs; simpl in *; congruence.
      * split; [discriminate|]. intros (c & cs & F). simpl in F. congruence.
  - split; [discriminate|]. intros (F & _). apply bus_eqb_eq in F. congruence.
Qed.
Print Assumptions C55_undefined.

Theorem C55_not_symmetric : exists a b, pm_conf_eq a b = Ok true /\ pm_conf_eq b a = UB.
Proof. exists (mkPmConf [] None), (mkPmConf ["/lib"] None). auto. Qed.
Print Assumptions C55_not_symmetric.

(** Configuration files do not matter. *)
Theorem C55_files_ignored : forall p q f1 f2 g1 g2,
  lp_conf_eq (mkLpConf p f1) (mkLpConf q g1) = lp_conf_eq (mkLpConf p f2) (mkLpConf q g2) /\
  lp_conf_eq (mkLpConf p f1) (mkLpConf q g1) = pm_conf_eq p q.
Proof. auto. Qed.
Print Assumptions C55_files_ignored.

(** operator!= is the opposite of operator== with the operands in the same order, and undefined with it. *)
Theorem C55_unequal : forall a b,
  (forall x, lp_conf_eq a b = Ok x <-> lp_conf_ne a b = Ok (negb x)) /\ (lp_conf_eq a b = UB <-> lp_conf_ne a b = UB) /\
  (forall x, pm_conf_eq (lc_pm a) (lc_pm b) = Ok x <-> pm_conf_ne (lc_pm a) (lc_pm b) = Ok (negb x)) /\
  (pm_conf_eq (lc_pm a) (lc_pm b) = UB <-> pm_conf_ne (lc_pm a) (lc_pm b) = UB).
Proof.
  intros a b. unfold lp_conf_ne, pm_conf_ne, lp_conf_eq. destruct (pm_conf_eq (lc_pm a) (lc_pm b)) as [x|e| |]; simpl;
    (split; [|split; [|split]]); try (split; intros; congruence);
    intros y; split; intros H; try discriminate; injection H as H; f_equal; destruct x, y; auto; discriminate.
Qed.
Print Assumptions C55_unequal.

Example C55_case : pm_conf_eq (mkPmConf ["a"] (Some 1)) (mkPmConf ["a"; "b"] (Some 1)) = Ok true /\
  pm_conf_eq (mkPmConf ["a"; "c"] (Some 1)) (mkPmConf ["a"; "b"] (Some 1)) = Ok false /\
  pm_conf_eq (mkPmConf ["a"; "b"] (Some 1)) (mkPmConf ["a"] (Some 1)) = UB /\
  pm_conf_eq (mkPmConf ["a"; "b"] (Some 1)) (mkPmConf ["a"] (Some 2)) = Ok false.
Proof. vm_compute. auto. Qed.

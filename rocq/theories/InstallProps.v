(** C88: installing and removing the Windows service, and what the control manager starts then. *)
From Coq Require Import String Ascii List Arith Bool Lia.
From Verif Require Import Prelude FilesystemModel FilesystemProps InstallModel.
Import ListNotations.
Open Scope list_scope.
Open Scope string_scope.

(** * Specification *)

Definition handle_eqb (a b : handle) : bool :=
  match a, b with HManager, HManager | HService, HService | HSource, HSource => true | _, _ => false end.

(** Handles are closed in the reverse order of opening, each once, and none is left open. *)
Fixpoint nested (open : list handle) (es : list ievent) : bool :=
  match es with
  | [] => match open with [] => true | _ => false end
  | IOpen h :: es' => negb (existsb (handle_eqb h) open) && nested (h :: open) es'
  | IClose h :: es' => match open with h' :: open' => handle_eqb h h' && nested open' es' | [] => false end
  | _ :: es' => nested open es'
  end.

(** Two strings that differ at most in the case of letters. *)
Definition letter_case (c d : ascii) : Prop :=
  c = d \/ (65 <= nat_of_ascii c <= 90 /\ nat_of_ascii d = nat_of_ascii c + 32) \/
  (65 <= nat_of_ascii d <= 90 /\ nat_of_ascii c = nat_of_ascii d + 32).
Definition same_but_case (s t : string) : Prop := Forall2 letter_case (list_ascii_of_string s) (list_ascii_of_string t).

Definition count (x : ievent -> bool) (es : list ievent) : nat := List.length (filter x es).
Definition says_installed (e : ievent) : bool := match e with ISay SayInstalled => true | _ => false end.
Definition says_deleted (e : ievent) : bool := match e with ISay SayDeleted => true | _ => false end.

(** The service is installed and not about to go. *)
Definition installed (d : scm) : Prop := exists e, d service_name = Some e /\ en_marked e = false.

(** * The command line *)

Lemma lower_same c d : lower c = lower d <-> letter_case c d.
Proof.
  unfold letter_case, lower.
  assert (forall n, n < 256 -> nat_of_ascii (ascii_of_nat n) = n) as A by (intros; now apply nat_ascii_embedding).
  assert (forall x : ascii, nat_of_ascii x < 256) as B by apply nat_ascii_bounded.
  pose proof (B c) as Bc. pose proof (B d) as Bd. split.
  - intros E. apply (f_equal nat_of_ascii) in E.
    destruct ((65 <=? nat_of_ascii c) && (nat_of_ascii c <=? 90))%nat eqn:Ec, ((65 <=? nat_of_ascii d) && (nat_of_ascii d <=? 90))%nat eqn:Ed;
      repeat rewrite andb_true_iff in *; repeat rewrite Nat.leb_le in *.
    + rewrite !A in E by lia. left. rewrite <- (ascii_nat_embedding c), <- (ascii_nat_embedding d). f_equal. lia.
    + rewrite A in E by lia. right. left. lia.
    + rewrite A in E by lia. right. right. lia.
    + left. rewrite <- (ascii_nat_embedding c), <- (ascii_nat_embedding d). now f_equal.
  - intros [->|[(L & E)|(L & E)]]; auto.
    + assert ((65 <=? nat_of_ascii c) && (nat_of_ascii c <=? 90) = true)%nat as -> by (apply andb_true_iff; rewrite !Nat.leb_le; lia).
      assert ((65 <=? nat_of_ascii d) && (nat_of_ascii d <=? 90) = false)%nat as -> by (apply andb_false_iff; rewrite !Nat.leb_gt; lia).
      rewrite <- E. apply ascii_nat_embedding.
    + assert ((65 <=? nat_of_ascii d) && (nat_of_ascii d <=? 90) = true)%nat as -> by (apply andb_true_iff; rewrite !Nat.leb_le; lia).
      assert ((65 <=? nat_of_ascii c) && (nat_of_ascii c <=? 90) = false)%nat as -> by (apply andb_false_iff; rewrite !Nat.leb_gt; lia).
      rewrite <- E. symmetry. apply ascii_nat_embedding.
Qed.
Lemma lstrcmpi_same a : forall b, lstrcmpi_eq a b = true <-> same_but_case a b.
Proof.
  unfold same_but_case. induction a as [|x a IH]; intros [|y b]; simpl; split; intros H; try discriminate; auto; try (inversion H; fail).
  - apply andb_true_iff in H. destruct H as (H1 & H2). constructor; [apply lower_same; now apply Ascii.eqb_eq|now apply IH].
  - inversion H as [|? ? ? ? H1 H2]; subst. apply andb_true_iff. split; [apply Ascii.eqb_eq; now apply lower_same|now apply IH].
Qed.

Lemma case_length a b : same_but_case a b -> String.length a = String.length b.
Proof. unfold same_but_case. revert b. induction a as [|x a IH]; intros [|y b] H; inversion H; subst; simpl; auto. Qed.

(** The first argument decides, in any case of letters; the others are ignored. Anything else - a leading dash, say - starts the
    dispatcher. *)
Theorem C88_command : forall prog x more a d,
  (same_but_case x "install" -> tmain (prog :: x :: more) a d = Ok (or_terminate d (install a d))) /\
  (same_but_case x "uninstall" -> tmain (prog :: x :: more) a d = Ok (or_terminate d (uninstall a d))) /\
  (~ same_but_case x "install" -> ~ same_but_case x "uninstall" -> tmain (prog :: x :: more) a d = tmain [prog] a d) /\
  (exists es, tmain [prog] a d = Ok (Exited, d, es) /\ (In IServe es <-> an_dispatch a = true) /\
              (In IReport es <-> an_dispatch a = false /\ an_source a = true)).
Proof.
  intros prog x more a d. unfold tmain. rewrite <- !lstrcmpi_same. split; [|split; [|split]].
  - now intros ->.
  - intros E. rewrite E. destruct (lstrcmpi_eq x "install") eqn:E1; auto. exfalso.
    apply lstrcmpi_same, case_length in E, E1. simpl in E, E1. congruence.
  - intros N1 N2. apply not_true_is_false in N1, N2. now rewrite N1, N2.
  - eexists. split; [reflexivity|]. unfold report_event. destruct (an_dispatch a), (an_source a); simpl; split; split; intros H; intuition discriminate.
Qed.
Print Assumptions C88_command.

(** Out of bounds exactly without any argument at all, not even the program's name. *)
Theorem C88_undefined : forall argv a d, tmain argv a d = UB <-> argv = [].
Proof.
  intros [|p [|x more]] a d; simpl; split; try discriminate; auto.
  destruct (lstrcmpi_eq x "install"), (lstrcmpi_eq x "uninstall"); discriminate.
Qed.
Print Assumptions C88_undefined.

(** * Handles *)

Theorem C88_handles : forall argv a d en d' es, tmain argv a d = Ok (en, d', es) -> nested [] es = true.
Proof.
  intros argv a d en d' es E.
  assert (nested [] (if an_dispatch a then [IServe] else report_event a) = true) as S.
  { unfold report_event. destruct (an_dispatch a), (an_source a); reflexivity. }
  assert (forall r, (forall d1 e1, r = Some (d1, e1) -> nested [] e1 = true) -> nested [] (snd (or_terminate d r)) = true) as T.
  { intros [[d1 e1]|] H; simpl; auto. eapply H. reflexivity. }
  assert (nested [] (snd (or_terminate d (install a d))) = true) as TI.
  { apply T. unfold install. intros d1 e1. destruct (an_module a); [|discriminate]. destruct (an_manager a); [|discriminate].
    destruct (d service_name), (an_create a); injection 1 as <- <-; reflexivity. }
  assert (nested [] (snd (or_terminate d (uninstall a d))) = true) as TU.
  { apply T. unfold uninstall. intros d1 e1. destruct (an_manager a); [|discriminate].
    destruct (d service_name) as [e|]; [|injection 1 as <- <-; reflexivity].
    destruct (an_open a); [|injection 1 as <- <-; reflexivity]. destruct (an_delete a && negb (en_marked e)); injection 1 as <- <-; reflexivity. }
  unfold tmain in E. destruct argv as [|p [|x more]]; [discriminate|injection E as <- <- <-; exact S|].
  destruct (lstrcmpi_eq x "install"); [|destruct (lstrcmpi_eq x "uninstall")].
  - injection E as E. rewrite E in TI. exact TI.
  - injection E as E. rewrite E in TU. exact TU.
  - injection E as <- <- <-. exact S.
Qed.
Print Assumptions C88_handles.

(** An exception leaves the calls exactly if the module has no path (Install) or the manager cannot be opened, before anything
    was opened, changed or printed. *)
Theorem C88_throws : forall a d,
  (install a d = None <-> an_module a = None \/ an_manager a = false) /\ (uninstall a d = None <-> an_manager a = false) /\
  (forall prog x more d' es, tmain (prog :: x :: more) a d = Ok (Terminated, d', es) <->
     d' = d /\ es = [] /\ (same_but_case x "install" /\ install a d = None \/ same_but_case x "uninstall" /\ uninstall a d = None)).
Proof.
  intros a d. unfold install, uninstall. split; [|split].
  - destruct (an_module a), (an_manager a), (d service_name), (an_create a); intuition discriminate.
  - destruct (an_manager a); [|intuition]. destruct (d service_name) as [e|]; [|intuition discriminate].
    destruct (an_open a); [|intuition discriminate]. destruct (an_delete a && negb (en_marked e)); intuition discriminate.
  - intros prog x more d' es. fold (install a d) (uninstall a d). destruct (C88_command prog x more a d) as (K1 & K2 & K3 & (es0 & K4 & _)).
    assert (forall r, Ok (or_terminate d r) = Ok (Terminated, d', es) <-> d' = d /\ es = [] /\ r = None) as T.
    { intros [[d1 e1]|]; simpl; split; try (intros H; discriminate H); [intros (_ & _ & H); discriminate H| |].
      - intros H. injection H as <- <-. auto.
      - intros (-> & -> & _). reflexivity. }
    assert (same_but_case x "install" -> same_but_case x "uninstall" -> False) as X.
    { intros A B. apply case_length in A, B. simpl in A, B. congruence. }
    destruct (lstrcmpi_eq x "install") eqn:E1; [apply lstrcmpi_same in E1; rewrite K1, T by auto; tauto|].
    assert (~ same_but_case x "install") as N1 by (rewrite <- lstrcmpi_same; congruence).
    destruct (lstrcmpi_eq x "uninstall") eqn:E2; [apply lstrcmpi_same in E2; rewrite K2, T by auto; tauto|].
    assert (~ same_but_case x "uninstall") as N2 by (rewrite <- lstrcmpi_same; congruence).
    rewrite K3, K4 by auto. split; [discriminate|tauto].
Qed.
Print Assumptions C88_throws.

(** * What is installed *)

(** "Installed" is printed exactly if the service was not there and is now; nothing else changes. A failure to set the
    description is ignored. *)
Theorem C88_install : forall a d d' es, install a d = Some (d', es) ->
  (forall n, n <> service_name -> d' n = d n) /\
  (In (ISay SayInstalled) es <-> d service_name = None /\ an_create a = true) /\
  (~ In (ISay SayInstalled) es -> In (ISay SayCreateFailed) es /\ d' service_name = d service_name) /\
  (In (ISay SayInstalled) es -> exists p, an_module a = Some p /\
     d' service_name = Some (mkEntry (cut_path p) (if an_descr a then Some service_descr else None) false)).
Proof.
  intros a d d' es. unfold install. destruct (an_module a) as [p|]; [|discriminate]. destruct (an_manager a); [|discriminate].
  destruct (d service_name) as [e|] eqn:D; [|destruct (an_create a) eqn:C]; injection 1 as <- <-.
  - split; auto. simpl. intuition discriminate.
  - split. { intros n N. unfold scm_set. destruct (String.eqb_spec n service_name); tauto. }
    split; [simpl; intuition auto|]. split; [simpl; intuition auto|]. intros _. exists p. split; reflexivity.
  - split; auto. simpl. intuition discriminate.
Qed.
Print Assumptions C88_install.

(** "Deleted" is printed exactly if the service was there, not yet marked, and the manager allowed it; then it is gone, or will
    be when it is no longer in use. *)
Theorem C88_uninstall : forall a d d' es, uninstall a d = Some (d', es) ->
  (forall n, n <> service_name -> d' n = d n) /\
  (In (ISay SayDeleted) es <-> installed d /\ an_open a = true /\ an_delete a = true) /\
  (~ In (ISay SayDeleted) es -> d' service_name = d service_name /\
     (In (ISay SayOpenFailed) es \/ In (ISay SayDeleteFailed) es) /\
     (In (ISay SayOpenFailed) es <-> d service_name = None \/ an_open a = false)) /\
  (In (ISay SayDeleted) es -> ~ installed d' /\ (d' service_name = None <-> an_busy a = false)).
Proof.
  intros a d d' es. unfold uninstall, installed. destruct (an_manager a); [|discriminate].
  destruct (d service_name) as [e|] eqn:D; [|injection 1 as <- <-].
  - destruct (an_open a) eqn:O; [destruct (an_delete a) eqn:De, (en_marked e) eqn:M; cbn [andb negb]|]; injection 1 as <- <-.
    1, 3, 4, 5: split; auto; split; [|split; simpl; intuition discriminate]; split; [simpl; intuition discriminate|];
      intros ((e' & H1 & H2) & H3 & H4); try discriminate; congruence.
    split. { intros n N. unfold scm_set. destruct (String.eqb_spec n service_name); tauto. }
    split; [split; [eauto 6|simpl; auto]|]. split; [simpl; intuition auto|]. intros _. unfold scm_set. rewrite String.eqb_refl.
    destruct (an_busy a); split; try (split; (discriminate || auto)); intros (e' & H & H'); [injection H as <-; discriminate|discriminate].
  - split; auto. split; [|split; simpl; intuition discriminate]. split; [simpl; intuition discriminate|].
    intros ((e' & H & _) & _). congruence.
Qed.
Print Assumptions C88_uninstall.

(** Over any history of runs, whatever their arguments and outcomes: one more "installed" than "deleted" while the service is
    installed, as many otherwise. *)
Lemma count_app x a b : count x (a ++ b)%list = count x a + count x b.
Proof. unfold count. rewrite filter_app. apply app_length. Qed.
Lemma installed_dec d : {installed d} + {~ installed d}.
Proof.
  unfold installed. destruct (d service_name) as [e|]; [destruct (en_marked e) eqn:M|].
  - right. intros (e' & H & H'). congruence.
  - left. eauto.
  - right. intros (e' & H & H'). discriminate.
Qed.

Definition level (d : scm) : nat := if installed_dec d then 1 else 0.
Lemma level_yes d : installed d -> level d = 1.
Proof. unfold level. destruct (installed_dec d); tauto. Qed.
Lemma level_no d : ~ installed d -> level d = 0.
Proof. unfold level. destruct (installed_dec d); tauto. Qed.
Lemma level_same d d' : d' service_name = d service_name -> level d' = level d.
Proof. unfold level, installed. intros E. destruct (installed_dec d'), (installed_dec d); auto; exfalso; unfold installed in *; rewrite E in *; tauto. Qed.

Lemma step_level l d d' es : istep l d = Some (d', es) -> count says_installed es + level d = count says_deleted es + level d'.
Proof.
  destruct l as [argv a|n]; simpl.
  - intros E.
    assert (count says_installed (if an_dispatch a then [IServe] else report_event a) = 0 /\ count says_deleted (if an_dispatch a then [IServe] else report_event a) = 0) as (S1 & S2).
    { unfold report_event. destruct (an_dispatch a), (an_source a); auto. }
    assert (forall r en, or_terminate d r = (en, d', es) -> (forall d1 e1, r = Some (d1, e1) -> count says_installed e1 + level d = count says_deleted e1 + level d1) ->
      count says_installed es + level d = count says_deleted es + level d') as T.
    { intros [[d1 e1]|] en H K; simpl in H; injection H as <- <- <-; [now apply K|reflexivity]. }
    unfold tmain in E. destruct argv as [|p [|x more]]; [discriminate|injection E as <- <-; lia|].
    destruct (lstrcmpi_eq x "install"); [|destruct (lstrcmpi_eq x "uninstall")].
    + destruct (or_terminate d (install a d)) as [[en d1] e1] eqn:O. injection E as -> ->. eapply T; eauto.
      clear. intros d1 e1. unfold install. destruct (an_module a); [|discriminate]. destruct (an_manager a); [|discriminate].
      destruct (d service_name) as [e|] eqn:D; [|destruct (an_create a) eqn:C]; injection 1 as <- <-; auto.
      rewrite (level_no d), (level_yes (scm_set _ _ _)); auto.
      * unfold installed, scm_set. rewrite String.eqb_refl. eauto.
      * intros (e' & H & _). congruence.
    + destruct (or_terminate d (uninstall a d)) as [[en d1] e1] eqn:O. injection E as -> ->. eapply T; eauto.
      clear. intros d1 e1 U. destruct (C88_uninstall a d d1 e1 U) as (_ & K1 & K2 & K3). revert U. unfold uninstall.
      destruct (an_manager a); [|discriminate]. destruct (d service_name) as [e|] eqn:D; [|injection 1 as <- <-; auto].
      destruct (an_open a); [|injection 1 as <- <-; auto]. destruct (an_delete a && negb (en_marked e)) eqn:M; injection 1 as <- <-; auto.
      rewrite (level_yes d), (level_no (scm_set _ _ _)); auto; [apply K3; simpl; auto|].
      exists e. split; auto. apply andb_true_iff in M. destruct M as (_ & M). now destruct (en_marked e).
    + injection E as <- <-. lia.
  - destruct (d n) as [e|] eqn:D; [|discriminate]. destruct (en_marked e) eqn:M; [|discriminate]. injection 1 as <- <-.
    cbn. destruct (String.eqb_spec service_name n) as [<-|Ne].
    + rewrite !level_no; auto.
      * unfold installed, scm_set. rewrite String.eqb_refl. intros (e' & H & _). discriminate.
      * intros (e' & H & H'). congruence.
    + symmetry. apply level_same. unfold scm_set. destruct (String.eqb_spec service_name n); congruence.
Qed.

Theorem C88_history : forall ls d d' es, iexec ls d = Some (d', es) -> ~ installed d ->
  (installed d' -> count says_installed es = count says_deleted es + 1) /\
  (~ installed d' -> count says_installed es = count says_deleted es).
Proof.
  intros ls d d' es E N.
  assert (count says_installed es + level d = count says_deleted es + level d') as K.
  { clear N. revert d d' es E. induction ls as [|l ls IH]; intros d d' es E; cbn [iexec] in E; [injection E as <- <-; reflexivity|].
    destruct (istep l d) as [[d1 e1]|] eqn:S; [|discriminate]. destruct (iexec ls d1) as [[d2 e2]|] eqn:X; [|discriminate].
    injection E as <- <-. apply IH in X. apply step_level in S. rewrite !count_app. lia. }
  rewrite (level_no d N) in K. split; intros I; [rewrite (level_yes d' I) in K|rewrite (level_no d' I) in K]; lia.
Qed.
Print Assumptions C88_history.

(** Other services are left alone by every run. *)
Theorem C88_others : forall argv a d en d' es n, tmain argv a d = Ok (en, d', es) -> n <> service_name -> d' n = d n.
Proof.
  intros argv a d en d' es n E N. unfold tmain in E. destruct argv as [|p [|x more]]; [discriminate|injection E as <- <- <-; auto|].
  destruct (lstrcmpi_eq x "install"); [|destruct (lstrcmpi_eq x "uninstall")].
  - destruct (install a d) as [[d1 e1]|] eqn:I; simpl in E; injection E as <- <- <-; auto. now apply (C88_install a d d1 e1 I).
  - destruct (uninstall a d) as [[d1 e1]|] eqn:I; simpl in E; injection E as <- <- <-; auto. now apply (C88_uninstall a d d1 e1 I).
  - injection E as <- <- <-. auto.
Qed.
Print Assumptions C88_others.

(** * What is started *)

(** The path that is registered is the executable's iff that has less than 260 characters; otherwise a part of it, and
    "installed" is printed all the same (C88_install). *)
Theorem C88_long_path : forall p, (cut_path p = p <-> String.length p < 260) /\
  exists rest, p = cut_path p ++ rest /\ String.length (cut_path p) = Nat.min 259 (String.length p).
Proof.
  intros p. unfold cut_path, chars, max_path. change (260 - 1) with 259.
  assert (forall s, List.length (list_ascii_of_string s) = String.length s) as L by (induction s; simpl; auto).
  assert (forall l, String.length (string_of_list_ascii l) = List.length l) as L' by (induction l; simpl; auto).
  split; [split|].
  - intros E. apply (f_equal String.length) in E. rewrite L', firstn_length, L in E. lia.
  - intros H. rewrite firstn_all2 by (rewrite L; lia). apply string_of_list_ascii_of_string.
  - exists (string_of_list_ascii (skipn 259 (list_ascii_of_string p))). split; [|now rewrite L', firstn_length, L].
    rewrite <- (string_of_list_ascii_of_string p) at 1. rewrite <- (firstn_skipn 259 (list_ascii_of_string p)) at 1.
    generalize (firstn 259 (list_ascii_of_string p)) as u, (skipn 259 (list_ascii_of_string p)) as v. clear.
    induction u; intros v; simpl; congruence.
Qed.
Print Assumptions C88_long_path.

Lemma cuts_no_space rest : forall seen, ~ occurs " " rest -> cuts seen rest = [seen ++ rest].
Proof.
  induction rest as [|c rest IH]; intros seen N; simpl; [now rewrite app_nil_s|]. unfold occurs in *. simpl in N.
  destruct (Ascii.eqb_spec c " ") as [->|Ne]; [tauto|]. rewrite IH by tauto. now rewrite app_assoc_s.
Qed.
Lemma cuts_space a b : ~ occurs " " a -> forall seen, exists more, cuts seen (a ++ " " ++ b) = (seen ++ a) :: more.
Proof.
  induction a as [|c a IH]; intros N seen; simpl; [rewrite app_nil_s; eauto|]. unfold occurs in *. simpl in N.
  destruct (Ascii.eqb_spec c " ") as [->|Ne]; [tauto|]. destruct (IH (fun H => N (or_intror H)) (seen ++ String c "")) as (more & E).
  exists more. simpl in E. rewrite E. now rewrite app_assoc_s.
Qed.

(** The registered path is not quoted. Without a space in it, the control manager starts that program. With one, whoever can
    put a file at the part before the first space has that started instead. *)
Theorem C88_started : forall ex p,
  (~ occurs " " p -> ex p = true -> started ex p = Some p) /\
  (forall a b, p = a ++ " " ++ b -> ~ occurs " " a ->
     (ex a = true -> started ex p = Some a) /\ (ex a = false -> ex (a ++ ".exe") = true -> started ex p = Some (a ++ ".exe"))).
Proof.
  intros ex p. unfold started. split.
  - intros N E. rewrite cuts_no_space by auto. simpl. now rewrite E.
  - intros a b -> N. destruct (cuts_space a b N "") as (more & ->). simpl. split; [now intros ->|]. now intros -> ->.
Qed.
Print Assumptions C88_started.

(** That the control manager starts the program that was installed is therefore false, though the program exists. *)
Theorem C88_started_refuted : exists a d d' es e p ex, install a d = Some (d', es) /\ In (ISay SayInstalled) es /\
  an_module a = Some p /\ ex p = true /\ d' service_name = Some e /\ started ex (en_path e) <> Some p.
Proof.
  exists (mkAnswers (Some "C:\Program Files\lp.exe") true true true true true false true true), (fun _ => None).
  eexists. eexists. eexists. exists "C:\Program Files\lp.exe", (fun s => String.eqb s "C:\Program Files\lp.exe" || String.eqb s "C:\Program.exe").
  split; [reflexivity|]. split; [simpl; auto|]. split; [reflexivity|]. split; [reflexivity|]. split; [reflexivity|]. vm_compute. discriminate.
Qed.
Print Assumptions C88_started_refuted.

(** * Cases *)

Definition ok_answers : answers := mkAnswers (Some "C:\lp\lp.exe") true true true true true true false true.
Definition no_services : scm := fun _ => None.

(** Installed, installed again, removed while in use, removed again, gone, installed. *)
Example C88_case : ~ installed no_services /\
  exists d es, iexec [IRun ["lp"; "Install"] ok_answers; IRun ["lp"; "INSTALL"; "now"] ok_answers; IRun ["lp"; "uninstall"] ok_answers;
                      IRun ["lp"; "uninstall"] ok_answers; IRun ["lp"; "install"] ok_answers; Reap service_name; IRun ["lp"; "install"] ok_answers;
                      IRun ["lp"] ok_answers] no_services = Some (d, es) /\
  filter (fun e => match e with ISay _ | IReport => true | _ => false end) es =
    [ISay SayInstalled; ISay SayCreateFailed; ISay SayDeleted; ISay SayDeleteFailed; ISay SayCreateFailed; ISay SayInstalled; IReport] /\
  installed d /\ option_map en_path (d service_name) = Some "C:\lp\lp.exe".
Proof.
  split; [intros (e & H & _); discriminate|]. do 2 eexists. split; [reflexivity|]. split; [reflexivity|].
  split; [eexists; split; reflexivity|reflexivity].
Qed.

Example C88_case_start : same_but_case "InStall" "install" /\ ~ same_but_case "-install" "install" /\
  started (fun s => String.eqb s "C:\lp\lp.exe") "C:\lp\lp.exe" = Some "C:\lp\lp.exe" /\
  started (fun s => String.eqb s "C:\my dir\lp.exe") "C:\my dir\lp.exe" = Some "C:\my dir\lp.exe" /\
  started (fun s => String.eqb s "C:\my dir\lp.exe" || String.eqb s "C:\my.exe") "C:\my dir\lp.exe" = Some "C:\my.exe".
Proof.
  split; [apply lstrcmpi_same; reflexivity|]. split; [rewrite <- lstrcmpi_same; discriminate|]. auto.
Qed.

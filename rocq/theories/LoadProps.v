(** What LoadTemplates loads: PluginManager.cpp:14-30, 69-180. *)
From Coq Require Import String Ascii List Arith Bool Lia Permutation.
From Verif Require Import Prelude OMap DatagramSpec FilesystemModel FilesystemProps PluginModel PluginSpec PluginProofs PluginProps.
Import ListNotations.
Open Scope list_scope.

(** ** Vocabulary *)

(** The paths LoadTemplates goes through: for each search path that can be read, the regular files and
    directories in it, in the order of the directory. *)
Definition search_list (f : fs) (paths : list string) : list string :=
  flat_map (fun p =>
    match f_dir f (c_str p) with
    | None => []
    | Some names =>
        map (fun n => (p ++ "/" ++ n)%string)
          (filter (fun n => match f_stat f (c_str (p ++ "/" ++ n)) with Some FReg | Some FDir => true | _ => false end) names)
    end) paths.

(** The name is one of a plugin library, the file is there and the loader accepts it. *)
Definition opens (w : world) (path : string) : Prop :=
  f_access (w_fs w) (c_str path) = true /\
  (exists dir name rest stem, path = (dir ++ "/" ++ name)%string /\ ~ In "/"%char (list_ascii_of_string name) /\
     name = ("libplugin_" ++ rest)%string /\ name = (stem ++ ".so")%string) /\
  w_open w (c_str path) <> None.

(** Going through files: handles are numbered from the first number to the second; the pairs are the
    identifiers that are registered and their handles, in order. *)
Inductive registers (w : world) : nat -> list string -> list (string * nat) -> nat -> Prop :=
| reg_nil h : registers w h [] [] h
| reg_skip h f fs l h' : ~ opens w f -> registers w h fs l h' -> registers w h (f :: fs) l h'
| reg_refuse h f fs l h' : opens w f -> (forall id, ~ usable w f id) -> registers w (S h) fs l h' -> registers w h (f :: fs) l h'
| reg_take h f fs id l h' : usable w f id -> registers w (S h) fs l h' -> registers w h (f :: fs) ((id, h) :: l) h'.

Definition registrations (e : list pevent) : list (string * nat) :=
  flat_map (fun x => match x with PeLoaded id h => [(id, h)] | _ => [] end) e.

(** ** Proofs *)

Definition load_list (w : world) : list string -> pm -> pm * list pevent * res unit :=
  fix go (files : list string) (st : pm) :=
  match files with
  | [] => (st, [], Ok tt)
  | f :: fs => let '(st1, e1, r1) := load_template w f st in
               match r1 with
               | Ok _ => let '(st2, e2, r2) := go fs st1 in (st2, e1 ++ e2, r2)
               | r => (st1, e1, res_map (fun _ => tt) r)
               end
  end.

Lemma load_list_app w a : forall b st, load_list w (a ++ b) st =
  let '(st1, e1, r1) := load_list w a st in
  match r1 with Ok _ => let '(st2, e2, r2) := load_list w b st1 in (st2, e1 ++ e2, r2) | r => (st1, e1, r) end.
Proof.
  induction a as [|f a IH]; intros b st; simpl.
  - destruct (load_list w b st) as [[s e] r]. reflexivity.
  - destruct (load_template w f st) as [[s1 e1] r1]. destruct r1; try reflexivity. rewrite IH.
    destruct (load_list w a s1) as [[s2 e2] r2]. destruct r2; try reflexivity.
    destruct (load_list w b s2) as [[s3 e3] r3]. now rewrite app_assoc.
Qed.

Lemma load_files_list w dir fs : forall st, load_files w dir fs st = load_list w (map (fun n => (dir ++ "/" ++ n)%string) fs) st.
Proof.
  induction fs as [|f fs IH]; intros st; [reflexivity|]. cbn [load_files load_list map]. unfold combine_paths.
  destruct (load_template w _ st) as [[s e] r]. destruct r; auto. now rewrite IH.
Qed.

Lemma contents_list f p : map (fun n => (p ++ "/" ++ n)%string) (get_directory_contents f p OtFile) = search_list f [p].
Proof.
  unfold search_list. cbn [flat_map]. rewrite app_nil_r. destruct (f_dir f (c_str p)) as [names|] eqn:D.
  - rewrite (listing_helper f p OtFile names) by (auto; discriminate). f_equal. apply filter_ext. intros n. unfold is_file, is_directory, combine_paths.
    destruct (f_stat f _) as [[]|]; reflexivity.
  - now rewrite C53_unreadable.
Qed.

Lemma load_paths_list w ps : forall st, load_paths w ps st = load_list w (search_list (w_fs w) ps) st.
Proof.
  induction ps as [|p ps IH]; intros st; [reflexivity|]. change (p :: ps) with ([p] ++ ps). unfold search_list. rewrite flat_map_app.
  fold (search_list (w_fs w) [p]). fold (search_list (w_fs w) ps). rewrite load_list_app, <- contents_list, <- load_files_list. cbn [app load_paths].
  destruct (load_files w p _ st) as [[s e] r]. destruct r; auto. now rewrite IH.
Qed.

Lemma opens_candidate w f : opens w f <-> candidate w f = true /\ w_open w (c_str f) <> None.
Proof. unfold opens. rewrite candidate_iff. tauto. Qed.
Lemma usable_opens w f id : usable w f id -> opens w f.
Proof. intros (A & B & (l & C & _)). repeat split; auto. congruence. Qed.
Lemma usable_dec w f : (exists id, usable w f id) \/ forall id, ~ usable w f id.
Proof.
  destruct (candidate w f) eqn:C.
  2: { right. intros id U. apply usable_opens, opens_candidate in U as (E & _). congruence. }
  apply candidate_iff in C as (A & B). unfold usable.
  destruct (w_open w (c_str f)) as [l|] eqn:O; [|right; intros id (_ & _ & l & E & _); discriminate].
  destruct (lb_info l) as [[id|]|] eqn:I; [|right; intros id (_ & _ & l' & E & E2 & _); congruence|right; intros id (_ & _ & l' & E & E2 & _); congruence].
  destruct (string_dec id "") as [Em|Ne]; [right; intros id' (_ & _ & l' & E & E2 & E3 & _); congruence|].
  destruct (lb_create l) eqn:Cr; [left; exists id; eauto 8|right; intros id' (_ & _ & l' & E & E2 & E3 & E4); congruence].
Qed.
Lemma usable_fun w f a b : usable w f a -> usable w f b -> a = b.
Proof. intros (_ & _ & l & E & E2 & _) (_ & _ & l' & E' & E2' & _). congruence. Qed.

Lemma quiet_regs e : Forall quiet e -> registrations e = [].
Proof. induction 1 as [|x e Q _ IH]; simpl; auto. destruct x; simpl in *; auto; contradiction. Qed.
Lemma regs_app a b : registrations (a ++ b) = registrations a ++ registrations b.
Proof. unfold registrations. now rewrite flat_map_app. Qed.

(** One file: three cases. *)
Lemma load_cases w f st st' e b : load_template w f st = (st', e, Ok b) ->
  (~ opens w f /\ st' = st /\ e = [] /\ b = false) \/
  (opens w f /\ (forall id, ~ usable w f id) /\ b = false /\ pm_handles st' = S (pm_handles st) /\
   pm_templates st' = pm_templates st /\ e = [PeOpen (pm_handles st); PeClose (pm_handles st)]) \/
  (exists id e1, usable w f id /\ b = true /\ pm_handles st' = S (pm_handles st) /\
   pm_templates st' = oinsert id (mkTemplate id true [] (pm_handles st)) (pm_templates st) /\
   e = PeOpen (pm_handles st) :: PeLoaded id (pm_handles st) :: e1 /\ Forall quiet e1).
Proof.
  intros H. pose proof (opens_candidate w f) as OC. pose proof (candidate_iff w f) as CI. unfold load_template in H. unfold usable.
  destruct (candidate w f) eqn:C.
  2: { left. injection H as <- <- <-. split; auto. intros O. apply OC in O as (X & _). discriminate. }
  destruct CI as [CI _]. specialize (CI eq_refl). destruct CI as (A & B).
  destruct (w_open w (c_str f)) as [l|] eqn:O.
  2: { left. injection H as <- <- <-. split; auto. intros O'. apply OC in O' as (_ & X). congruence. }
  assert (opens w f) as OP by (apply OC; split; auto; discriminate).
  destruct (lb_info l) as [[id|]|] eqn:I; [|discriminate|].
  2: { right; left. injection H as <- <- <-. split; auto. split; [intros id (_ & _ & l' & E & E2 & _); congruence|auto]. }
  destruct (String.eqb_spec id "") as [Em|Ne].
  { right; left. injection H as <- <- <-. split; auto. split; [intros id' (_ & _ & l' & E & E2 & E3 & _); congruence|auto]. }
  destruct (lb_create l) eqn:Cr.
  2: { right; left. injection H as <- <- <-. split; auto. split; [intros id' (_ & _ & l' & E & E2 & E3 & E4); congruence|auto]. }
  right; right. destruct (olookup id (pm_templates st)) as [old|] eqn:L.
  - destruct (unload old) as [[t1 e1] r1] eqn:U. destruct r1; try discriminate. injection H as <- <- <-.
    apply unload_ok in U as (_ & ->). exists id, (map PeStop (instances old) ++ map PeDeinit (instances old)).
    repeat split; auto; [eauto 8|apply quiet_unload].
  - injection H as <- <- <-. exists id, []. repeat split; auto. eauto 8.
Qed.

(** The last handle of an identifier in the list. *)
Fixpoint last_of (id : string) (l : list (string * nat)) : option nat :=
  match l with
  | [] => None
  | (x, h) :: l' => match last_of id l' with Some r => Some r | None => if String.eqb id x then Some h else None end
  end.

Lemma load_list_spec w fs : forall st st' e u, load_list w fs st = (st', e, Ok u) ->
  registers w (pm_handles st) fs (registrations e) (pm_handles st') /\
  opened e = seq (pm_handles st) (pm_handles st' - pm_handles st) /\
  pm_handles st <= pm_handles st' /\
  (forall id, olookup id (pm_templates st') =
     match last_of id (registrations e) with
     | Some h => Some (mkTemplate id true [] h)
     | None => olookup id (pm_templates st)
     end) /\
  (forall h, In h (closed e) <-> In h (opened e) /\ forall id, ~ In (id, h) (registrations e)) /\
  (forall x, In x e -> x <> PeUnloaded).
Proof.
  induction fs as [|f fs IH]; intros st st' e u H.
  - injection H as <- <- _. rewrite Nat.sub_diag. repeat split; auto; try constructor; simpl; try tauto.
  - cbn [load_list] in H. destruct (load_template w f st) as [[s1 e1] r1] eqn:L. destruct r1 as [b| | |]; try discriminate.
    fold (load_list w) in H. destruct (load_list w fs s1) as [[s2 e2] r2] eqn:L2. injection H as <- <- ->.
    destruct (IH _ _ _ _ L2) as (R & O & Le & T & C & U). clear IH.
    apply load_cases in L as [(NO & -> & -> & _)|[(Op & NU & _ & Hh & Ht & ->)|(id & q & Us & _ & Hh & Ht & -> & Q)]].
    + simpl. repeat split; auto; try apply C; auto. now apply reg_skip.
    + rewrite Hh in *. rewrite Ht in T. cbn [app registrations flat_map opened closed]. fold (registrations e2) (opened e2) (closed e2). cbn [app].
      split; [now apply reg_refuse|]. split.
      { rewrite O. replace (pm_handles s2 - pm_handles st) with (S (pm_handles s2 - S (pm_handles st))) by lia. reflexivity. }
      split; [lia|]. split; auto. split.
      * intros h. simpl. rewrite C. split.
        -- intros [<-|(A & B)]; [|auto]. split; auto. intros id I.
           assert (forall h0 fs l h1, registers w h0 fs l h1 -> forall i k, In (i, k) l -> h0 <= k) as G.
           { clear. induction 1; simpl; intros i k I; auto; try contradiction.
             - apply IHregisters in I; auto.
             - apply IHregisters in I; lia.
             - destruct I as [E|I]; [injection E as _ <-; auto|]. apply IHregisters in I; lia. }
           apply (G _ _ _ _ R) in I. lia.
        -- intros ([<-|A] & B); auto.
      * intros x [<-|[<-|I]]; try discriminate. auto.
    + rewrite Hh in *. rewrite Ht in T. destruct (quiet_all q Q) as (Q1 & Q2 & _). pose proof (quiet_regs q Q) as Q3.
      change ((PeOpen (pm_handles st) :: PeLoaded id (pm_handles st) :: q) ++ e2) with
        ([PeOpen (pm_handles st); PeLoaded id (pm_handles st)] ++ (q ++ e2)).
      rewrite !regs_app, !opened_app, !closed_app, Q1, Q2, Q3. cbn [app registrations flat_map opened closed]. fold (registrations e2) (opened e2) (closed e2).
      split; [now apply reg_take|]. split.
      { rewrite O. replace (pm_handles s2 - pm_handles st) with (S (pm_handles s2 - S (pm_handles st))) by lia. reflexivity. }
      split; [lia|]. split; [|split].
      * intros x. rewrite T. simpl. destruct (last_of x (registrations e2)); auto. destruct (String.eqb_spec x id) as [->|Ne].
        -- apply olookup_insert_eq'.
        -- apply olookup_insert_ne; auto.
      * intros h. rewrite C. simpl. split.
        -- intros (A & B). split; auto. intros i [E|I]; [|eapply B; eauto]. injection E as _ <-.
           rewrite O in A. apply in_seq in A. lia.
        -- intros ([<-|A] & B); [exfalso; apply (B id); auto|]. split; auto. intros i I. apply (B i); auto.
      * intros x I. simpl in I. destruct I as [<-|[<-|I]]; try discriminate. apply in_app_iff in I as [I|I]; auto.
        rewrite Forall_forall in Q. apply Q in I. intros ->. contradiction.
Qed.

(** ** C71 *)

(** The search paths of a new manager. *)
Theorem C71_search_paths : forall conf t cwd, String.length t < 1024 -> ~ occurs "000" t ->
  let dir := get_base_directory t in
  let work := match cwd with Some p => if (String.length p <? 1024)%nat then c_str p else ""%string | None => ""%string end in
  exists st, new_manager conf (Some t) cwd = Ok st /\ pm_bus st = pc_bus conf /\ pm_templates st = [] /\
  pm_paths st = pc_paths conf ++ (if string_dec dir work then [dir] else [dir; work]) ++ [(work ++ "/lib")%string].
Proof.
  intros conf t cwd Lt NZ dir work. unfold new_manager. rewrite C54_whole by auto. simpl. eexists. split; [reflexivity|]. simpl.
  fold dir. change (get_working_directory cwd) with work. repeat split; auto. f_equal.
  destruct (String.eqb_spec work dir) as [E|Ne]; destruct (string_dec dir work) as [E'|Ne']; try congruence; reflexivity.
Qed.
Print Assumptions C71_search_paths.

(** LoadTemplates goes through the files of the search paths in order; what it registers and which
    handles it takes are determined by the files; each handle it opens is closed again or belongs to a registration. *)
Theorem C71_order : forall w st st' e r, pstep (PLoadAll w) st = (st', e, Ok r) ->
  registers w (pm_handles st) (search_list (w_fs w) (pm_paths st)) (registrations e) (pm_handles st') /\
  opened e = seq (pm_handles st) (pm_handles st' - pm_handles st) /\
  (forall h, In h (closed e) <-> In h (opened e) /\ forall id, ~ In (PeLoaded id h) e).
Proof.
  intros w st st' e r H. cbn [pstep] in H. rewrite load_paths_list in H.
  destruct (load_list w _ st) as [[s e'] r'] eqn:L. destruct r'; try discriminate. injection H as <- <- _.
  destruct (load_list_spec _ _ _ _ _ _ L) as (R & O & _ & _ & C & _). split; auto. split; auto. intros h. rewrite C.
  assert (forall id, In (id, h) (registrations e') <-> In (PeLoaded id h) e') as X.
  { intros id. unfold registrations. rewrite in_flat_map. split.
    - intros (x & I & J). destruct x; simpl in J; try contradiction. destruct J as [E|[]]. injection E as <- <-. auto.
    - intros I. exists (PeLoaded id h). simpl; auto. }
  split; intros (A & B); split; auto; intros id I; apply (B id); now apply X.
Qed.
Print Assumptions C71_order.

Lemma registers_last w fs : forall h l h' id, registers w h fs l h' ->
  (last_of id l = None <-> forall f, In f fs -> ~ usable w f id) /\
  forall xs f ys, fs = xs ++ f :: ys -> usable w f id -> (forall g, In g ys -> ~ usable w g id) ->
  exists k, last_of id l = Some k /\ h <= k < h'.
Proof.
  intros h l h' id H. induction H as [h|h f fs l h' NO H (A & B)|h f fs l h' Op NU H (A & B)|h f fs id' l h' Us H (A & B)].
  - split; [simpl; split; auto; intros _ f []|]. intros xs f ys E. destruct xs; discriminate.
  - split.
    + rewrite A. split; [intros G x [<-|I]; auto; intros U; now apply NO, (usable_opens w f id)|intros G x I; apply G; simpl; auto].
    + intros [|x xs] g ys E U N; injection E as <- ->; [exfalso; now apply NO, (usable_opens w f id)|]. eapply B; eauto.
  - split.
    + rewrite A. split; [intros G x [<-|I]; auto|intros G x I; apply G; simpl; auto].
    + intros [|x xs] g ys E U N; injection E as <- ->; [exfalso; now apply (NU id)|].
      destruct (B xs g ys eq_refl U N) as (k & K & K'). exists k. split; auto. lia.
  - assert (h < h') as Lt. { clear -H. assert (forall a fs l b, registers w a fs l b -> a <= b) as G by (clear; induction 1; lia). apply G in H. lia. }
    split.
    + simpl. destruct (last_of id l) eqn:E.
      * split; [discriminate|]. intros G. assert (Some n = None) as X by (apply A; intros x I; apply G; simpl; auto). discriminate.
      * destruct (String.eqb_spec id id') as [->|Ne].
        -- split; [discriminate|]. intros G. exfalso. apply (G f); simpl; auto.
        -- split; auto. intros _ x [<-|I]; [|now apply A]. intros U. apply Ne. eapply usable_fun; eauto.
    + intros [|x xs] g ys E U N; injection E as <- ->.
      * apply (usable_fun w f id id') in U; auto. subst. simpl. destruct A as (_ & A). rewrite A by auto. rewrite String.eqb_refl. exists h. split; auto.
      * destruct (B xs g ys eq_refl U N) as (k & K & K'). exists k. simpl. rewrite K. split; auto. lia.
Qed.

(** Identifiers announced by no usable file keep their template; for the others the last file wins. *)
Theorem C71_last_wins : forall w st st' e r id, pstep (PLoadAll w) st = (st', e, Ok r) ->
  ((forall f, In f (search_list (w_fs w) (pm_paths st)) -> ~ usable w f id) ->
     olookup id (pm_templates st') = olookup id (pm_templates st)) /\
  (forall xs f ys, search_list (w_fs w) (pm_paths st) = xs ++ f :: ys -> usable w f id -> (forall g, In g ys -> ~ usable w g id) ->
     exists l h l', registers w (pm_handles st) xs l h /\ registers w h (f :: ys) ((id, h) :: l') (pm_handles st') /\
       registered st' id (mkTemplate id true [] h)).
Proof.
  intros w st st' e r id H. cbn [pstep] in H. rewrite load_paths_list in H.
  destruct (load_list w _ st) as [[s e'] r'] eqn:L. destruct r'; try discriminate. injection H as <- <- _.
  destruct (load_list_spec _ _ _ _ _ _ L) as (R & O & _ & T & C & _). split.
  - intros N. rewrite T. destruct (registers_last _ _ _ _ _ id R) as (A & _). now rewrite (proj2 A).
  - intros xs f ys E U N. rewrite E in R. unfold registered. rewrite T. clear -R U N.
    remember (registrations e') as l eqn:El. clear El.
    assert (exists l1 l2 h, l = l1 ++ (id, h) :: l2 /\ registers w (pm_handles st) xs l1 h /\ registers w h (f :: ys) ((id, h) :: l2) (pm_handles s)) as (l1 & l2 & h & -> & A & B).
    { remember (pm_handles st) as a eqn:Ea. remember (pm_handles s) as z eqn:Ez. clear Ea Ez N st s. revert a l R.
      induction xs as [|x xs IH]; intros a l R.
      - simpl in R. inversion R as [|? ? ? ? ? NO _|? ? ? ? ? _ NU _|? ? ? id' l' ? Us R']; subst.
        + exfalso. now apply NO, (usable_opens w f id).
        + exfalso. now apply (NU id).
        + pose proof (usable_fun w f id id' U Us) as <-. exists [], l', a. repeat split; auto. constructor.
      - simpl in R. inversion R as [|? ? ? ? ? NO R'|? ? ? ? ? Op NU R'|? ? ? id' l' ? Us R']; subst.
        + destruct (IH _ _ R') as (l1 & l2 & h & -> & A & B). exists l1, l2, h. repeat split; auto. now apply reg_skip.
        + destruct (IH _ _ R') as (l1 & l2 & h & -> & A & B). exists l1, l2, h. repeat split; auto. now apply reg_refuse.
        + destruct (IH _ _ R') as (l1 & l2 & h & -> & A & B). exists ((id', a) :: l1), l2, h. repeat split; auto. now apply reg_take. }
    exists l1, h, l2. split; auto. split; auto.
    assert (last_of id (l1 ++ (id, h) :: l2) = Some h) as ->; [|reflexivity].
    assert (last_of id l2 = None) as Nl.
    { inversion B as [|? ? ? ? ? NO R'|? ? ? ? ? Op NU R'|? ? ? ? ? ? Us R']; subst.
      - exfalso. now apply NO, (usable_opens w f id).
      - exfalso. now apply (NU id).
      - destruct (registers_last _ _ _ _ _ id R') as (X & _). now apply X. }
    clear -Nl. induction l1 as [|[x k] l1 IH]; simpl; [rewrite Nl, String.eqb_refl; auto|]. now rewrite IH.
Qed.
Print Assumptions C71_last_wins.

(** When it goes wrong: a library whose CreateInfo returns null, or a replaced template with a null instance. *)
Definition null_info (w : world) (f : string) : Prop := opens w f /\ exists l, w_open w (c_str f) = Some l /\ lb_info l = Some None.

Lemma load_template_ub w f st st' e r : load_template w f st = (st', e, r) ->
  (r = UB <-> null_info w f \/ exists id t, usable w f id /\ registered st id t /\ null_entry t).
Proof.
  intros H. pose proof (opens_candidate w f) as OC. pose proof (candidate_iff w f) as CI. unfold load_template in H. unfold null_info.
  assert (forall id (t : template), usable w f id -> exists l, w_open w (c_str f) = Some l /\ lb_info l = Some (Some id) /\ id <> ""%string /\ lb_create l = true) as UU.
  { intros id t (_ & _ & X). exact X. }
  destruct (candidate w f) eqn:C.
  2: { injection H as _ _ <-. split; [discriminate|]. intros [(O & _)|(id & t & U & _)]; [|apply usable_opens in U as O]; apply OC in O as (X & _); discriminate. }
  destruct (w_open w (c_str f)) as [l|] eqn:O.
  2: { injection H as _ _ <-. split; [discriminate|]. intros [(O' & _)|(id & t & U & _)]; [|apply usable_opens in U as O']; apply OC in O' as (_ & X); congruence. }
  assert (opens w f) as OP by (apply OC; split; auto; discriminate).
  destruct (lb_info l) as [[id|]|] eqn:I.
  2: { injection H as _ _ <-. split; auto. intros _. left. eauto. }
  2: { injection H as _ _ <-. split; [discriminate|]. intros [(_ & l' & E & E2)|(id & t & U & _)]; [congruence|]. destruct (UU id t U) as (l' & E & E2 & _). congruence. }
  destruct (String.eqb_spec id "") as [Em|Ne].
  { injection H as _ _ <-. split; [discriminate|]. intros [(_ & l' & E & E2)|(id' & t & U & _)]; [congruence|]. destruct (UU id' t U) as (l' & E & E2 & E3 & _). congruence. }
  destruct (lb_create l) eqn:Cr.
  2: { injection H as _ _ <-. split; [discriminate|]. intros [(_ & l' & E & E2)|(id' & t & U & _)]; [congruence|]. destruct (UU id' t U) as (l' & E & E2 & E3 & E4). congruence. }
  destruct CI as [CI _]. destruct (CI eq_refl) as (A & B). assert (usable w f id) as Us by (split; auto; split; auto; eauto).
  destruct (olookup id (pm_templates st)) as [old|] eqn:L.
  - destruct (unload old) as [[t1 e1] r1] eqn:U. injection H as _ _ <-. destruct (null_dec old) as [N|N].
    + apply unload_null in N as N'. rewrite U in N'. simpl in N'. subst r1. split; auto. intros _. right. exists id, old. auto.
    + destruct (unload_fine old N) as (t2 & E). rewrite U in E. injection E as _ _ ->. split; [discriminate|].
      intros [(_ & l' & E & E2)|(id' & t & U' & R & N')]; [congruence|]. apply (usable_fun w f id' id) in U'; auto. subst id'. unfold registered in R. congruence.
  - injection H as _ _ <-. split; [discriminate|].
    intros [(_ & l' & E & E2)|(id' & t & U' & R & N')]; [congruence|]. apply (usable_fun w f id' id) in U'; auto. subst id'. unfold registered in R. congruence.
Qed.

Theorem C71_outcome : forall w st, exists st' e r, pstep (PLoadAll w) st = (st', e, r) /\ (r = Ok PUnit \/ r = UB) /\
  (r = UB <->
   (exists f, In f (search_list (w_fs w) (pm_paths st)) /\ null_info w f) \/
   (exists f id t, In f (search_list (w_fs w) (pm_paths st)) /\ usable w f id /\ registered st id t /\ null_entry t)).
Proof.
  intros w st. cbn [pstep]. destruct (load_paths w (pm_paths st) st) as [[s e] r] eqn:L. eexists _, _, _. split; [reflexivity|].
  split; [apply load_paths_res in L as [->| ->]; simpl; auto|].
  assert (res_map (fun _ : unit => PUnit) r = UB <-> r = UB) as -> by (destruct r; simpl; split; congruence).
  rewrite load_paths_list in L. remember (search_list (w_fs w) (pm_paths st)) as fs eqn:Ef. clear Ef. revert st s e r L.
  induction fs as [|f fs IH]; intros st s e r L.
  - injection L as _ _ <-. split; [discriminate|]. intros [(f & [] & _)|(f & _ & _ & [] & _)].
  - cbn [load_list] in L. fold (load_list w) in L. destruct (load_template w f st) as [[s1 e1] r1] eqn:F.
    pose proof (load_template_ub _ _ _ _ _ _ F) as UBF. destruct (load_template_res _ _ _ _ _ _ F) as [(b & ->)| ->].
    + destruct (load_list w fs s1) as [[s2 e2] r2] eqn:L2. injection L as _ _ <-. rewrite (IH _ _ _ _ L2).
      assert (~ (null_info w f \/ exists id t, usable w f id /\ registered st id t /\ null_entry t)) as NF by (intros X; apply UBF in X; discriminate).
      assert (forall id t, registered s1 id t -> null_entry t -> registered st id t) as Back.
      { intros id t R (n & N). apply load_cases in F as [(_ & -> & _)|[(_ & _ & _ & _ & T & _)|(id' & e' & _ & _ & _ & T & _)]]; auto; unfold registered in *; rewrite T in R; auto.
        destruct (string_dec id' id) as [->|Ne]; [rewrite olookup_insert_eq' in R; injection R as <-; contradiction|]. rewrite olookup_insert_ne in R; auto. }
      assert (forall id t, registered st id t -> (~ usable w f id) -> registered s1 id t) as Fwd.
      { intros id t R NU. apply load_cases in F as [(_ & -> & _)|[(_ & _ & _ & _ & T & _)|(id' & e' & U & _ & _ & T & _)]]; auto; unfold registered in *; rewrite T; auto.
        rewrite olookup_insert_ne; auto. intros ->; auto. }
      split.
      * intros [(g & I & N)|(g & id & t & I & U & R & N)]; [left; exists g; simpl; auto|right; exists g, id, t; simpl; auto].
      * intros [(g & [<-|I] & N)|(g & id & t & [<-|I] & U & R & N)].
        -- exfalso. auto.
        -- left. eauto.
        -- exfalso. apply NF. right. eauto.
        -- right. exists g, id, t. repeat split; try tauto; try apply U. apply Fwd; auto. intros U'. apply NF. right. eauto.
    + injection L as _ _ <-. simpl. split; auto. intros _. destruct UBF as [UBF _]. destruct (UBF eq_refl) as [N|(id & t & U & R & N)].
      * left. exists f. simpl; auto.
      * right. exists f, id, t. simpl; auto.
Qed.
Print Assumptions C71_outcome.

(** Two usable files for one identifier: the library of the first is never closed. *)
Lemma ledger_regs e : (forall x, In x e -> x <> PeUnloaded) -> forall s,
  fold_left ledger_step e s = fold_left ledger_step (map (fun p => PeLoaded (fst p) (snd p)) (registrations e)) s.
Proof.
  induction e as [|x e IH]; intros N s; [reflexivity|].
  assert (forall x, In x e -> x <> PeUnloaded) as N' by (intros y I; apply N; simpl; auto).
  destruct x; cbn [fold_left registrations flat_map app map ledger_step]; try apply (IH N').
  exfalso. apply (N PeUnloaded); simpl; auto.
Qed.
Lemma replaced_mono l : forall s h, In h (snd s) -> In h (snd (fold_left ledger_step l s)).
Proof.
  induction l as [|x l IH]; intros s h I; auto. simpl. apply IH. destruct x; simpl; auto. destruct (assoc id (fst s)); simpl; auto.
Qed.
Lemma replaced_next l : forall s id h k, assoc id (fst s) = Some h -> In (id, k) l ->
  In h (snd (fold_left ledger_step (map (fun p => PeLoaded (fst p) (snd p)) l) s)).
Proof.
  induction l as [|[x j] l IH]; intros s id h k A I; [contradiction|]. cbn [map fold_left fst snd ledger_step].
  destruct (string_dec x id) as [->|Ne].
  - apply replaced_mono. cbn [snd]. rewrite A. simpl; auto.
  - destruct I as [E|I]; [injection E as <- _; congruence|]. eapply IH; [|exact I]. cbn [fst]. unfold assoc. cbn [find fst snd].
    destruct (String.eqb_spec id x) as [->|_]; [congruence|]. exact A.
Qed.

Theorem C71_duplicate_leaks : forall w st tr st' e r xs f ys g zs id, reached st tr -> pstep (PLoadAll w) st = (st', e, Ok r) ->
  search_list (w_fs w) (pm_paths st) = xs ++ f :: ys ++ g :: zs -> usable w f id -> usable w g id ->
  exists l h, registers w (pm_handles st) xs l h /\ In (PeOpen h) e /\ In (PeLoaded id h) e /\
  forall os st2 tr2 rs, prun os st' = (st2, tr2, rs) -> ~ In UB rs -> ~ In (PeClose h) (tr ++ e ++ tr2).
Proof.
  intros w st tr st' e r xs f ys g zs id Re H Ef Uf Ug. pose proof H as P. cbn [pstep] in H. rewrite load_paths_list in H.
  destruct (load_list w _ st) as [[s e'] r'] eqn:L. destruct r'; try discriminate. injection H as <- <- _.
  destruct (load_list_spec _ _ _ _ _ _ L) as (R & O & _ & _ & _ & NU). rewrite Ef in R.
  assert (exists l1 l2 h, registrations e' = l1 ++ (id, h) :: l2 /\ registers w (pm_handles st) xs l1 h /\ exists k, In (id, k) l2) as (l1 & l2 & h & El & A & k & B).
  { remember (registrations e') as l eqn:El. remember (pm_handles st) as a0 eqn:Ea. clear -R Uf Ug. revert a0 l R.
    induction xs as [|x xs IH]; intros a l R; simpl in R.
    - inversion R as [|? ? ? ? ? NO _|? ? ? ? ? _ NU _|? ? ? id' l' ? Us R']; subst.
      + exfalso. now apply NO, (usable_opens w f id).
      + exfalso. now apply (NU id).
      + pose proof (usable_fun w f id id' Uf Us) as <-. exists [], l', a. repeat split; auto; [constructor|].
        clear R Us. remember (S a) as b eqn:Eb. clear Eb a. revert b l' R'. induction ys as [|y ys IHy]; intros b l' R; simpl in R;
          inversion R as [|? ? ? ? ? NO R'|? ? ? ? ? Op NU R'|? ? ? id' l'' ? Us R']; subst.
        * exfalso. now apply NO, (usable_opens w g id).
        * exfalso. now apply (NU id).
        * pose proof (usable_fun w g id id' Ug Us) as <-. exists b. simpl; auto.
        * eapply IHy; eauto.
        * eapply IHy; eauto.
        * destruct (IHy _ _ R') as (k & K). exists k. simpl; auto.
    - inversion R as [|? ? ? ? ? NO R'|? ? ? ? ? Op NU R'|? ? ? id' l' ? Us R']; subst;
        destruct (IH _ _ R') as (l1 & l2 & h & -> & A & B).
      + exists l1, l2, h. repeat split; auto. now apply reg_skip.
      + exists l1, l2, h. repeat split; auto. now apply reg_refuse.
      + exists ((id', a) :: l1), l2, h. repeat split; auto. now apply reg_take. }
  assert (In (id, h) (registrations e')) as Ir by (rewrite El; apply in_or_app; simpl; auto).
  assert (In (PeLoaded id h) e') as Il.
  { unfold registrations in Ir. apply in_flat_map in Ir as (x & I & J). destruct x; simpl in J; try contradiction. destruct J as [E|[]]. injection E as <- <-. auto. }
  assert (reached s (tr ++ e')) as Re' by (eapply reached_step; eauto; discriminate).
  assert (In h (replaced (tr ++ e'))) as Rp.
  { unfold replaced. rewrite ledger_app, ledger_regs, El by auto. rewrite map_app, fold_left_app. cbn [map fold_left fst snd].
    eapply replaced_next; [|exact B]. cbn [ledger_step fst]. unfold assoc. cbn [find fst]. rewrite String.eqb_refl. reflexivity. }
  exists l1, h. split; auto. split.
  { assert (In h (opened e')) as Io.
    { rewrite O. apply in_seq.
      assert (forall a fs l b, registers w a fs l b -> a <= b /\ forall i j, In (i, j) l -> a <= j < b) as G.
      { clear. intros a fs l b H. induction H as [|? ? ? ? ? ? _ (X & Y)|? ? ? ? ? ? ? _ (X & Y)|? ? ? ? ? ? ? _ (X & Y)].
        - split; auto. intros i j [].
        - auto.
        - split; [lia|]. intros i j I. apply Y in I. lia.
        - split; [lia|]. intros i j [E|I]; [injection E as _ <-; lia|apply Y in I; lia]. }
      destruct (G _ _ _ _ R) as (X & Y). apply Y in Ir. lia. }
    unfold opened in Io. apply in_flat_map in Io as (x & I & J). destruct x; simpl in J; try contradiction. destruct J as [<-|[]]. auto. }
  split; auto. intros os st2 tr2 rs Pr Nr Ic. destruct Re' as (os1 & rs1 & Pr1 & Nr1).
  assert (reached st2 ((tr ++ e') ++ tr2)) as Re2.
  { exists (os1 ++ os), (rs1 ++ rs). split; [eapply prun_app; eauto|]. intros I. apply in_app_iff in I as [I|I]; auto. }
  destruct (C45_once _ _ Re2) as (_ & _ & _ & Nc). apply (Nc h).
  - unfold replaced. rewrite ledger_app. now apply replaced_mono.
  - unfold closed. apply in_flat_map. exists (PeClose h). rewrite <- app_assoc. simpl; auto.
Qed.
Print Assumptions C71_duplicate_leaks.

(** Two search paths with the same libraries: the second set replaces the first. *)
Definition two_paths : list pop := [PNewBus; PSetBus (Some 0); PAddPath "/p"; PAddPath "/p"].
Example C71_case :
  search_list (w_fs a_world) ["/p"; "/p"]%string =
    ["/p/libplugin_a.so"; "/p/notes.txt"; "/p/libplugin_b.so"; "/p/libplugin_a.so"; "/p/notes.txt"; "/p/libplugin_b.so"]%string /\
  usable a_world "/p/libplugin_a.so" "A" /\
  reached (state_of two_paths) (trace_of two_paths) /\
  (exists st', pstep (PLoadAll a_world) (state_of two_paths) =
     (st', [PeOpen 0; PeLoaded "A" 0; PeOpen 1; PeLoaded "A1" 1; PeOpen 2; PeLoaded "A" 2; PeOpen 3; PeLoaded "A1" 3], Ok PUnit) /\
     registered st' "A" (mkTemplate "A" true [] 2)) /\
  closed (trace_of (two_paths ++ [PLoadAll a_world; PUnload])) = [2; 3] /\
  (exists st, new_manager (mkPmConf [] None) (Some "/opt/lp/lamppost"%string) (Some "/opt/lp"%string) = Ok st /\
     pm_paths st = ["/opt/lp"; "/opt/lp/lib"]%string).
Proof.
  split; [vm_compute; reflexivity|]. split; [apply C44_case|]. split; [apply reached_by; vm_compute; reflexivity|].
  split; [eexists; vm_compute; split; reflexivity|]. split; [vm_compute; reflexivity|].
  eexists. vm_compute. split; reflexivity.
Qed.

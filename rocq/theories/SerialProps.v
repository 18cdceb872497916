(** Properties C12-C16 and C18, and C11 for serialising and printing. *)
From Coq Require Import String Ascii List Arith ZArith NArith Bool Lia Sorting DecimalString.
From Verif Require Import Prelude OMap DatagramModel DatagramSpec DatagramHeap DatagramProofs DatagramEq
  DatagramStmt DatagramRefine DatagramRefine2 DatagramInv DatagramIso DatagramFinite DatagramDiverge DatagramProps
  SerialModel PrintModel SerialSpec SerialProofs SerialProofs2.
Import ListNotations.
Open Scope list_scope.

(** * C12 *)

(** Any datagram can be serialised, which reads only; deserialising the result, in the same
    or any other heap, creates new nodes with the normalised contents. *)
Theorem C12_round_trip : forall h l t, denotes h l t ->
  exists N fb, (forall fuel, N <= fuel -> raw_ser fuel h l = Ok fb) /\
  forall h0, exists h' c, raw_deser fb h0 = (h', Ok c) /\ denotes h' c (wire t) /\
    forall x u, denotes h0 x u -> denotes h' x u.
Proof.
  intros h l t (F & HO). exists (S (dg_depth t)), (ser t). split.
  - intros fuel Hf. eapply raw_ser_ok; eauto.
  - intros h0. destruct (raw_deser_ok (ser t)) as [(u & R & Mk)|(B & _)].
    + rewrite (reads_fun _ _ _ R (ser_reads t (own_wf _ _ _ _ HO))) in Mk.
      destruct (Mk h0) as (h' & c & F' & E & X & O & _). exists h', c. split; [exact E|]. split; [eexists; eauto|].
      intros x v (Fx & Hx). exists Fx. eapply own_extends; eauto.
    + exfalso. eapply reads_broken; eauto. apply ser_reads. eapply own_wf; eauto.
Qed.
Print Assumptions C12_round_trip.

(** The round trip is the identity exactly on datagrams without empty lists, empty
    dictionaries, values of other types and negative zeros. *)
Theorem C12_identity_iff : forall h l t, denotes h l t ->
  (exists N fb, (forall fuel, N <= fuel -> raw_ser fuel h l = Ok fb) /\
     forall h0, exists h' c, raw_deser fb h0 = (h', Ok c) /\ denotes h' c t) <->
  ~ lossy true t.
Proof.
  intros h l t Ht. destruct (C12_round_trip h l t Ht) as (N & fb & Es & D). split.
  - intros (N' & fb' & Es' & D'). apply wire_id.
    assert (fb' = fb) as ->.
    { specialize (Es (Nat.max N N') ltac:(lia)). rewrite Es' in Es by lia. congruence. }
    destruct (D h) as (h1 & c1 & E1 & (F1 & O1) & _). destruct (D' h) as (h2 & c2 & E2 & (F2 & O2)).
    rewrite E1 in E2. injection E2 as <- <-. eapply own_det; eauto.
  - intros Hl. apply wire_id in Hl. exists N, fb. split; auto. intros h0.
    destruct (D h0) as (h1 & c1 & E1 & O1 & _). rewrite Hl in O1. eauto.
Qed.
Print Assumptions C12_identity_iff.

(** Normalising twice is normalising once; normalised datagrams are unaffected. *)
Theorem C12_normal_form : forall t, ~ lossy true (wire t) /\ wire (wire t) = wire t.
Proof. intros t. split; [apply wire_ok|]. apply wire_id, wire_ok. Qed.
Print Assumptions C12_normal_form.

(** [ex_tree] contains an empty dictionary, its normal form does not. *)
Example C12_example :
  wire ex_tree = Dct [("a"%string, Lst [Val (DInt 1); Emp]); ("b"%string, Val (DBool true))] /\
  lossy true ex_tree /\ ~ lossy true (wire ex_tree) /\
  match raw_ser 9 ex_heap 0 with
  | Ok fb => match raw_deser fb ex_heap with
             | (h', Ok c) => dg_eq 9 h' c 0 = Ok false /\ c = 5
             | _ => False
             end
  | _ => False
  end.
Proof.
  split; [reflexivity|]. split.
  - eapply (lossy_dct _ _ ("a"%string, _)); [left; reflexivity|]. eapply lossy_lst; [right; left; reflexivity|]. constructor.
  - split; [apply wire_ok|]. vm_compute. auto.
Qed.

(** * C13 *)

(** Every structure either means a datagram, which deserialisation then creates out of new
    nodes leaving all others alone, or is broken, and then deserialising is undefined behaviour. *)
Theorem C13_deserialise : forall fb,
  (exists t, reads fb t /\ dg_wf t /\
     forall h, exists h' c, raw_deser fb h = (h', Ok c) /\ denotes h' c t /\
       forall x u, denotes h x u -> denotes h' x u) \/
  (broken fb /\ forall h, snd (raw_deser fb h) = UB).
Proof.
  intros fb. destruct (raw_deser_ok fb) as [(t & R & Mk)|(B & U)]; [left|right; auto].
  exists t. split; auto. split; [eapply reads_wf; eauto|]. intros h.
  destruct (Mk h) as (h' & c & F & E & X & O & _). exists h', c. split; [exact E|]. split; [eexists; eauto|].
  intros x v (Fx & Hx). exists Fx. eapply own_extends; eauto.
Qed.
Print Assumptions C13_deserialise.

(** The two cases exclude each other, and the meaning is unique. *)
Theorem C13_reads_unique : forall fb t u, reads fb t -> reads fb u -> t = u /\ ~ broken fb.
Proof. intros fb t u H1 H2. split; [eapply reads_fun; eauto|]. intros B. eapply reads_broken; eauto. Qed.
Print Assumptions C13_reads_unique.

Theorem C13_undefined_iff : forall fb h, snd (raw_deser fb h) = UB <-> broken fb.
Proof.
  intros fb h. destruct (raw_deser_ok fb) as [(t & R & Mk)|(B & U)].
  - split; intros H; exfalso.
    + destruct (Mk h) as (h' & c & F & E & _). rewrite E in H. discriminate.
    + eapply reads_broken; eauto.
  - split; auto.
Qed.
Print Assumptions C13_undefined_iff.

(** Duplicate keys, a surplus key, an unknown type code; and a broken structure that is not
    visited because it is surplus. *)
Definition ex_leaf (z : Z) : fbd := Fb 1 1 None z 0 false None None None.
Definition ex_bad : fbd := Fb 2 0 None 0 0 false None None None.
Definition ex_fb : fbd :=
  Fb 3 0 None 0 0 false (Some [ex_bad])
     (Some ["k"; "u"; "k"; "surplus"]%string) (Some [ex_leaf 1; Fb 9 0 None 0 0 false None None None; ex_leaf 2]).

Example C13_example : reads ex_fb (Dct [("k"%string, Val (DInt 2)); ("u"%string, Emp)]) /\ broken ex_bad /\
  ~ broken ex_fb.
Proof.
  assert (R : reads ex_fb (Dct [("k"%string, Val (DInt 2)); ("u"%string, Emp)])).
  { apply reads_dict with (us := [("k"%string, Val (DInt 1)); ("u"%string, Emp); ("k"%string, Val (DInt 2))]).
    - discriminate.
    - cbn [combine]. repeat constructor. simpl. lia.
    - apply (dict_of_insert_all [("k"%string, Val (DInt 1)); ("u"%string, Emp); ("k"%string, Val (DInt 2))]). }
  split; [exact R|]. split; [constructor|]. apply (C13_reads_unique _ _ _ R R).
Qed.

(** * C14 *)

Lemma wire_depth t : dg_depth (wire t) <= dg_depth t.
Proof.
  induction t as [|d|ts IH|kvs IH] using dg_ind'; auto.
  - destruct d; simpl; auto.
  - destruct ts as [|t ts]; [simpl; lia|]. rewrite wire_lst. cbn [dg_depth]. apply le_n_S.
    revert IH. generalize (t :: ts). clear. induction 1; simpl; lia.
  - destruct kvs as [|t ts]; [simpl; lia|]. rewrite wire_dct. cbn [dg_depth]. apply le_n_S.
    revert IH. generalize (t :: ts). clear. induction 1; simpl; lia.
Qed.

Lemma msg_deser_ok s tp t fuel h0 : dg_wf t -> dg_depth t < fuel ->
  exists h' c, msg_deser fuel (mkFbm (Some s) (Some tp) (Some (ser t))) h0 = (h', Ok (mkMsg s tp c)) /\
    denotes h' c (wire t) /\ forall x u, denotes h0 x u -> denotes h' x u.
Proof.
  intros Hw Hf. unfold msg_deser. cbn [fb_sender fb_topic fb_datagram].
  destruct (raw_deser_ok (ser t)) as [(u & R & Mk)|(B & _)]; [|exfalso; eapply reads_broken; eauto using ser_reads].
  rewrite (reads_fun _ _ _ R (ser_reads t Hw)) in Mk.
  destruct (Mk h0) as (h1 & a & F1 & E1 & X1 & O1 & _). rewrite (bind_ok _ _ _ _ _ E1).
  destruct (dg_copy_ctor_own fuel h1 a _ _ O1) as (h2 & F2 & E2 & O2 & _ & X2 & _).
  { pose proof (wire_depth t). lia. }
  rewrite (bind_ok _ _ _ _ _ E2). exists h2, (length h1). split; [reflexivity|]. split; [eexists; eauto|].
  intros x v (Fx & Hx). exists Fx. eapply own_extends; [|exact X2]. eapply own_extends; eauto.
Qed.

(** A received message with an absent sender, topic or datagram is undefined behaviour. *)
Theorem C14_absent_fields : forall fuel t h,
  fb_sender t = None \/ fb_topic t = None \/ fb_datagram t = None -> snd (msg_deser fuel t h) = UB.
Proof.
  intros fuel [s tp d] h H. simpl in H. unfold msg_deser. simpl.
  destruct s, tp, d; auto. destruct H as [H|[H|H]]; discriminate.
Qed.
Print Assumptions C14_absent_fields.

(** * C15 *)

(** Messages are equal if their senders, their topics and their datagrams are. *)
Theorem C14_message_equality : forall h a b ta tb, denotes h (m_dg a) ta -> denotes h (m_dg b) tb ->
  exists N, forall fuel, N <= fuel -> exists r, msg_eq fuel h a b = Ok r /\
    (r = true <-> m_sender a = m_sender b /\ m_topic a = m_topic b /\ dg_same ta tb).
Proof.
  intros h a b ta tb Da Db. destruct (C05_equality_is_structural _ _ _ _ _ Db Da) as (N & HN). exists N. intros fuel L.
  destruct (HN _ L) as (r & E & Hr). unfold msg_eq. destruct (String.eqb_spec (m_sender b) (m_sender a)) as [Es|Es].
  - destruct (String.eqb_spec (m_topic b) (m_topic a)) as [Et|Et].
    + exists r. split; auto. rewrite Hr. split; [intros S; repeat split; auto; now apply dg_same_sym|]. intros (_ & _ & S). now apply dg_same_sym.
    + exists false. split; auto. split; [discriminate|]. intros (_ & T & _). congruence.
  - exists false. split; auto. split; [discriminate|]. intros (T & _). congruence.
Qed.
Print Assumptions C14_message_equality.

(** Parsing any text: the result is a new datagram with the meaning of the document, or Empty
    if json-c rejects the text. *)
Theorem C15_json : forall tokener text h,
  (forall j, tokener text = Some j -> ~ bad_key j) ->
  exists h' c t, raw_from_json tokener text h = (h', Ok c) /\ denotes h' c t /\
    (forall x u, denotes h x u -> denotes h' x u) /\
    match tokener text with
    | Some j => json_means j t
    | None => t = Emp
    end.
Proof.
  intros tokener text h Hb. unfold raw_from_json.
  assert (K : exists t, makes (r <- raw_new ;; (match tokener text with Some j => parse_json j r | None => ret tt end) ;;; ret r) t /\
            match tokener text with Some j => json_means j t | None => t = Emp end).
  { destruct (tokener text) as [j|].
    - destruct (parse_json_ok j (Hb j eq_refl)) as (t & J & Fl). exists t. split; auto.
      apply (makes_fill (parse_json j)). exact Fl.
    - exists Emp. split; auto. apply (makes_fill (fun r => ret tt)). intros. now apply fill_none. }
  destruct K as (t & Mk & J). destruct (Mk h) as (h' & c & F & E & X & O & _).
  exists h', c, t. split; [exact E|]. split; [eexists; eauto|]. split; auto.
  intros x v (Fx & Hx). exists Fx. eapply own_extends; eauto.
Qed.
Print Assumptions C15_json.

(** The meaning of a document is unique and, but for NULs in keys, always exists. *)
Theorem C15_means_total_function : forall j,
  (~ bad_key j -> exists t, json_means j t /\ dg_wf t) /\
  forall t u, json_means j t -> json_means j u -> t = u.
Proof.
  intros j. split; [|apply json_means_fun]. intros Hb.
  destruct (parse_json_ok j Hb) as (t & J & Fl). exists t. split; auto.
  destruct (Fl [empty_node] 0) as (h' & F' & _ & O & _); [constructor; reflexivity|]. eapply own_wf; eauto.
Qed.
Print Assumptions C15_means_total_function.

(** {"a": [2147483648, null], "a": "x\u0000y"} and {"a": [2147483648, []]} *)
Definition ex_json (last : list (string * json)) : json :=
  JObject (("a"%string, JArray [JInt 2147483648; JArray []]) :: last).
Example C15_example :
  json_means (ex_json []) (Dct [("a"%string, Lst [Val (DInt 2147483647); Emp])]) /\
  json_means (ex_json [("a"%string, JString ("x" ++ String zero "y"))]) (Dct [("a"%string, Val (DStr "x"))]) /\
  ~ bad_key (ex_json []).
Proof.
  assert (A : json_means (JArray [JInt 2147483648; JArray []]) (Lst [Val (DInt 2147483647); Emp])).
  { apply jm_array. constructor; [apply (jm_big 2147483648); lia|]. constructor; [apply jm_no_items|constructor]. }
  split; [|split].
  - apply jm_object with (us := [("a"%string, Lst [Val (DInt 2147483647); Emp])]).
    + intros q [<-|[]]. simpl. intros [H|[]]. discriminate.
    + constructor; [split; [reflexivity|exact A]|constructor].
    + apply (dict_of_insert_all [("a"%string, Lst [Val (DInt 2147483647); Emp])]).
  - apply jm_object with (us := [("a"%string, Lst [Val (DInt 2147483647); Emp]); ("a"%string, Val (DStr "x"))]).
    + intros q [<-|[<-|[]]]; simpl; intros [H|[]]; discriminate.
    + constructor; [split; [reflexivity|exact A]|]. constructor; [|constructor]. split; [reflexivity|].
      apply (jm_string_nul "x" "y"). simpl. intros [H|[]]; discriminate.
    + apply (dict_of_insert_all [("a"%string, Lst [Val (DInt 2147483647); Emp]); ("a"%string, Val (DStr "x"))]).
  - intros B. inversion B as [? p Hp Hz|? p Hp B2|]; subst; destruct Hp as [<-|[]].
    + simpl in Hz. destruct Hz as [Hz|[]]. discriminate.
    + simpl in B2. inversion B2 as [| |? j Hj B3]; subst. destruct Hj as [<-|[<-|[]]]; inversion B3; subst; auto.
Qed.

(** * C16 *)

(** Printing reads only ([raw_print] returns no heap) and gives the rendering of the tree. *)
Theorem C16_print : forall double_text other_text h l t, denotes h l t ->
  exists N, forall fuel, N <= fuel -> raw_print double_text other_text fuel h l = Ok (render double_text other_text t).
Proof.
  intros sd so h l t (F & HO). exists (S (dg_depth t)). intros fuel Hf. eapply raw_print_ok; eauto.
Qed.
Print Assumptions C16_print.

Theorem C16_print_message : forall double_text other_text h m t, denotes h (m_dg m) t ->
  exists N, forall fuel, N <= fuel ->
  msg_print double_text other_text fuel h m =
    Ok ("[" ++ m_sender m ++ " to " ++ m_topic m ++ "]: " ++ render double_text other_text t)%string.
Proof.
  intros sd so h m t Ht. destruct (C16_print sd so h _ t Ht) as (N & K). exists N. intros fuel Hf.
  unfold msg_print. now rewrite K.
Qed.
Print Assumptions C16_print_message.

(** Equal contents print identically, wherever they are stored. *)
Theorem C16_deterministic : forall double_text other_text h l h' l' t, denotes h l t -> denotes h' l' t ->
  exists N, forall fuel fuel', N <= fuel -> N <= fuel' ->
  raw_print double_text other_text fuel h l = raw_print double_text other_text fuel' h' l'.
Proof.
  intros sd so h l h' l' t H1 H2. destruct (C16_print sd so h l t H1) as (N & K). destruct (C16_print sd so h' l' t H2) as (N' & K').
  exists (Nat.max N N'). intros f f' Hf Hf'. rewrite K, K' by lia. reflexivity.
Qed.
Print Assumptions C16_deterministic.

(** Whatever the text of doubles: different well-formed datagrams print identically - the
    boolean true and the integer 1, a string holding a quote and a list of two strings. *)
Theorem C16_not_injective : forall double_text other_text,
  render double_text other_text (Val (DBool true)) = render double_text other_text (Val (DInt 1)) /\
  render double_text other_text (Lst [Val (DStr "a"", ""b")]) =
  render double_text other_text (Lst [Val (DStr "a"); Val (DStr "b")]).
Proof. intros sd so. split; reflexivity. Qed.
Print Assumptions C16_not_injective.

Example C16_example : render (fun _ => EmptyString) (fun _ _ => EmptyString) ex_tree = "{a: [1, {}], b: 1}"%string /\
  raw_print (fun _ => EmptyString) (fun _ _ => EmptyString) 9 ex_heap 0 = Ok "{a: [1, {}], b: 1}"%string.
Proof. split; reflexivity. Qed.

(** * C11, continued *)

(** Serialising and printing return for some bound exactly on finite trees; on any other node
    without nulls below it they return for no bound. *)
Theorem C11_serialise_print_iff_finite : forall fuel0 cs h env l double_text other_text,
  run fuel0 cs ([], []) = Some (h, env) -> l < length h -> no_null h l ->
  ((exists fuel fb, raw_ser fuel h l = Ok fb) <-> (exists t, denotes h l t)) /\
  ((exists fuel s, raw_print double_text other_text fuel h l = Ok s) <-> (exists t, denotes h l t)) /\
  (~ (exists t, denotes h l t) -> forall fuel,
     raw_ser fuel h l = NoFuel /\ raw_print double_text other_text fuel h l = NoFuel).
Proof.
  intros fuel0 cs h env l sd so Hr Hl Hn. destruct (run_scoped _ _ _ _ _ _ scoped_nil Hr) as [A _].
  assert (Ks : forall f, match raw_ser f h l with Ok _ => finite_at h l | NoFuel => True | _ => False end)
    by (intros; apply ser_result; auto).
  assert (Kp : forall f, match raw_print sd so f h l with Ok _ => finite_at h l | NoFuel => True | _ => False end)
    by (intros; apply print_result; auto).
  split; [split|split; [split|]].
  - intros (f & fb & E). specialize (Ks f). now rewrite E in Ks.
  - intros (t & F & HO). exists (S (dg_depth t)), (ser t). eapply raw_ser_ok; eauto.
  - intros (f & fb & E). specialize (Kp f). now rewrite E in Kp.
  - intros (t & F & HO). exists (S (dg_depth t)), (render sd so t). eapply raw_print_ok; eauto.
  - intros Hf f. split.
    + specialize (Ks f). destruct (raw_ser f h l); auto; tauto.
    + specialize (Kp f). destruct (raw_print sd so f h l); auto; tauto.
Qed.
Print Assumptions C11_serialise_print_iff_finite.

(** The one-node loop [d.Add(d)] of C11_example_loop is such a node. *)
Example C11_example_serialise_loop : exists h env,
  run 9 [CNew; CAdd 0 (Some 0)] ([], []) = Some (h, env) /\ 0 < length h /\ no_null h 0 /\ ~ (exists t, denotes h 0 t).
Proof.
  eexists _, _. split; [reflexivity|]. split; [simpl; lia|]. split.
  - intros [|[|l]] n _ Hn; simpl in Hn; try discriminate. injection Hn as <-. split; [|discriminate].
    intros p [<-|[]]. discriminate.
  - eapply (cycle_not_finite _ 0 _ 0); [reflexivity|simpl; auto|apply reach_env; simpl; auto].
Qed.

(** * C18 *)

Lemma substring_prefix p r : substring 0 (String.length p) (p ++ r) = p.
Proof. induction p as [|c p IH]; simpl; [now destruct r|now rewrite IH]. Qed.
Lemma substring_rest p r n : String.length r <= n -> substring (String.length p) n (p ++ r) = r.
Proof.
  induction p as [|c p IH]; simpl; auto. revert n. induction r as [|c r IH]; intros [|n] H; simpl in *; try lia; auto.
  f_equal. apply IH. lia.
Qed.
Lemma substring_inv n s p : substring 0 n s = p -> exists r, s = (p ++ r)%string.
Proof.
  revert s p; induction n as [|n IH]; intros s p <-.
  - exists s. now destruct s.
  - destruct s as [|c s]; [exists EmptyString; auto|]. destruct (IH s _ eq_refl) as (r & E). exists r. simpl. now rewrite <- E.
Qed.
Lemma slength_app (a b : string) : String.length (a ++ b) = String.length a + String.length b.
Proof. induction a; simpl; auto. Qed.

Lemma prefix_eqb name s :
  String.eqb (substring 0 (String.length name + 1) s) (name ++ "/") = true <-> exists r, s = (name ++ "/" ++ r)%string.
Proof.
  rewrite String.eqb_eq. split.
  - intros H. destruct (substring_inv _ _ _ H) as (r & ->). exists r. now rewrite sapp_assoc.
  - intros (r & ->). rewrite <- sapp_assoc. replace (String.length name + 1) with (String.length (name ++ "/")).
    + apply substring_prefix.
    + now rewrite slength_app.
Qed.

Theorem C18_was_sent_by : forall name m, was_sent_by name m = true <-> exists r, m_sender m = (name ++ "/" ++ r)%string.
Proof. intros name m. apply prefix_eqb. Qed.
Print Assumptions C18_was_sent_by.

Theorem C18_prepend : forall name m,
  m_sender (prepend_sender name m) = (name ++ "/" ++ m_sender m)%string /\
  m_topic (prepend_sender name m) = m_topic m /\ m_dg (prepend_sender name m) = m_dg m.
Proof. intros. repeat split. Qed.
Print Assumptions C18_prepend.

(** RemoveSender takes off the prefix if it is there and does nothing otherwise. *)
Theorem C18_remove : forall name m,
  m_topic (remove_sender name m) = m_topic m /\ m_dg (remove_sender name m) = m_dg m /\
  (forall r, m_sender m = (name ++ "/" ++ r)%string -> m_sender (remove_sender name m) = r) /\
  ((forall r, m_sender m <> (name ++ "/" ++ r)%string) -> remove_sender name m = m).
Proof.
  intros name [s t d]. unfold remove_sender. cbn [m_sender m_topic m_dg].
  destruct (String.eqb (substring 0 (String.length name + 1) s) (name ++ "/")) eqn:E; cbn [m_sender m_topic m_dg].
  - split; auto. split; auto. split.
    + intros r ->. rewrite <- sapp_assoc. replace (String.length name + 1) with (String.length (name ++ "/")) by now rewrite slength_app.
      apply substring_rest. rewrite slength_app. lia.
    + intros H. apply prefix_eqb in E. destruct E as (r & ->). destruct (H r eq_refl).
  - split; auto. split; auto. split; auto. intros r ->. exfalso.
    assert (K : String.eqb (substring 0 (String.length name + 1) (name ++ "/" ++ r)) (name ++ "/") = true) by (apply prefix_eqb; eauto).
    rewrite K in E. discriminate.
Qed.
Print Assumptions C18_remove.

Theorem C18_prepend_remove : forall name m, remove_sender name (prepend_sender name m) = m.
Proof.
  intros name m. destruct (C18_remove name (prepend_sender name m)) as (Ht & Hd & Hr & _).
  destruct (remove_sender name (prepend_sender name m)) as [s t d]. destruct m as [s' t' d']. cbn in *.
  rewrite (Hr s' eq_refl), Ht, Hd. reflexivity.
Qed.
Print Assumptions C18_prepend_remove.

Definition no_slash (s : string) : Prop := ~ In "/"%char (list_ascii_of_string s).

(** Any number of prefixes comes off in the reverse order. *)
Theorem C18_stack : forall names m,
  fold_left (fun m n => remove_sender n m) (rev names) (fold_left (fun m n => prepend_sender n m) names m) = m.
Proof.
  intros names. induction names as [|n names IH] using rev_ind; intros m; auto.
  rewrite rev_app_distr, (fold_left_app _ names [n]). cbn [rev app fold_left]. rewrite C18_prepend_remove. apply IH.
Qed.
Print Assumptions C18_stack.

Theorem C18_only_sender : forall a b m, no_slash a -> no_slash b ->
  (was_sent_by b (prepend_sender a m) = true <-> b = a).
Proof.
  intros a b m Ha Hb. rewrite C18_was_sent_by. cbn [m_sender prepend_sender]. split.
  - intros (r & E). revert a E Ha Hb. unfold no_slash. induction b as [|c b IH]; intros [|c' a] E Ha Hb; simpl in *; auto.
    + injection E as -> _. exfalso; auto.
    + injection E as <- _. exfalso; auto.
    + injection E as -> E. f_equal. apply IH; auto.
  - intros ->. eauto.
Qed.
Print Assumptions C18_only_sender.

(** A sender whose name begins with another's name: WasSentBySender tells them apart; with a
    '/' in a name it does not. *)
Example C18_example :
  was_sent_by "lamp" (prepend_sender "lamppost" (mkMsg "x" "t" 0)) = false /\
  was_sent_by "lamppost" (prepend_sender "lamppost" (mkMsg "x" "t" 0)) = true /\
  was_sent_by "lamp" (prepend_sender "lamp/post" (mkMsg "x" "t" 0)) = true /\
  no_slash "lamp" /\ no_slash "lamppost" /\
  remove_sender "lamp" (mkMsg "lamp" "t" 0) = mkMsg "lamp" "t" 0.
Proof.
  repeat split; unfold no_slash; simpl; intuition discriminate.
Qed.

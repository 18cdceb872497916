(** JSON conversion, printing, and both on nodes that are not finite trees. *)
From Coq Require Import String Ascii List Arith ZArith NArith Bool Lia Sorting DecimalString.
From Verif Require Import Prelude OMap DatagramModel DatagramSpec DatagramHeap DatagramProofs DatagramEq
  DatagramStmt DatagramRefine DatagramRefine2 DatagramInv DatagramIso DatagramFinite DatagramDiverge
  SerialModel PrintModel SerialSpec SerialProofs.
Import ListNotations.
Open Scope list_scope.

(** ** JSON *)

Section JsonInd.
  Variable P : json -> Prop.
  Hypothesis Hnull : P JNull.
  Hypothesis Hbool : forall b, P (JBool b).
  Hypothesis Hdouble : forall d, P (JDouble d).
  Hypothesis Hint : forall z, P (JInt z).
  Hypothesis Hstring : forall s, P (JString s).
  Hypothesis Harray : forall js, Forall P js -> P (JArray js).
  Hypothesis Hobject : forall kvs, Forall (fun p => P (snd p)) kvs -> P (JObject kvs).

  Fixpoint json_ind' (j : json) : P j :=
    match j with
    | JNull => Hnull
    | JBool b => Hbool b
    | JDouble d => Hdouble d
    | JInt z => Hint z
    | JString s => Hstring s
    | JArray js => Harray js ((fix all js : Forall P js :=
        match js with [] => Forall_nil _ | x :: js' => Forall_cons _ (json_ind' x) (all js') end) js)
    | JObject kvs => Hobject kvs ((fix all kvs : Forall (fun p => P (snd p)) kvs :=
        match kvs with [] => Forall_nil _ | x :: kvs' => Forall_cons x (json_ind' (snd x)) (all kvs') end) kvs)
    end.
End JsonInd.

Definition nul_free (s : string) : Prop := ~ In zero (list_ascii_of_string s).

Lemma c_str_free s : nul_free s -> c_str s = s.
Proof.
  unfold nul_free. induction s as [|c s IH]; simpl; auto. intros H.
  destruct (Ascii.eqb_spec c zero) as [->|]; [exfalso; auto|]. f_equal; auto.
Qed.

Lemma c_str_split s : (nul_free s /\ c_str s = s) \/
  exists s1 s2, s = (s1 ++ String zero s2)%string /\ nul_free s1 /\ c_str s = s1.
Proof.
  induction s as [|c s IH]; simpl.
  - left. split; auto. intros [].
  - destruct (Ascii.eqb_spec c zero) as [->|Hne].
    + right. exists EmptyString, s. split; auto. split; auto. intros [].
    + destruct IH as [[Hf E]|(s1 & s2 & -> & Hf & E)].
      * left. split; [|congruence]. intros [H|H]; auto.
      * right. exists (String c s1), s2. split; auto. split; [|now rewrite E]. intros [H|H]; auto.
Qed.

Definition fills (f : loc -> M unit) (t : dg) : Prop :=
  forall h r, own h r Emp [r] -> exists h' F', f r h = (h', Ok tt) /\ own h' r t F' /\ NoDup F' /\ step_ok h h' [r] F'.

Lemma parse_json_ok j : ~ bad_key j -> exists t, json_means j t /\ fills (parse_json j) t.
Proof.
  induction j as [|b|d|z|s|js IH|kvs IH] using json_ind'; intros Hb.
  - exists Emp. split; [constructor|]. intros h r HO. now apply fill_none.
  - exists (Val (DBool b)). split; [constructor|]. intros h r HO. now apply fill_val.
  - exists (Val (DDouble d)). split; [constructor|]. intros h r HO. now apply fill_val.
  - exists (Val (DInt (clamp32 z))). split; [|intros h r HO; now apply fill_val]. unfold clamp32.
    destruct (Z_lt_ge_dec z (- 2 ^ 31)) as [H|H].
    { replace (Z.max _ _) with (- 2 ^ 31)%Z by lia. now constructor. }
    destruct (Z_le_gt_dec (2 ^ 31) z) as [H'|H'].
    { replace (Z.max _ _) with (2 ^ 31 - 1)%Z by lia. now constructor. }
    replace (Z.max _ _) with z by lia. constructor. lia.
  - exists (Val (DStr (c_str s))). split; [|intros h r HO; now apply fill_val].
    destruct (c_str_split s) as [[Hf ->]|(s1 & s2 & -> & Hf & ->)]; now constructor.
  - assert (K : exists us, Forall2 json_means js us /\
                 Forall2 makes (map (fun x => c <- raw_new ;; parse_json x c ;;; ret c) js) us).
    { assert (Hb' : forall x, In x js -> ~ bad_key x) by (intros x Hx B; apply Hb; econstructor; eauto).
      clear Hb. induction js as [|x js IHjs]; [exists []; split; constructor|]. inversion IH; subst.
      destruct IHjs as (us & A & B); auto. { intros; apply Hb'; simpl; auto. }
      destruct H1 as (u & Hu & Fu); [apply Hb'; simpl; auto|].
      exists (u :: us). split; constructor; auto. now apply makes_fill. }
    destruct K as (us & A & B). exists (list_result Emp us). split.
    + destruct js; inversion A; subst; constructor. constructor; auto.
    + intros h r HO. cbn [parse_json]. apply add_all_ok; auto. repeat constructor; auto.
  - assert (K : exists us, Forall2 (fun x y => fst x = fst y /\ json_means (snd x) (snd y)) kvs us /\
                 Forall2 (fun x y => fst x = fst y /\ makes (snd x) (snd y))
                   (map (fun p => (c_str (fst p), c <- raw_new ;; parse_json (snd p) c ;;; ret c)) kvs) us).
    { assert (Hb' : forall p, In p kvs -> ~ bad_key (snd p) /\ nul_free (fst p)).
      { intros p Hp. split; intros B; apply Hb; [eapply bad_member|eapply bad_here]; eauto. }
      clear Hb. induction kvs as [|[k x] kvs IHk]; [exists []; split; constructor|]. inversion IH; subst.
      destruct IHk as (us & A & B); auto. { intros; apply Hb'; simpl; auto. }
      destruct (Hb' (k, x)) as [Hx Hk]; [simpl; auto|]. simpl in *.
      destruct H1 as (u & Hu & Fu); auto.
      exists ((k, u) :: us). split; constructor; simpl; auto. split; [now apply c_str_free|]. now apply makes_fill. }
    destruct K as (us & A & B). exists (dict_result Emp us). split.
    + destruct kvs as [|p kvs]; inversion A as [|? [k u] ? us']; subst; [constructor|].
      eapply (jm_object p kvs ((k, u) :: us')); auto; [|apply dict_of_insert_all].
      intros q Hq Hz. apply Hb. eapply bad_here; eauto.
    + intros h r HO. cbn [parse_json]. apply put_all_ok; auto. repeat constructor; auto.
Qed.

Lemma nul_split_unique s1 s2 s1' s2' :
  nul_free s1 -> nul_free s1' -> (s1 ++ String zero s2)%string = (s1' ++ String zero s2')%string -> s1 = s1'.
Proof.
  unfold nul_free. revert s1'. induction s1 as [|c s1 IH]; intros [|c' s1'] H1 H2 E; simpl in *; auto.
  - injection E as <- _. exfalso; auto.
  - injection E as -> _. exfalso; auto.
  - injection E as -> E. f_equal. apply IH; auto.
Qed.

Lemma nul_in_app s1 s2 : In zero (list_ascii_of_string (s1 ++ String zero s2)).
Proof. induction s1; simpl; auto. Qed.

Lemma json_means_fun j : forall t u, json_means j t -> json_means j u -> t = u.
Proof.
  induction j as [|b|d|z|s|js IH|kvs IH] using json_ind'; intros t u H1 H2.
  1-3: inversion H1; subst; inversion H2; subst; auto.
  - inversion H1; subst; inversion H2; subst; auto; lia.
  - inversion H1 as [| | | | | |? F1|x y F1 E1| | | |]; subst; inversion H2 as [| | | | | |? F2|x' y' F2 E2| | | |]; subst; auto.
    + exfalso. apply F1. apply nul_in_app.
    + exfalso. apply F2. apply nul_in_app.
    + do 2 f_equal. symmetry. eapply nul_split_unique; eauto.
  - inversion H1; subst; inversion H2; subst; auto. f_equal. eapply Forall2_fun; eauto.
  - inversion H1 as [| | | | | | | | | | |p ps us m N1 F1 D1]; subst; inversion H2 as [| | | | | | | | | | |? ? us' m' N2 F2 D2]; subst; auto.
    f_equal. replace us' with us in D2; [eapply dict_of_unique; eauto|].
    eapply Forall2_fun; [|exact F1|exact F2]. eapply Forall_impl; [|exact IH].
    intros [k x] Hx [k1 x1] [k2 x2] [E1 R1] [E2 R2]. simpl in *. subst. f_equal. auto.
Qed.

(** ** Printing *)

Lemma sapp_assoc (a b c : string) : ((a ++ b) ++ c = a ++ (b ++ c))%string.
Proof. induction a; simpl; congruence. Qed.
Lemma sapp_nil (a : string) : (a ++ "" = a)%string.
Proof. induction a; simpl; congruence. Qed.

Fixpoint sep_all (l : list string) : string :=
  match l with [] => "" | x :: l' => ", " ++ x ++ sep_all l' end%string.

Lemma concat_sep x l : String.concat ", " (x :: l) = (x ++ sep_all l)%string.
Proof.
  revert x; induction l as [|y l IH]; intros x; [simpl; now rewrite sapp_nil|].
  change (String.concat ", " (x :: y :: l)) with (x ++ ", " ++ String.concat ", " (y :: l))%string.
  now rewrite IH.
Qed.

Lemma quote_eq : quote = """"%string.
Proof. reflexivity. Qed.

Section Print.
Variable sd : N -> string.
Variable so : string -> string -> string.

Lemma raw_print_ok t : forall f h l F, dg_depth t < f -> own h l t F -> raw_print sd so f h l = Ok (render sd so t).
Proof.
  induction t as [|d|ts IH|kvs IH] using dg_ind'; intros f h l F Hf HO; destruct f as [|f]; try lia;
    inversion HO as [? Hn|? ? Hn|? ps ? F' Hn Hos|? m ? F' Hn Hs Hk Hos]; subst; cbn [raw_print]; rewrite Hn; cbn [nd_type nd_val nd_list nd_dict].
  - reflexivity.
  - destruct d as [z|[]|b|s|ty r]; cbn [show_data render]; rewrite ?sapp_nil; auto.
  - assert (Hd : forall t, In t ts -> dg_depth t < f) by (intros t Ht; apply depth_lst_child in Ht; simpl in Hf, Ht; lia).
    match goal with |- ?fx ps true _ = _ =>
      assert (G : forall out, fx ps false out = Ok (out ++ sep_all (map (render sd so) ts) ++ "]")%string) end.
    { clear Hn HO Hf. revert ps F' Hos. induction ts as [|t ts IHts]; intros ps F' Hos out; inversion Hos; subst; auto.
      inversion IH; subst. cbn [map sep_all]. match goal with A : own h _ t _, B : forall f h l F, _ |- _ => rewrite (B f h _ _ (Hd t (or_introl eq_refl)) A) end.
      cbn [res_bind]. match goal with A : Forall _ ts, B : owns h _ ts _ |- _ =>
        rewrite (IHts A (fun u Hu => Hd u (or_intror Hu)) _ _ B) end. now rewrite !sapp_assoc. }
    destruct ts as [|t ts]; inversion Hos; subst; [reflexivity|].
    inversion IH; subst. match goal with A : own h _ t _, B : forall f h l F, _ |- _ => rewrite (B f h _ _ (Hd t (or_introl eq_refl)) A) end.
    cbn [res_bind]. match goal with B : owns h _ ts _ |- _ => rename B into HB end.
    clear G.
    match goal with |- ?fx ?ps false ?o = _ => 
      assert (G : forall ts ps F out, Forall (fun t => forall (f : nat) (h : heap) (l : loc) (F : list loc), dg_depth t < f -> own h l t F -> raw_print sd so f h l = Ok (render sd so t)) ts ->
        (forall t, In t ts -> dg_depth t < f) -> owns h ps ts F -> fx ps false out = Ok (out ++ sep_all (map (render sd so) ts) ++ "]")%string) end.
    { clear. induction ts as [|t ts IHts]; intros ps F' out IH Hd Hos; inversion Hos; subst; auto.
      inversion IH; subst. cbn [map sep_all]. match goal with A : own h _ t _, B : forall f h l F, _ |- _ => rewrite (B f h _ _ (Hd t (or_introl eq_refl)) A) end.
      cbn [res_bind]. match goal with A : Forall _ ts, B : owns h _ ts _ |- _ =>
        rewrite (IHts _ _ _ A (fun u Hu => Hd u (or_intror Hu)) B) end. now rewrite !sapp_assoc. }
    erewrite G; eauto; [|intros; apply Hd; simpl; auto].
    cbn [render]. cbn [map]. rewrite concat_sep. simpl. now rewrite !sapp_assoc.
  - assert (Hd : forall p, In p kvs -> dg_depth (snd p) < f) by (intros t Ht; apply depth_dct_child in Ht; simpl in Hf, Ht; lia).
    destruct kvs as [|[k t] kvs]; destruct m as [|[k' q] m]; try discriminate Hk; [reflexivity|].
    injection Hk as -> Hk. cbn [map snd fst] in *. inversion Hos; subst. inversion IH; subst.
    match goal with A : own h _ t _, B : forall f h l F, _ |- _ => rewrite (B f h _ _ (Hd (k, t) (or_introl eq_refl)) A) end.
    cbn [res_bind].
    match goal with |- ?fx ?ps false ?o = _ => 
      assert (G : forall kvs m F out, Forall (fun p => forall (f : nat) (h : heap) (l : loc) (F : list loc), dg_depth (snd p) < f -> own h l (snd p) F -> raw_print sd so f h l = Ok (render sd so (snd p))) kvs ->
        (forall p, In p kvs -> dg_depth (snd p) < f) -> okeys m = okeys kvs -> owns h (map snd m) (map snd kvs) F ->
        fx m false out = Ok (out ++ sep_all (map (fun p => fst p ++ ": " ++ render sd so (snd p))%string kvs) ++ "}")%string) end.
    { clear. induction kvs as [|[k t] kvs IHts]; intros [|[k' q] m] F' out IH Hd Hk Hos; try discriminate Hk; auto.
      injection Hk as -> Hk. cbn [map snd fst] in *. inversion Hos; subst. inversion IH; subst. cbn [sep_all].
      match goal with A : own h _ t _, B : forall f h l F, _ |- _ => rewrite (B f h _ _ (Hd (k, t) (or_introl eq_refl)) A) end.
      cbn [res_bind]. match goal with A : Forall _ kvs, B : owns h _ _ _ |- _ =>
        rewrite (IHts m _ _ A (fun u Hu => Hd u (or_intror Hu)) Hk B) end. now rewrite !sapp_assoc. }
    erewrite G; eauto; [|intros; apply Hd; simpl; auto].
    cbn [render]. cbn [map]. rewrite concat_sep. simpl. now rewrite !sapp_assoc.
Qed.

End Print.

(** ** Nodes that are not finite trees *)

Section Loop.
Variable h : heap.
Hypothesis H0 : forall l n, nth_error h l = Some n -> shape n /\ forall c, In c (kids n) -> c < length h.

Lemma no_null_kid l n c : nth_error h l = Some n -> In c (kids n) -> no_null h l -> no_null h c.
Proof.
  intros Hn Hc H x m Hx Hm. apply (H x m); auto. apply (reach_trans h [l] c x); auto.
  apply (reach_kid h [l] l n c); auto. constructor. simpl; auto.
Qed.

Lemma ser_result f : forall l, l < length h -> no_null h l ->
  match raw_ser f h l with Ok _ => finite_at h l | NoFuel => True | _ => False end.
Proof.
  induction f as [|f IH]; intros l Hl Hnn; [exact I|]. cbn [raw_ser].
  destruct (nth_error h l) as [n|] eqn:Hn; [|apply nth_error_None in Hn; lia].
  destruct (H0 _ _ Hn) as [Hs Hk]. destruct (Hnn l n) as [Hnull Hval]; auto. { constructor; simpl; auto. }
  assert (Kid : forall c, In (Some c) (slots n) -> match raw_ser f h c with Ok _ => finite_at h c | NoFuel => True | _ => False end).
  { intros c Hc. apply slot_kid in Hc. apply IH; eauto using no_null_kid. }
  assert (Fin : (forall p, In p (slots n) -> exists c, p = Some c /\ finite_at h c) -> finite_at h l).
  { intros K. eapply build_finite; eauto. }
  pose proof Hs as [Hsort Hsh].
  destruct (nd_type n) eqn:Ty.
  - apply Fin. intros p Hp. apply slots_in in Hp. destruct Hsh as (E1 & E2 & _). rewrite E1, E2 in Hp. destruct Hp as [(k & [])|[]].
  - assert (K : forall ps, (forall p, In p ps -> In p (slots n)) -> forall acc,
      match (fix ser_items (ps : list (option loc)) (acc : list fbd) : res fbd :=
           match ps with
           | [] => Ok (fb_table dt_list vt_string None 0 0 false acc [] [])
           | None :: _ => UB
           | Some p :: ps' => res_bind (raw_ser f h p) (fun t => ser_items ps' (acc ++ [t]))
           end) ps acc with
      | Ok _ => forall p, In p ps -> exists c, p = Some c /\ finite_at h c | NoFuel => True | _ => False end).
    { induction ps as [|[c|] ps IHps]; intros Hps acc.
      - intros p [].
      - pose proof (Kid c (Hps _ (or_introl eq_refl))) as Kc. destruct (raw_ser f h c) as [t| | |]; simpl; auto.
        specialize (IHps (fun p Hp => Hps p (or_intror Hp)) (acc ++ [t])).
        match goal with |- match ?x with _ => _ end => destruct x end; auto.
        intros p [<-|Hp]; eauto.
      - exfalso. eapply Hnull; [apply Hps; simpl; auto|auto]. }
    specialize (K (nd_list n)).
    match goal with |- match ?fx ?ps ?a with _ => _ end => specialize (fun A => K A a); destruct (fx ps a) end; auto.
    + apply Fin. intros p Hp. apply K.
      * intros q Hq. apply slots_in. auto.
      * apply slots_in in Hp. destruct Hsh as (E1 & _). rewrite E1 in Hp. destruct Hp as [(k & [])|]; auto.
    + apply K. intros q Hq. apply slots_in. auto.
    + apply K. intros q Hq. apply slots_in. auto.
  - assert (K : forall ps, (forall p, In p (map snd ps) -> In p (slots n)) -> forall ks vs,
      match (fix ser_pairs (kvs : omap (option loc)) (ks : list string) (vs : list fbd) : res fbd :=
           match kvs with
           | [] => Ok (fb_table dt_dict vt_string None 0 0 false [] ks vs)
           | (_, None) :: _ => UB
           | (k, Some p) :: kvs' => res_bind (raw_ser f h p) (fun t => ser_pairs kvs' (ks ++ [k]) (vs ++ [t]))
           end) ps ks vs with
      | Ok _ => forall p, In p (map snd ps) -> exists c, p = Some c /\ finite_at h c | NoFuel => True | _ => False end).
    { induction ps as [|[k [c|]] ps IHps]; intros Hps ks vs.
      - intros p [].
      - pose proof (Kid c (Hps _ (or_introl eq_refl))) as Kc. destruct (raw_ser f h c) as [t| | |]; simpl; auto.
        specialize (IHps (fun p Hp => Hps p (or_intror Hp)) (ks ++ [k]) (vs ++ [t])).
        match goal with |- match ?x with _ => _ end => destruct x end; auto.
        intros p [<-|Hp]; eauto.
      - exfalso. eapply Hnull; [apply Hps; simpl; auto|auto]. }
    specialize (K (nd_dict n)).
    assert (Hd : forall p, In p (map snd (nd_dict n)) <-> In p (slots n)).
    { intros p. unfold slots. destruct Hsh as (E2 & _). rewrite in_app_iff, E2. simpl. tauto. }
    match goal with |- match ?fx ?ps ?a ?b with _ => _ end => specialize (fun A => K A a b); destruct (fx ps a b) end; auto.
    + apply Fin. intros p Hp. apply K; [intros; now apply Hd|now apply Hd].
    + apply K. intros; now apply Hd.
    + apply K. intros; now apply Hd.
  - assert (finite_at h l).
    { apply Fin. intros p Hp. apply slots_in in Hp. destruct Hsh as (E1 & E2). rewrite E1, E2 in Hp. destruct Hp as [(k & [])|[]]. }
    destruct (nd_val n) as [[]|]; auto.
Qed.

Lemma print_result sd so f : forall l, l < length h -> no_null h l ->
  match raw_print sd so f h l with Ok _ => finite_at h l | NoFuel => True | _ => False end.
Proof.
  induction f as [|f IH]; intros l Hl Hnn; [exact I|]. cbn [raw_print].
  destruct (nth_error h l) as [n|] eqn:Hn; [|apply nth_error_None in Hn; lia].
  destruct (H0 _ _ Hn) as [Hs Hk]. destruct (Hnn l n) as [Hnull Hval]; auto. { constructor; simpl; auto. }
  assert (Kid : forall c, In (Some c) (slots n) -> match raw_print sd so f h c with Ok _ => finite_at h c | NoFuel => True | _ => False end).
  { intros c Hc. apply slot_kid in Hc. apply IH; eauto using no_null_kid. }
  assert (Fin : (forall p, In p (slots n) -> exists c, p = Some c /\ finite_at h c) -> finite_at h l).
  { intros K. eapply build_finite; eauto. }
  pose proof Hs as [Hsort Hsh].
  destruct (nd_type n) eqn:Ty.
  - apply Fin. intros p Hp. apply slots_in in Hp. destruct Hsh as (E1 & E2 & _). rewrite E1, E2 in Hp. destruct Hp as [(k & [])|[]].
  - match goal with |- match ?fx _ _ _ with _ => _ end => assert (K : forall ps, (forall p, In p ps -> In p (slots n)) -> forall b out,
      match fx ps b out with
      | Ok _ => forall p, In p ps -> exists c, p = Some c /\ finite_at h c | NoFuel => True | _ => False end) end.
    { induction ps as [|[c|] ps IHps]; intros Hps b out.
      - intros p [].
      - pose proof (Kid c (Hps _ (or_introl eq_refl))) as Kc. destruct (raw_print sd so f h c) as [t| | |]; cbn [res_bind]; auto.
        specialize (IHps (fun p Hp => Hps p (or_intror Hp)) false ((if b then out else (out ++ ", ")%string) ++ t)%string).
        match goal with |- match ?x with _ => _ end => destruct x end; auto.
        intros p [<-|Hp]; eauto.
      - exfalso. eapply Hnull; [apply Hps; simpl; auto|auto]. }
    specialize (K (nd_list n)).
    match goal with |- match ?fx ?ps ?a ?b with _ => _ end => specialize (fun A => K A a b); destruct (fx ps a b) end; auto.
    + apply Fin. intros p Hp. apply K.
      * intros q Hq. apply slots_in. auto.
      * apply slots_in in Hp. destruct Hsh as (E1 & _). rewrite E1 in Hp. destruct Hp as [(k & [])|]; auto.
    + apply K. intros q Hq. apply slots_in. auto.
    + apply K. intros q Hq. apply slots_in. auto.
  - match goal with |- match ?fx _ _ _ with _ => _ end => assert (K : forall ps, (forall p, In p (map snd ps) -> In p (slots n)) -> forall b out,
      match fx ps b out with
      | Ok _ => forall p, In p (map snd ps) -> exists c, p = Some c /\ finite_at h c | NoFuel => True | _ => False end) end.
    { induction ps as [|[k [c|]] ps IHps]; intros Hps b out.
      - intros p [].
      - pose proof (Kid c (Hps _ (or_introl eq_refl))) as Kc. destruct (raw_print sd so f h c) as [t| | |]; cbn [res_bind]; auto.
        specialize (IHps (fun p Hp => Hps p (or_intror Hp)) false ((if b then out else (out ++ ", ")%string) ++ k ++ ": " ++ t)%string).
        match goal with |- match ?x with _ => _ end => destruct x end; auto.
        intros p [<-|Hp]; simpl; eauto.
      - exfalso. eapply Hnull; [apply Hps; simpl; auto|auto]. }
    specialize (K (nd_dict n)).
    assert (Hd : forall p, In p (map snd (nd_dict n)) <-> In p (slots n)).
    { intros p. unfold slots. destruct Hsh as (E2 & _). rewrite in_app_iff, E2. simpl. tauto. }
    match goal with |- match ?fx ?ps ?a ?b with _ => _ end => specialize (fun A => K A a b); destruct (fx ps a b) end; auto.
    + apply Fin. intros p Hp. apply K; [intros; now apply Hd|now apply Hd].
    + apply K. intros; now apply Hd.
    + apply K. intros; now apply Hd.
  - destruct (nd_val n) as [d|] eqn:V.
    + apply Fin. intros p Hp. apply slots_in in Hp. destruct Hsh as (E1 & E2). rewrite E1, E2 in Hp. destruct Hp as [(k & [])|[]].
    + now apply Hval.
Qed.

End Loop.

(** Property C69: the payload of a message is a snapshot. *)
From Coq Require Import String List Arith ZArith Bool Lia.
From Verif Require Import Prelude OMap DatagramModel DatagramSpec DatagramHeap DatagramProofs DatagramStmt DatagramRefine
  DatagramRefine2 DatagramInv DatagramIso SerialModel MessageModel.
Import ListNotations.
Open Scope list_scope.

Lemma nth_app1_some A (l l' : list A) i x : nth_error l i = Some x -> nth_error (l ++ l') i = Some x.
Proof. intros H. rewrite nth_error_app1; auto. apply nth_error_Some. congruence. Qed.

(** ** Copies are new nodes *)

(** [h'] is [h] with new nodes, none of which an old node refers to. *)
Definition grown (h h' : heap) : Prop :=
  scoped h' [] /\ length h <= length h' /\ forall x, x < length h -> nth_error h' x = nth_error h x.

Definition fresh (h h' : heap) (c : loc) : Prop := c < length h' /\ forall x, reach h' [c] x -> length h <= x.

Lemma grown_refl h : scoped h [] -> grown h h.
Proof. intros Hs. split; [exact Hs|]. split; auto. Qed.

Lemma grown_trans h1 h2 h3 : grown h1 h2 -> grown h2 h3 -> grown h1 h3.
Proof.
  intros (A1 & A2 & A3) (B1 & B2 & B3). split; [auto|]. split; [lia|]. intros x Hx. rewrite B3, A3; auto; lia.
Qed.

Lemma scoped_heap h env : scoped h env -> scoped h [].
Proof. intros [A _]. split; auto. Qed.

Lemma copy_grown f l h h' r : scoped h [] -> dg_copy_ctor f l h = (h', r) ->
  grown h h' /\ match r with Ok c => fresh h h' c | _ => True end.
Proof.
  intros Sc E. set (P := fun x => length h <= x).
  assert (I0 : inv (length h) P h).
  { split; [lia|]. intros x n Hn. destruct Sc as [A _]. destruct (A x n Hn) as [B C]. split; auto.
    intros y Hy. split; auto. intros Hx. apply nth_lt in Hn. unfold P in Hx. lia. }
  assert (T : tri (length h) P (dg_copy_ctor f l) h (fun c h' => good P h' c)) by (apply tri_copy_ctor; auto).
  specialize (T I0). rewrite E in T. destruct T as ([_ I1] & [L1 R1] & Hg).
  split.
  - split; [|split; [exact L1|]].
    + split; [|constructor]. intros x n Hn. destruct (I1 x n Hn) as [B C]. split; auto. intros y Hy. now apply C.
    + intros x Hx. apply R1. unfold P. lia.
  - destruct r as [c| | |]; auto. destruct Hg as [G1 G2]. split; [exact G1|]. apply reach_closed.
    + constructor; auto.
    + intros z n y Hz Hn Hyk. destruct (I1 z n Hn) as [_ C]. destruct (C y Hyk) as [_ HP]. exact (HP Hz).
Qed.

Lemma reach_app h a b x : reach h (a ++ b) x <-> reach h a x \/ reach h b x.
Proof.
  split.
  - intros H. induction H as [l Hl|l n c H IH Hn Hc].
    + apply in_app_iff in Hl. destruct Hl; [left|right]; now apply reach_env.
    + destruct IH; [left|right]; eapply reach_kid; eauto.
  - intros [H|H]; (induction H as [l Hl|]; [apply reach_env; apply in_app_iff; auto|eapply reach_kid; eauto]).
Qed.

Lemma scoped_grown h h' env : grown h h' -> scoped h env -> scoped h' env.
Proof.
  intros (A1 & A2 & _) [_ B]. split; [apply A1|]. eapply Forall_impl; [|exact B]. simpl. intros. lia.
Qed.

Lemma reach_grown h h' env : grown h h' -> scoped h env -> forall x, reach h' env x <-> reach h env x.
Proof.
  intros (A1 & A2 & A3) B. apply reach_frame. intros x Hx. apply A3. eapply reach_lt; eauto.
Qed.

Lemma denotes_grown h h' env l t : grown h h' -> scoped h env -> In l env -> denotes h l t -> denotes h' l t.
Proof.
  intros G B Hl Hd. apply (denotes_frame h h' env l t); auto. intros x Hx. destruct G as (_ & _ & G). apply G. eapply reach_lt; eauto.
Qed.

Lemma separate_grown h h' ea eb : grown h h' -> separate (h, (ea, eb)) -> separate (h', (ea, eb)).
Proof.
  intros G (A & B & D). split; [|split]; [eapply scoped_grown; eauto..|]. intros x Hx Hy.
  apply (reach_grown _ _ _ G A) in Hx. apply (reach_grown _ _ _ G B) in Hy. eauto.
Qed.

Lemma scoped_snoc h env c : scoped h env -> c < length h -> scoped h (env ++ [c]).
Proof. intros [A B] Hc. split; auto. apply Forall_app. split; auto. Qed.

Lemma separate_snoc_l h h' ea eb c : grown h h' -> fresh h h' c -> separate (h, (ea, eb)) -> separate (h', (ea ++ [c], eb)).
Proof.
  intros G (F1 & F2) S. destruct (separate_grown _ _ _ _ G S) as (A & B & D). split; [now apply scoped_snoc|]. split; auto.
  intros x Hx Hy. apply reach_app in Hx. destruct Hx as [Hx|Hx]; [eauto|]. apply F2 in Hx.
  destruct S as (_ & Sb & _). apply (reach_grown _ _ _ G Sb) in Hy. apply (reach_lt _ _ _ Sb) in Hy. lia.
Qed.

Lemma separate_sym h ea eb : separate (h, (ea, eb)) -> separate (h, (eb, ea)).
Proof. intros (A & B & D). split; [auto|]. split; eauto. Qed.

Lemma separate_snoc_r h h' ea eb c : grown h h' -> fresh h h' c -> separate (h, (ea, eb)) -> separate (h', (ea, eb ++ [c])).
Proof. intros G F S. apply separate_sym. eapply separate_snoc_l; eauto using separate_sym. Qed.

Lemma msg_new_grown f a b l h h' r : scoped h [] -> msg_new f a b l h = (h', r) ->
  grown h h' /\ match r with Ok m => fresh h h' (m_dg m) | _ => True end.
Proof.
  intros Sc E. unfold msg_new, bind in E. destruct (dg_copy_ctor f l h) as [h1 r1] eqn:E1.
  destruct (copy_grown _ _ _ _ _ Sc E1) as (G1 & F1).
  destruct r1 as [c1| | |]; try (injection E as <- <-; auto; fail).
  destruct (dg_copy_ctor f c1 h1) as [h2 r2] eqn:E2. assert (S1 : scoped h1 []) by apply G1.
  destruct (copy_grown _ _ _ _ _ S1 E2) as (G2 & F2).
  destruct r2 as [c2| | |]; injection E as <- <-; (split; [eauto using grown_trans|]); auto.
  simpl. destruct F2 as (F2 & F3). split; auto. intros x Hx. apply F3 in Hx. destruct G1 as (_ & G1 & _). lia.
Qed.

Lemma msg_copy_grown f m h h' r : scoped h [] -> msg_copy f m h = (h', r) ->
  grown h h' /\ match r with Ok m => fresh h h' (m_dg m) | _ => True end.
Proof.
  intros Sc E. unfold msg_copy, bind in E. destruct (dg_copy_ctor f (m_dg m) h) as [h1 r1] eqn:E1.
  destruct (copy_grown _ _ _ _ _ Sc E1) as (G1 & F1). destruct r1; injection E as <- <-; auto.
Qed.

(** ** The holder's datagrams and the payloads have no nodes in common *)

Definition mparts (st : mstate) : istate := (ms_heap st, (ms_env st, map m_dg (ms_msgs st))).

Lemma mstep_ok fuel o st st' r : separate (mparts st) -> mstep fuel o st = (st', r) ->
  separate (mparts st') /\
  (forall i m, nth_error (ms_msgs st) i = Some m -> nth_error (ms_msgs st') i = Some m /\
     forall t, denotes (ms_heap st) (m_dg m) t -> denotes (ms_heap st') (m_dg m) t) /\
  ((forall c, o <> MUse c) -> forall i l, nth_error (ms_env st) i = Some l -> nth_error (ms_env st') i = Some l /\
     forall t, denotes (ms_heap st) l t -> denotes (ms_heap st') l t).
Proof.
  intros Sp E.
  assert (K : forall h' env' msgs', grown (ms_heap st) h' -> separate (h', (env', map m_dg msgs')) ->
            (exists e, env' = ms_env st ++ e) -> (exists e, msgs' = ms_msgs st ++ e) -> st' = mkMS h' env' msgs' ->
            separate (mparts st') /\
  (forall i m, nth_error (ms_msgs st) i = Some m -> nth_error (ms_msgs st') i = Some m /\
     forall t, denotes (ms_heap st) (m_dg m) t -> denotes (ms_heap st') (m_dg m) t) /\
  ((forall c, o <> MUse c) -> forall i l, nth_error (ms_env st) i = Some l -> nth_error (ms_env st') i = Some l /\
     forall t, denotes (ms_heap st) l t -> denotes (ms_heap st') l t)).
  { intros h' env' msgs' G S' (e1 & ->) (e2 & ->) ->. destruct Sp as (A & B & _). split; [exact S'|]. simpl. split.
    - intros i m Hm. split; [now apply nth_app1_some|]. intros t. apply (denotes_grown _ _ _ _ _ G B).
      apply in_map. eapply nth_error_In; eauto.
    - intros _ i l Hl. split; [now apply nth_app1_some|]. intros t. apply (denotes_grown _ _ _ _ _ G A).
      eapply nth_error_In; eauto. }
  assert (Sc : scoped (ms_heap st) []) by (destruct Sp as (A & _); eapply scoped_heap; eauto).
  destruct st as [h env msgs]. simpl ms_heap in *. simpl ms_env in *. simpl ms_msgs in *.
  destruct o as [c|s sd tp|i|i]; cbn [mstep ms_heap ms_env ms_msgs] in E.
  - destruct (exec fuel c (h, env)) as [[h' env'] r'] eqn:Ex. injection E as <- <-.
    assert (Ei : iexec fuel (ISide true c) (h, (env, map m_dg msgs)) = ((h', (env', map m_dg msgs)), r')).
    { unfold iexec, iexec1, side. rewrite Ex. reflexivity. }
    destruct (iexec_separate _ _ _ _ _ Sp Ei) as (S' & _ & F). unfold other_env in F. simpl in F.
    split; [exact S'|]. simpl. split.
    + intros i m Hm. split; auto. intros t. apply denotes_frame with (env := map m_dg msgs); auto.
      apply in_map. eapply nth_error_In; eauto.
    + intros Hc. exfalso. eapply Hc. reflexivity.
  - destruct (nth_error env s) as [l|].
    + destruct (msg_new fuel sd tp l h) as [h' r'] eqn:En.
      destruct (msg_new_grown _ _ _ _ _ _ _ Sc En) as (G & F). injection E as <- <-.
      eapply K; [exact G| | | |reflexivity]; [|exists []; now rewrite app_nil_r|eauto].
      destruct r' as [m| | |]; rewrite map_app; simpl; rewrite ?app_nil_r;
        first [now eapply separate_snoc_r; eauto|now eapply separate_grown; eauto].
    + injection E as <- <-. eapply K; [apply grown_refl; auto|exact Sp| | |reflexivity]; exists []; now rewrite app_nil_r.
  - destruct (nth_error msgs i) as [x|].
    + destruct (msg_copy fuel x h) as [h' r'] eqn:En.
      destruct (msg_copy_grown _ _ _ _ _ Sc En) as (G & F). injection E as <- <-.
      eapply K; [exact G| | | |reflexivity]; [|exists []; now rewrite app_nil_r|eauto].
      destruct r' as [m| | |]; rewrite map_app; simpl; rewrite ?app_nil_r;
        first [now eapply separate_snoc_r; eauto|now eapply separate_grown; eauto].
    + injection E as <- <-. eapply K; [apply grown_refl; auto|exact Sp| | |reflexivity]; exists []; now rewrite app_nil_r.
  - destruct (nth_error msgs i) as [x|].
    + unfold msg_datagram in E. destruct (dg_copy_ctor fuel (m_dg x) h) as [h' r'] eqn:En.
      destruct (copy_grown _ _ _ _ _ Sc En) as (G & F). injection E as <- <-.
      eapply K; [exact G| | | |reflexivity]; [|eauto|exists []; now rewrite app_nil_r].
      destruct r' as [m| | |]; simpl; rewrite ?app_nil_r;
        first [now eapply separate_snoc_l; eauto|now eapply separate_grown; eauto].
    + injection E as <- <-. eapply K; [apply grown_refl; auto|exact Sp| | |reflexivity]; exists []; now rewrite app_nil_r.
Qed.

Lemma minit_separate : separate (mparts minit).
Proof. split; [apply scoped_nil|]. split; [apply scoped_nil|]. intros x H _. apply (reach_lt _ _ _ scoped_nil) in H. simpl in H. lia. Qed.

Lemma mrun_ok fuel os : forall st st', separate (mparts st) -> mrun fuel os st = Some st' ->
  separate (mparts st') /\
  (forall i m, nth_error (ms_msgs st) i = Some m -> nth_error (ms_msgs st') i = Some m /\
     forall t, denotes (ms_heap st) (m_dg m) t -> denotes (ms_heap st') (m_dg m) t).
Proof.
  induction os as [|o os IH]; intros st st' Sp E.
  - injection E as <-. auto.
  - cbn [mrun] in E. destruct (mstep fuel o st) as [st1 r] eqn:Es.
    destruct (mstep_ok _ _ _ _ _ Sp Es) as (S1 & K1 & _).
    assert (E1 : mrun fuel os st1 = Some st') by (destruct r; first [exact E|discriminate]).
    destruct (IH _ _ S1 E1) as (S2 & K2). split; auto. intros i m Hm. destruct (K1 i m Hm) as (Hm1 & D1).
    destruct (K2 i m Hm1) as (Hm2 & D2). auto.
Qed.

(** * C69 *)

(** Whatever the holder did before, and whatever it does with its datagrams, with copies of messages and with the datagrams
    it gets out of messages, every message keeps its sender, topic and payload. *)
Theorem C69_unchanged : forall fuel os os' st st' i m t,
  mrun fuel os minit = Some st -> nth_error (ms_msgs st) i = Some m -> denotes (ms_heap st) (m_dg m) t ->
  mrun fuel os' st = Some st' ->
  nth_error (ms_msgs st') i = Some m /\ denotes (ms_heap st') (m_dg m) t.
Proof.
  intros fuel os os' st st' i m t R Hm Hd R'. destruct (mrun_ok _ _ _ _ minit_separate R) as (S1 & _).
  destruct (mrun_ok _ _ _ _ S1 R') as (_ & K). destruct (K i m Hm) as (A & B). auto.
Qed.
Print Assumptions C69_unchanged.

Lemma copy_total h l t : denotes h l t -> forall fuel, S (dg_depth t) <= fuel ->
  exists h' c, dg_copy_ctor fuel l h = (h', Ok c) /\ denotes h' c t.
Proof.
  intros (F & HO) fuel Hf. destruct (dg_copy_ctor_own fuel h l t F HO) as (h' & F' & E & O & _); [lia|].
  exists h', (length h). split; auto. eexists; eauto.
Qed.

(** Making a message takes the contents the datagram has at that time; copying a message and getting its datagram give the
    same contents again. None of the three changes a datagram the holder has. *)
Theorem C69_taken : forall fuel os st, mrun fuel os minit = Some st ->
  (forall s l t sender topic, nth_error (ms_env st) s = Some l -> denotes (ms_heap st) l t -> S (dg_depth t) <= fuel ->
     exists st' m, mstep fuel (MMake s sender topic) st = (st', Ok tt) /\ ms_msgs st' = ms_msgs st ++ [m] /\
       m_sender m = sender /\ m_topic m = topic /\ denotes (ms_heap st') (m_dg m) t) /\
  (forall i m t, nth_error (ms_msgs st) i = Some m -> denotes (ms_heap st) (m_dg m) t -> S (dg_depth t) <= fuel ->
     (exists st' m', mstep fuel (MCopy i) st = (st', Ok tt) /\ ms_msgs st' = ms_msgs st ++ [m'] /\
        m_sender m' = m_sender m /\ m_topic m' = m_topic m /\ denotes (ms_heap st') (m_dg m') t) /\
     (exists st' c, mstep fuel (MGet i) st = (st', Ok tt) /\ ms_env st' = ms_env st ++ [c] /\
        denotes (ms_heap st') c t)) /\
  (forall o st' r, (forall c, o <> MUse c) -> mstep fuel o st = (st', r) ->
     forall i l t, nth_error (ms_env st) i = Some l -> denotes (ms_heap st) l t ->
       nth_error (ms_env st') i = Some l /\ denotes (ms_heap st') l t).
Proof.
  intros fuel os st R. destruct (mrun_ok _ _ _ _ minit_separate R) as (S1 & _). split; [|split].
  - intros s l t sender topic Hs Hd Hf. cbn [mstep]. rewrite Hs. unfold msg_new.
    destruct (copy_total _ _ _ Hd _ Hf) as (h1 & c1 & E1 & D1). rewrite (bind_ok _ _ _ _ _ E1).
    destruct (copy_total _ _ _ D1 _ Hf) as (h2 & c2 & E2 & D2). rewrite (bind_ok _ _ _ _ _ E2). cbn.
    eexists _, _. split; [reflexivity|]. simpl. auto.
  - intros i m t Hm Hd Hf. cbn [mstep]. rewrite Hm. unfold msg_copy, msg_datagram.
    destruct (copy_total _ _ _ Hd _ Hf) as (h1 & c1 & E1 & D1). rewrite (bind_ok _ _ _ _ _ E1), E1. cbn. split.
    + eexists _, _. split; [reflexivity|]. simpl. auto.
    + eexists _, _. split; [reflexivity|]. simpl. auto.
  - intros o st' r Hc E i l t Hl Hd. destruct (mstep_ok _ _ _ _ _ S1 E) as (_ & _ & K).
    destruct (K Hc i l Hl) as (A & B). auto.
Qed.
Print Assumptions C69_taken.

Lemma one_key h l k p v :
  nth_error h l = Some (mkNode [(k, Some p)] [] None TDict) -> nth_error h p = Some (mkNode [] [] (Some v) TValue) ->
  own h l (Dct [(k, Val v)]) (l :: [p] ++ []).
Proof.
  intros A B. apply (own_dct _ _ [(k, Some p)]); auto; [repeat constructor|].
  apply owns_cons; [now apply own_val|apply owns_nil].
Qed.

(** d["a"] = 1; a message is made of d; d["a"] = 2; the message's datagram is read and changed; the message is copied. *)
Example C69_case :
  exists st m m', mrun 9 [MUse CNew; MUse (CViewKey 0 "a"%string); MUse (CAssignVal 1 (DInt 1%Z)); MMake 0 "s"%string "t"%string] minit = Some st /\
  nth_error (ms_msgs st) 0 = Some m /\ denotes (ms_heap st) (m_dg m) (Dct [("a"%string, Val (DInt 1%Z))]) /\
  exists st', mrun 9 [MUse (CAssignVal 1 (DInt 2%Z)); MGet 0; MUse (CClear 2); MCopy 0] st = Some st' /\
  ms_msgs st' = [m; m'] /\ length (ms_env st') = 3 /\
  denotes (ms_heap st') (m_dg m') (Dct [("a"%string, Val (DInt 1%Z))]) /\
  denotes (ms_heap st') 0 (Dct [("a"%string, Val (DInt 2%Z))]).
Proof.
  eexists _, _, _. split; [vm_compute; reflexivity|]. split; [reflexivity|]. split; [|eexists; split; [vm_compute; reflexivity|]].
  - cbn. eexists. eapply one_key; reflexivity.
  - split; [reflexivity|]. split; [reflexivity|]. cbn. split; eexists; eapply one_key; reflexivity.
Qed.
